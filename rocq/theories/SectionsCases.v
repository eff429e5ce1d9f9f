(** A section that the doubles place wrongly: the refutation in C78. *)
From Coq Require Import ZArith List Bool Lia Reals Lra.
From Coq.Floats Require Import SpecFloat.
From Flocq Require Import Core.
From Verif Require Import Num Defs State Coag Nucl Growth Oxid Tar SootModel Sect Calls F64 SpecBinomial SpecState SpecFrame SpecPsd SpecIeee SpecRound SpecSections
  StateProofs NumLaws FrameMain RoundProofs RoundExpr RoundRates RoundMain RoundCases RoundFinal SectionsLog.
Import ListNotations.
Local Open Scope R_scope.
Notation "x +. y" := (SFadd prec64 emax64 x y) (at level 50, left associativity).
Notation "x -. y" := (SFsub prec64 emax64 x y) (at level 50, left associativity).
Notation "x *. y" := (SFmul prec64 emax64 x y) (at level 40, left associativity).
Notation "x /. y" := (SFdiv prec64 emax64 x y) (at level 40, left associativity).
Notation one := (S754_finite false 4503599627370496 (-52)).
Notation sz := (S754_zero false).

(** ** the doubles involved *)
Definition lm0 : libm := mkLibm (fun x => x) (fun x => x) (fun x => x) (fun x => x) (fun x _ => x).
Definition powsR : list spec_float :=
  [one; rootTwo; S754_finite false 4503599627370497 (-51); S754_finite false 6369051672525774 (-51); S754_finite false 4503599627370497 (-50)].
Definition bins : list spec_float := Eval vm_compute in
  map (fun p => f64lit 100 0 *. p *. MWof (N:=F64 lm0) C_ /. Na (N:=F64 lm0)) powsR.
Definition lnF : spec_float := S754_finite false 6243314768165360 (-54).
Definition lnR : spec_float := S754_finite false 4682486076124020 (-52).
Definition il : spec_float := Eval vm_compute in f64lit 1 0 /. lnF.
Definition ratio (i j : nat) : spec_float := (binF bins i +. binF bins j) /. binF bins 0.

Lemma rootTwo_val : sfVal rootTwo = 6369051672525773 / 4503599627370496.
Proof. cbn [sfVal rootTwo cond_Zopp]. rewrite <- (bpow_powerRZ radix2). change (bpow radix2 (-52)) with (/ 4503599627370496). reflexivity. Qed.
Lemma ratio11 : ratio 1 1 = S754_finite false 6369051672525773 (-51). Proof. vm_compute. reflexivity. Qed.
Lemma ratio11_val : sfVal (ratio 1 1) = 6369051672525773 / 2251799813685248.
Proof. rewrite ratio11. cbn [sfVal cond_Zopp]. rewrite <- (bpow_powerRZ radix2). change (bpow radix2 (-51)) with (/ 2251799813685248). reflexivity. Qed.
Ltac hsn := cbv [hs Z.add Pos.add Pos.succ Nat.mul Nat.add].
Lemma ln_rootTwo x : nearestTo x (ln (sfVal rootTwo)) -> x = lnF.
Proof.
  apply near_unique; [split; reflexivity|lia|]. rewrite rootTwo_val. change (bpow radix2 (-54)) with (/ 18014398509481984). split.
  - replace ((IZR 6243314768165360 - / 2) * / 18014398509481984) with (INR 1 * (12486629536330719 / 36028797018963968)) by (cbn [INR]; lra).
    apply (ln_lo 8); [lra|lra|hsn; lra|hsn; cbn [pow]; lra].
  - replace ((IZR 6243314768165360 + / 2) * / 18014398509481984) with (INR 1 * (12486629536330721 / 36028797018963968)) by (cbn [INR]; lra).
    apply (ln_hi 17); [lra|lra|hsn; lra|hsn; cbn [pow]; lra].
Qed.
Lemma ln_ratio x : nearestTo x (ln (sfVal (ratio 1 1))) -> x = lnR.
Proof.
  apply near_unique; [split; reflexivity|lia|]. rewrite ratio11_val. change (bpow radix2 (-52)) with (/ 4503599627370496). split.
  - replace ((IZR 4682486076124020 - / 2) * / 4503599627370496) with (INR 3 * (9364972152248039 / 27021597764222976)) by (cbn [INR]; lra).
    apply (ln_lo 8); [lra|lra|hsn; lra|hsn; lra].
  - replace ((IZR 4682486076124020 + / 2) * / 4503599627370496) with (INR 3 * (9364972152248041 / 27021597764222976)) by (cbn [INR]; lra).
    apply (ln_hi 17); [lra|lra|hsn; lra|hsn; lra].
Qed.
Lemma rootTwo_between : between 1 2 rootTwo.
Proof. split; [split; reflexivity|]. rewrite rootTwo_val. lra. Qed.
Lemma pows lm k : correctPow lm -> (k < 5)%nat -> lm_pow lm rootTwo (f64lit (Z.of_nat k) 0) = nth k powsR sz.
Proof.
  intros CP H. pose proof (CP rootTwo k rootTwo_between ltac:(lia)) as N. revert N. rewrite rootTwo_val.
  destruct k as [|[|[|[|[|k]]]]]; [| | | | |lia]; cbn [nth powsR].
  - apply near_same; [split; reflexivity| |]; cbn [sfVal cond_Zopp]; rewrite <- (bpow_powerRZ radix2); change (bpow radix2 (-52)) with (/ 4503599627370496); [cbn [pow]|]; lra.
  - apply near_same; [split; reflexivity| |]; rewrite rootTwo_val; [cbn [pow]|]; lra.
  - apply near_unique; [split; reflexivity|lia|]. change (bpow radix2 (-51)) with (/ 2251799813685248). lra.
  - apply near_unique; [split; reflexivity|lia|]. change (bpow radix2 (-51)) with (/ 2251799813685248). lra.
  - apply near_unique; [split; reflexivity|lia|]. change (bpow radix2 (-50)) with (/ 1125899906842624). lra.
Qed.
Lemma bins_are lm : correctPow lm -> set_mBins (N:=F64 lm) 5 rootTwo 100 = bins.
Proof.
  intros CP. unfold set_mBins. cbn [map seq]. unfold nn. change (@npow (F64 lm)) with (lm_pow lm). change (@nlit (F64 lm)) with f64lit.
  rewrite !(pows lm) by (assumption || lia). cbn [nth powsR]. vm_compute. reflexivity.
Qed.

(** ** the searches that do not matter stay in range *)
Definition okRatios : bool := forallb (fun i => forallb (fun j =>
  let r := ratio i j in valid_binary prec64 emax64 r && f64fin r && SFleb (f64lit 2 0) r && SFleb r (f64lit 10 0)) (seq 0 5)) (seq 0 5).
Lemma ratios i j : (i < 5)%nat -> (j < 5)%nat -> isDouble (ratio i j) /\ 2 <= sfVal (ratio i j) <= 10.
Proof.
  intros Hi Hj. assert (O : okRatios = true) by (vm_compute; reflexivity). unfold okRatios in O. rewrite forallb_forall in O. specialize (O i ltac:(apply in_seq; lia)). rewrite forallb_forall in O. specialize (O j ltac:(apply in_seq; lia)).
  cbv zeta in O. rewrite !andb_true_iff in O. destruct O as [[[O1 O2] O3] O4]. assert (D : isDouble (ratio i j)) by (split; assumption). split; [exact D|].
  assert (D2 : isDouble (f64lit 2 0)) by (split; reflexivity). assert (D10 : isDouble (f64lit 10 0)) by (split; reflexivity).
  rewrite leb_val in O3, O4 by assumption.
  assert (V2 : sfVal (f64lit 2 0) = 2). { change (f64lit 2 0) with (S754_finite false 4503599627370496 (-51)). cbn [sfVal cond_Zopp]. rewrite <- (bpow_powerRZ radix2). change (bpow radix2 (-51)) with (/ 2251799813685248). lra. }
  assert (V10 : sfVal (f64lit 10 0) = 10). { change (f64lit 10 0) with (S754_finite false 5629499534213120 (-49)). cbn [sfVal cond_Zopp]. rewrite <- (bpow_powerRZ radix2). change (bpow radix2 (-49)) with (/ 562949953421312). lra. }
  rewrite V2 in O3. rewrite V10 in O4. destruct (Rle_bool_spec 2 (sfVal (ratio i j))); [|discriminate]. destruct (Rle_bool_spec (sfVal (ratio i j)) 10); [|discriminate]. auto.
Qed.
Lemma trunc_some x : isDouble x -> 0 <= sfVal x < 1000 -> exists t, f64trunc x = Some t.
Proof.
  intros [_ F] [L H]. destruct x as [s|s| |s m e]; try discriminate F; [eexists; reflexivity|]. unfold f64trunc. cbn [sfVal] in L, H. rewrite <- (bpow_powerRZ radix2) in L, H. pose proof (bpow_gt_0 radix2 e) as P.
  destruct s; cbn [cond_Zopp] in L, H; [exfalso; assert (IZR (- Zpos m) < 0) by (apply IZR_lt; lia); change (IZR radix2) with 2 in * ; nra|].
  destruct (Z.ltb_spec (Z.shiftl (Zpos m) e) (2 ^ 64)) as [Q|Q]; [eexists; reflexivity|exfalso].
  assert (W : IZR (Z.shiftl (Zpos m) e) <= IZR (Zpos m) * bpow radix2 e).
  { destruct (Z.le_gt_cases 0 e) as [G|G].
    - rewrite Z.shiftl_mul_pow2, mult_IZR by exact G. rewrite (IZR_Zpower radix2) by exact G. lra.
    - replace e with (- (- e))%Z by lia. rewrite <- Z.shiftr_opp_r, Z.opp_involutive, Z.shiftr_div_pow2 by lia. rewrite bpow_opp.
      assert (0 < 2 ^ (- e))%Z by (apply Z.pow_pos_nonneg; lia). rewrite <- (IZR_Zpower radix2) by lia. change (radix2 ^ - e)%Z with (2 ^ - e)%Z. pose proof (Z.mul_div_le (Zpos m) (2 ^ - e) H0) as D. apply IZR_le in D. rewrite mult_IZR in D.
      apply IZR_lt in H0. apply Rmult_le_reg_l with (IZR (2 ^ - e)); [exact H0|]. rewrite (Rmult_comm (IZR (Zpos m))), <- Rmult_assoc, Rinv_r, Rmult_1_l by lra. exact D. }
  change (IZR radix2) with 2 in * . assert (IZR (Z.shiftl (Zpos m) e) < IZR 1000) by lra. apply lt_IZR in H0. lia.
Qed.
Lemma two_1000 : 1000 <= 2 ^ 1000.
Proof. apply Rle_trans with (2 ^ 10); [lra|apply Rle_pow; [lra|lia]]. Qed.
Lemma search lm i j : correctLog lm -> (i < 5)%nat -> (j < 5)%nat -> exists t, f64trunc (il *. lm_log lm (ratio i j)) = Some t.
Proof.
  intros CL Hi Hj. destruct (ratios i j Hi Hj) as [D B]. pose proof two_1000 as TT. pose proof (Rinv_le_contravar 1 (2 ^ 1000) Rlt_0_1 (Rle_trans 1 1000 _ ltac:(lra) TT)) as TI. rewrite Rinv_1 in TI.
  assert (BB : / 2 ^ 1000 <= sfVal (ratio i j) <= 2 ^ 1000) by (split; [apply Rle_trans with (1 := TI); lra|apply Rle_trans with 1000; [lra|exact TT]]). clear TT TI.
  pose proof (CL (ratio i j) (conj D BB)) as N. clear BB. set (L := lm_log lm (ratio i j)) in * .
  assert (DH : isDouble (S754_finite false 4503599627370496 (-53))) by (split; reflexivity). assert (D4 : isDouble (S754_finite false 4503599627370496 (-50))) by (split; reflexivity).
  assert (VH : sfVal (S754_finite false 4503599627370496 (-53)) = / 2) by (cbn [sfVal cond_Zopp]; rewrite <- (bpow_powerRZ radix2); change (bpow radix2 (-53)) with (/ 9007199254740992); lra).
  assert (V4 : sfVal (S754_finite false 4503599627370496 (-50)) = 4) by (cbn [sfVal cond_Zopp]; rewrite <- (bpow_powerRZ radix2); change (bpow radix2 (-50)) with (/ 1125899906842624); lra).
  assert (LB : / 2 <= ln (sfVal (ratio i j)) <= 4).
  { pose proof (ln_lo 3 1 (/ 2) (sfVal (ratio i j)) ltac:(lra) ltac:(lra)) as Q1. pose proof (ln_hi 5 1 4 (sfVal (ratio i j)) ltac:(lra) ltac:(lra)) as Q2. cbn [INR] in Q1, Q2.
    assert (/ sfVal (ratio i j) <= / 2) by (apply Rinv_le_contravar; lra). split; apply Rlt_le; [replace (/ 2) with (1 * / 2) by ring; apply Q1; hsn; cbn [pow]; lra|replace 4 with (1 * 4) by ring; apply Q2; hsn; cbn [pow]; lra]. }
  pose proof (near_between L _ _ _ N DH D4 ltac:(rewrite VH, V4; exact LB)) as LB'. rewrite VH, V4 in LB'.
  assert (DI : isDouble il) by (split; reflexivity).
  assert (VI : 2 <= sfVal il <= 4). { unfold il. cbn [sfVal cond_Zopp]. rewrite <- (bpow_powerRZ radix2). change (bpow radix2 (-51)) with (/ 2251799813685248). lra. }
  assert (PB : 1 <= sfVal il * sfVal L <= 16) by (split; nra).
  destruct (mul_any il L DI (proj1 N)) as [DM VM].
  { rewrite Rabs_pos_eq by lra. apply Rle_trans with (bpow radix2 10); [change (bpow radix2 10) with 1024; lra|apply bpow_le; lia]. }
  apply trunc_some; [exact DM|]. rewrite (Rabs_pos_eq (sfVal il * sfVal L)) in VM by lra.
  assert (bpow radix2 (-1000) <= bpow radix2 (-10)) by (apply bpow_le; lia). change (bpow radix2 (-10)) with (/ 1024) in H.
  assert (/ 2 ^ 53 <= / 1000) by (apply Rinv_le_contravar; [lra|apply Rle_trans with (2 ^ 10); [lra|apply Rle_pow; [lra|lia]]]).
  assert (Rabs (sfVal (il *. L) - sfVal il * sfVal L) <= 1 / 2) by nra. apply Rabs_le_inv in H1. lra.
Qed.

(** ** zeros *)
Definition fin (x : spec_float) : Prop := f64fin x = true.
Lemma z_mul x y : isZero x -> fin y -> isZero (x *. y). Proof. intros [s ->] F. destruct y; try discriminate F; eexists; reflexivity. Qed.
Lemma mul_z x y : fin x -> isZero y -> isZero (x *. y). Proof. intros F [s ->]. destruct x; try discriminate F; eexists; reflexivity. Qed.
Lemma z_div x s m e : isZero x -> isZero (x /. S754_finite s m e). Proof. intros [t ->]. eexists. reflexivity. Qed.
(** [w'] is [w], up to the sign of a zero *)
Definition keep (w w' : spec_float) : Prop := (isZero w /\ isZero w') \/ (w' = w /\ exists s m e, w = S754_finite s m e).
Lemma keep_trans a b c : keep a b -> keep b c -> keep a c.
Proof.
  intros [[A B]|[-> A]] H; [|exact H]. destruct H as [[_ C]|[-> C]]; [left; auto|]. destruct B as [s ->]. destruct C as (? & ? & ? & C). discriminate C.
Qed.
Definition kept (w : spec_float) : Prop := isZero w \/ exists s m e, w = S754_finite s m e.
Lemma keep_refl w : kept w -> keep w w. Proof. intros [H|H]; [left; auto|right; auto]. Qed.
Lemma keep_kept w w' : keep w w' -> kept w'. Proof. intros [[_ H]|[-> H]]; [left; exact H|right; exact H]. Qed.
Lemma add_z w x : kept w -> isZero x -> keep w (w +. x).
Proof. intros [[s ->]|(s & m & e & ->)] [t ->]; [left|right]; [split; [eexists; reflexivity|destruct s, t; eexists; reflexivity]|split; [reflexivity|eauto]]. Qed.
Lemma sub_z w x : kept w -> isZero x -> keep w (w -. x).
Proof. intros [[s ->]|(s & m & e & ->)] [t ->]; [left|right]; [split; [eexists; reflexivity|destruct s, t; eexists; reflexivity]|split; [reflexivity|eauto]]. Qed.

Section Pairs.
Context (lm : libm) (AC : accurate lm) (CL : correctLog lm) (CP : correctPow lm).
Notation FN := (F64 lm).
Definition crowd : args FN :=
  mkArgs (N:=FN) (pw 11) (pw 17) (pw (-3)) (pw (-14)) (repeat sz 11) (repeat sz 6) [sz; one; sz; sz; sz] 5 [] 0 (pw 6).
Lemma crowd_usual : usual crowd.
Proof.
  assert (D6 : 10 ^ 6 = 1000000) by lra. assert (D8 : 10 ^ 8 = 100000000) by lra. assert (D9 : 10 ^ 9 = 1000000000) by lra.
  assert (Z0 : forall lo hi, zeroOr lo hi sz) by (intros; split; [split; reflexivity|left; reflexivity]).
  unfold usual, crowd. cbn [aT aP arho amu acMin ayGas ayPah asoot].
  split; [apply pw_between; [reflexivity|change (bpow radix2 11) with 2048; lra..]|].
  split; [apply pw_between; [reflexivity|change (bpow radix2 17) with 131072; lra..]|].
  split; [apply pw_between; [reflexivity|change (bpow radix2 (-3)) with (/ 8); lra..]|].
  split; [apply pw_between; [reflexivity|change (bpow radix2 (-14)) with (/ 16384); lra..]|].
  split; [apply pw_between; [reflexivity|change (bpow radix2 6) with 64; lra..]|].
  split; [reflexivity|]. split; [|split; [reflexivity|split; [|split; [cbn; lia|]]]].
  - intros y I. apply repeat_spec in I. subst y. apply Z0.
  - intros y I. apply repeat_spec in I. subst y. apply Z0.
  - assert (V1 : sfVal one = 1) by (cbn [sfVal cond_Zopp]; rewrite <- (bpow_powerRZ radix2); change (bpow radix2 (-52)) with (/ 4503599627370496); lra).
    assert (P30 : 1 <= 10 ^ 30) by (apply pow_R1_Rle; lra). pose proof (Rinv_le_contravar 1 (10 ^ 30) Rlt_0_1 P30) as Q30. rewrite Rinv_1 in Q30.
    intros y I. cbn [In] in I. destruct I as [<-|[<-|[<-|[<-|[<-|[]]]]]]; try apply Z0. split; [split; reflexivity|right]. rewrite V1. auto.
Qed.
Context (s0 s : state (N:=FN)) (HC : call s0 crowd = SetOk s).
Notation c := (newCoag (N:=FN) C_FM).
Notation mb := (at_ (N:=FN) bins).
Notation n := (at_ (N:=FN) [sz; one; sz; sz; sz]).
Definition okBins : bool := forallb (fun i => let b := binF bins i in valid_binary prec64 emax64 b && f64fin b && SFleb (pw (-80)) b && SFleb b (pw 0)) (seq 0 5).
Lemma bin_between i : (i < 5)%nat -> between (3 / 10 ^ 26) 1 (binF bins i).
Proof.
  intros Hi. assert (O : okBins = true) by (vm_compute; reflexivity). unfold okBins in O. rewrite forallb_forall in O. specialize (O i ltac:(apply in_seq; lia)). cbv zeta in O. rewrite !andb_true_iff in O. destruct O as [[[O1 O2] O3] O4].
  assert (D : isDouble (binF bins i)) by (split; assumption). split; [exact D|]. rewrite leb_val in O3, O4 by (assumption || (split; reflexivity)).
  rewrite !pw_val in O3, O4. destruct (Rle_bool_spec (bpow radix2 (-80)) (sfVal (binF bins i))) as [Q1|]; [|discriminate]. destruct (Rle_bool_spec (sfVal (binF bins i)) (bpow radix2 0)) as [Q2|]; [|discriminate].
  split; [|change (bpow radix2 0) with 1 in Q2; exact Q2]. apply Rle_trans with (2 := Q1). change (-80)%Z with (- (80))%Z. rewrite bpow_opp. change (bpow radix2 80) with (IZR (2 ^ 80)). rewrite pow_IZR.
  apply (Rmult_le_reg_r (IZR (10 ^ 26))); [apply IZR_lt; reflexivity|]. unfold Rdiv. rewrite Rmult_assoc, Rinv_l, Rmult_1_r by (apply Rgt_not_eq, IZR_lt; reflexivity).
  apply (Rmult_le_reg_l (IZR (2 ^ 80))); [apply IZR_lt; reflexivity|]. rewrite <- Rmult_assoc, Rinv_r, Rmult_1_l by (apply Rgt_not_eq, IZR_lt; reflexivity). rewrite <- mult_IZR. apply IZR_le, Z.leb_le. vm_compute. reflexivity.
Qed.
Lemma kern_fin i j : (i < 5)%nat -> (j < 5)%nat -> fin (coagRate (N:=FN) c s (mb i) (mb j)).
Proof.
  intros Hi Hj. pose proof (C71_kern_ lm AC crowd s0 s c (binF bins i) (binF bins j) crowd_usual HC ltac:(discriminate) ltac:(discriminate) one_between (bin_between i Hi) (bin_between j Hj)) as [[_ F] _]. exact F.
Qed.
Definition okShares : bool := forallb (fun i => forallb (fun j => forallb (fun t =>
  let X := (binF bins (S t) -. (binF bins i +. binF bins j)) /. (binF bins (S t) -. binF bins t) in
  f64fin X && f64fin (one -. X) && f64fin (binF bins i +. binF bins j)) (seq 0 4)) (seq 0 5)) (seq 0 5).
Lemma shares i j t : (i < 5)%nat -> (j < 5)%nat -> (t < 4)%nat ->
  let X := (binF bins (S t) -. (binF bins i +. binF bins j)) /. (binF bins (S t) -. binF bins t) in
  fin X /\ fin (one -. X) /\ fin (binF bins i +. binF bins j).
Proof.
  intros Hi Hj Ht. assert (O : okShares = true) by (vm_compute; reflexivity). unfold okShares in O. rewrite forallb_forall in O. specialize (O i ltac:(apply in_seq; lia)).
  rewrite forallb_forall in O. specialize (O j ltac:(apply in_seq; lia)). rewrite forallb_forall in O. specialize (O t ltac:(apply in_seq; lia)). cbv zeta in O. rewrite !andb_true_iff in O. destruct O as [[O1 O2] O3]. unfold fin. auto.
Qed.
Lemma upd4 (v : list (@num FN)) k x : length (upd v k x) = length v /\ (at_ (N:=FN) (upd v k x) 4 = at_ (N:=FN) v 4 \/ (k = 4%nat /\ at_ (N:=FN) (upd v k x) 4 = x)).
Proof.
  split; [revert k; induction v as [|h t IH]; intros k; [reflexivity|]; destruct k; cbn; [reflexivity|f_equal; apply IH]|].
  unfold at_. generalize 4%nat as j. intro j. revert k j. induction v as [|h t IH]; intros k j; [left; reflexivity|]. destruct k, j; cbn [upd nth]; auto.
  destruct (IH k j) as [E|[-> E]]; auto.
Qed.
Lemma add4 (v : list (@num FN)) k x : kept (at_ (N:=FN) v 4) -> isZero x -> length (addAt (N:=FN) v k x) = length v /\ keep (at_ (N:=FN) v 4) (at_ (N:=FN) (addAt (N:=FN) v k x) 4).
Proof. intros K Z. unfold addAt. destruct (upd4 v k (nadd (Num:=FN) (at_ (N:=FN) v k) x)) as [L [E|[E1 E]]]; (split; [exact L|]); rewrite E; [apply keep_refl; exact K|]. subst k. apply add_z; assumption. Qed.
Lemma sub4 (v : list (@num FN)) k x : kept (at_ (N:=FN) v 4) -> isZero x -> length (subAt (N:=FN) v k x) = length v /\ keep (at_ (N:=FN) v 4) (at_ (N:=FN) (subAt (N:=FN) v k x) 4).
Proof. intros K Z. unfold subAt. destruct (upd4 v k (nsub (Num:=FN) (at_ (N:=FN) v k) x)) as [L [E|[E1 E]]]; (split; [exact L|]); rewrite E; [apply keep_refl; exact K|]. subst k. apply sub_z; assumption. Qed.

Lemma bin_finite k : (k < 5)%nat -> exists m e, binF bins k = S754_finite false m e.
Proof. intros H. destruct k as [|[|[|[|[|k]]]]]; [..|lia]; do 2 eexists; reflexivity. Qed.
Lemma kern_expr e v i j : (i < 5)%nat -> (j < 5)%nat -> an (aenv true) e = Some v -> exists r, rel v (ev (N:=FN) (fenv lm crowd (binF bins i) (binF bins j) one) e) r.
Proof.
  intros Hi Hj A. assert (Z : true = false -> 0 < soot0 crowd /\ 0 < soot1 crowd) by discriminate.
  destruct (an_sound lm AC (aenv true) _ _ (env_rel lm crowd crowd_usual (binF bins i) (binF bins j) one (sfVal (binF bins i)) (sfVal (binF bins j)) (mass_rel _ (bin_between i Hi)) (mass_rel _ (bin_between j Hj)) one_between true Z) e v A) as [_ R].
  eexists. exact R.
Qed.
Lemma kern_is i j : (i < 5)%nat -> (j < 5)%nat -> coagRate (N:=FN) c s (mb i) (mb j) = ev (N:=FN) (fenv lm crowd (binF bins i) (binF bins j) one) (kernE C_FM (EVar 7) (EVar 8) (EVar 9)).
Proof.
  intros Hi Hj. exact (kern_float lm crowd crowd_usual (binF bins i) (binF bins j) one (sfVal (binF bins i)) (sfVal (binF bins j)) (mass_rel _ (bin_between i Hi)) (mass_rel _ (bin_between j Hj)) s0 s c HC ltac:(discriminate) eq_refl).
Qed.
Lemma kern_one i j : (i < 5)%nat -> (j < 5)%nat -> fin (coagRate (N:=FN) c s (mb i) (mb j) *. one).
Proof.
  intros Hi Hj. rewrite kern_is by assumption. assert (A : exists v, an (aenv true) (EMul (kernE C_FM (EVar 7) (EVar 8) (EVar 9)) (ELit 1 0)) = Some v) by (eexists; vm_compute; reflexivity).
  destruct A as [v A]. destruct (kern_expr _ v i j Hi Hj A) as [r R]. cbn [ev] in R. change (nlit (Num:=FN) 1 0) with one in R. destruct R as [(_ & _ & b & E)|[D _]]; [|apply D].
  change (fin (nmul (Num:=FN) (ev (N:=FN) (fenv lm crowd (binF bins i) (binF bins j) one) (kernE C_FM (EVar 7) (EVar 8) (EVar 9))) one)). rewrite E. reflexivity.
Qed.
Lemma term_zero i j : (i < 5)%nat -> (j < 5)%nat -> (i <> 1 \/ j <> 1)%nat -> isZero (coagRate (N:=FN) c s (mb i) (mb j) *. n i *. n j).
Proof.
  intros Hi Hj NE. pose proof (kern_fin i j Hi Hj) as F.
  assert (Q : forall k, (k < 5)%nat -> (isZero (n k) \/ k = 1%nat) /\ fin (n k)). { intros k H. destruct k as [|[|[|[|[|k]]]]]; [..|lia]; (split; [|reflexivity]); (left; eexists; reflexivity) || (right; reflexivity). }
  destruct (Q i Hi) as [[Zi|Ei] Fi], (Q j Hj) as [[Zj|Ej] Fj].
  - apply z_mul; [apply mul_z; assumption|exact Fj].
  - apply z_mul; [apply mul_z; assumption|exact Fj].
  - apply mul_z; [|exact Zj]. subst i. apply kern_one; assumption.
  - lia.
Qed.
Lemma at_bin k : mb k = binF bins k. Proof. reflexivity. Qed.
Lemma gain_zero term i j t (v : list (@num FN)) : isZero term -> (i < 5)%nat -> (j < 5)%nat -> kept (at_ (N:=FN) v 4) ->
  length (sectGain (N:=FN) 5 mb term i j t v) = length v /\ keep (at_ (N:=FN) v 4) (at_ (N:=FN) (sectGain (N:=FN) 5 mb term i j t v) 4).
Proof.
  intros Z Hi Hj K. unfold sectGain. set (t' := if (5 <=? t)%nat then (5 - 1)%nat else t). cbv zeta. assert (LT : (t' < 5)%nat). { unfold t'. destruct (Nat.leb_spec 5 t); lia. } clearbody t'. clear t.
  destruct (Nat.eqb_spec t' (5 - 1)) as [E|E].
  - apply add4; [exact K|]. cbn [nmul nadd ndiv F64 num]. destruct (bin_finite t' LT) as (m & e & EB). change (at_ (N:=FN) bins) with (binF bins). rewrite EB. apply z_div. apply z_mul; [exact Z|]. apply (shares i j 0 Hi Hj). lia.
  - destruct (shares i j t' Hi Hj ltac:(lia)) as (X1 & X2 & _). cbn [nmul nadd nsub ndiv F64 num]. change (at_ (N:=FN) bins) with (binF bins). change (nZ (N:=FN) 1) with one.
    set (X := (binF bins (S t') -. _) /. _) in * . destruct (add4 v t' (X *. term) K (mul_z _ _ X1 Z)) as [L1 K1].
    destruct (add4 (addAt (N:=FN) v t' (X *. term)) (S t') ((one -. X) *. term) (keep_kept _ _ K1) (mul_z _ _ X2 Z)) as [L2 K2].
    split; [exact (eq_trans L2 L1)|exact (keep_trans _ _ _ K1 K2)].
Qed.
Lemma pair_zero (v : list (@num FN)) i j : (i < 5)%nat -> (j < 5)%nat -> (i <> 1 \/ j <> 1)%nat -> kept (at_ (N:=FN) v 4) ->
  exists v', sectPair (N:=FN) c s 5 mb n il v i j = Ok v' /\ length v' = length v /\ keep (at_ (N:=FN) v 4) (at_ (N:=FN) v' 4).
Proof.
  intros Hi Hj NE K. unfold sectPair. cbv zeta. pose proof (term_zero i j Hi Hj NE) as Z. cbn [nmul nadd ndiv nlog ntrunc F64 num]. change (at_ (N:=FN) bins) with (binF bins) in * .
  set (term := coagRate c s (binF bins i) (binF bins j) *. n i *. n j) in * . clearbody term. destruct (search lm i j CL Hi Hj) as [t ET]. unfold ratio in ET.
  match goal with |- context [match ?x with Some _ => _ | None => _ end] => replace x with (Some t) by (symmetry; exact ET) end.
  destruct (sub4 v i term K Z) as [L1 K1]. set (v1 := subAt (N:=FN) v i term) in * . clearbody v1.
  assert (H2 : let v2 := if (i <? j)%nat then subAt (N:=FN) v1 j term else v1 in length v2 = length v1 /\ keep (at_ (N:=FN) v1 4) (at_ (N:=FN) v2 4)).
  { cbv zeta. destruct (i <? j)%nat; [apply sub4; [exact (keep_kept _ _ K1)|exact Z]|split; [reflexivity|exact (keep_refl _ (keep_kept _ _ K1))]]. }
  cbv zeta in H2. set (v2 := if (i <? j)%nat then subAt (N:=FN) v1 j term else v1) in * . destruct H2 as [L2 K2].
  set (term2 := if (i =? j)%nat then term *. nlit (Num:=FN) 5 (-1) else term). assert (Z2 : isZero term2) by (unfold term2; destruct (i =? j)%nat; [apply z_mul; [exact Z|reflexivity]|exact Z]).
  destruct (gain_zero term2 i j t v2 Z2 Hi Hj (keep_kept _ _ K2)) as [L3 K3].
  eexists. split; [reflexivity|]. split; [exact (eq_trans L3 (eq_trans L2 L1))|exact (keep_trans _ _ _ K1 (keep_trans _ _ _ K2 K3))].
Qed.

(** ** the collision that matters *)
Lemma log11 : lm_log lm (ratio 1 1) = lnR.
Proof.
  destruct (ratios 1 1 ltac:(lia) ltac:(lia)) as [D B]. apply ln_ratio. apply CL. split; [exact D|]. pose proof two_1000 as TT. pose proof (Rinv_le_contravar 1 (2 ^ 1000) Rlt_0_1 (Rle_trans 1 1000 _ ltac:(lra) TT)) as TI. rewrite Rinv_1 in TI.
  split; [apply Rle_trans with (1 := TI); lra|apply Rle_trans with 1000; [lra|exact TT]].
Qed.
Lemma loss : exists m e, (one -. (binF bins 4 -. (binF bins 1 +. binF bins 1)) /. (binF bins 4 -. binF bins 3)) *. (coagRate (N:=FN) c s (mb 1) (mb 1) *. one *. one *. f64lit 5 (-1)) = S754_finite true m e.
Proof.
  rewrite kern_is by lia.
  set (E := EMul (EOpp (EDiv (ELit 1 0) (ELit 4503599627370496 0))) (EMul (EMul (EMul (kernE C_FM (EVar 7) (EVar 8) (EVar 9)) (ELit 1 0)) (ELit 1 0)) (ELit 5 (-1)))).
  assert (A : exists v, an (aenv true) E = Some v /\ av_neg v = true /\ av_mz v = false) by (eexists; split; [vm_compute; reflexivity|split; reflexivity]).
  destruct A as (v & A & SN & NZ). destruct (kern_expr _ v 1 1 ltac:(lia) ltac:(lia) A) as [r [(M & _)|(D & P & _ & t & _ & V)]]; [congruence|]. rewrite SN in P. unfold E in D, V. cbn [ev] in D, V.
  change (nlit (Num:=FN)) with f64lit in D, V. set (K := ev (N:=FN) _ (kernE C_FM (EVar 7) (EVar 8) (EVar 9))) in * . clearbody K.
  change (nmul (Num:=FN)) with (SFmul prec64 emax64) in D, V. change (ndiv (Num:=FN)) with (SFdiv prec64 emax64) in D, V. change (nopp (Num:=FN)) with SFopp in D, V.
  change (SFopp (f64lit 1 0 /. f64lit 4503599627370496 0)) with (S754_finite true 4503599627370496 (-104)) in D, V. change (f64lit 1 0) with one in D, V.
  assert (EX : one -. (binF bins 4 -. (binF bins 1 +. binF bins 1)) /. (binF bins 4 -. binF bins 3) = S754_finite true 4503599627370496 (-104)) by (vm_compute; reflexivity).
  rewrite EX. set (w := S754_finite true 4503599627370496 (-104) *. _) in * . clearbody w.
  assert (W : sfVal w < 0) by (rewrite V; pose proof (exp_pos t); nra). destruct (dbl_cases w D) as [[b ->]|(b & m & e & ->)]; [cbn in W; lra|]. destruct b; [eauto|]. exfalso. cbn [sfVal cond_Zopp] in W.
  assert (0 < powerRZ 2 e) by (apply powerRZ_lt; lra). assert (0 < IZR (Zpos m)) by (apply IZR_lt; lia). nra.
Qed.
Lemma pair_loss (v : list (@num FN)) : length v = 5%nat -> isZero (at_ (N:=FN) v 4) ->
  exists v' m e, sectPair (N:=FN) c s 5 mb n il v 1 1 = Ok v' /\ length v' = 5%nat /\ at_ (N:=FN) v' 4 = S754_finite true m e.
Proof.
  intros L [sg Z]. destruct loss as (m & e & EL). unfold sectPair. cbv zeta. cbn [nmul nadd ndiv nlog ntrunc F64 num Nat.ltb Nat.leb Nat.eqb]. change (at_ (N:=FN) bins) with (binF bins) in * .
  change ((binF bins 1 +. binF bins 1) /. binF bins 0) with (ratio 1 1). rewrite log11. replace (f64trunc (il *. lnR)) with (Some 3%nat) by (vm_compute; reflexivity).
  destruct v as [|v0 [|v1 [|v2 [|v3 [|v4 [|]]]]]]; try discriminate L. unfold sectGain. cbv zeta. cbn [Nat.leb Nat.eqb Nat.sub addAt subAt upd at_ nth].
  do 3 eexists. split; [reflexivity|]. split; [reflexivity|]. cbn [nth]. unfold at_ in * . cbn [nth] in Z. rewrite Z. cbn [nmul nadd nsub ndiv F64 num]. change (nZ (N:=FN) 1) with one. change (nlit (Num:=FN)) with f64lit.
  change (nth 1 [sz; one; sz; sz; sz] (nZ (N:=FN) 0)) with one. change (nth 3 bins (nZ (N:=FN) 0)) with (binF bins 3). change (nth 4 bins (nZ (N:=FN) 0)) with (binF bins 4).
  rewrite EL. reflexivity.
Qed.
Lemma row_zero i l : forall v : list (@num FN), (i < 5)%nat -> (forall j, In j l -> (j < 5)%nat /\ (i <> 1 \/ j <> 1)%nat) -> kept (at_ (N:=FN) v 4) ->
  exists v', foldM (fun v j => sectPair (N:=FN) c s 5 mb n il v i j) l v = Ok v' /\ length v' = length v /\ keep (at_ (N:=FN) v 4) (at_ (N:=FN) v' 4).
Proof.
  induction l as [|j l IH]; intros v Hi Hl K; cbn [foldM]; [exists v; split; [reflexivity|split; [reflexivity|apply keep_refl; exact K]]|].
  destruct (Hl j (or_introl eq_refl)) as [Hj NE]. destruct (pair_zero v i j Hi Hj NE K) as (v1 & E1 & L1 & K1). rewrite E1. cbn [bind].
  destruct (IH v1 Hi (fun q Hq => Hl q (or_intror Hq)) (keep_kept _ _ K1)) as (v2 & E2 & L2 & K2). exists v2. split; [exact E2|]. split; [exact (eq_trans L2 L1)|exact (keep_trans _ _ _ K1 K2)].
Qed.
Lemma rows_zero l : forall v : list (@num FN), (forall i, In i l -> (i < 5)%nat /\ i <> 1%nat) -> kept (at_ (N:=FN) v 4) ->
  exists v', foldM (fun v i => foldM (fun v j => sectPair (N:=FN) c s 5 mb n il v i j) (seq i (5 - i)) v) l v = Ok v' /\ length v' = length v /\ keep (at_ (N:=FN) v 4) (at_ (N:=FN) v' 4).
Proof.
  induction l as [|i l IH]; intros v Hl K; cbn [foldM]; [exists v; split; [reflexivity|split; [reflexivity|apply keep_refl; exact K]]|].
  destruct (Hl i (or_introl eq_refl)) as [Hi NE]. destruct (row_zero i (seq i (5 - i)) v Hi) as (v1 & E1 & L1 & K1); [intros j Hj; apply in_seq in Hj; split; [lia|left; exact NE]|exact K|]. rewrite E1. cbn [bind].
  destruct (IH v1 (fun q Hq => Hl q (or_intror Hq)) (keep_kept _ _ K1)) as (v2 & E2 & L2 & K2). exists v2. split; [exact E2|]. split; [exact (eq_trans L2 L1)|exact (keep_trans _ _ _ K1 K2)].
Qed.
Lemma coag_loss : exists v m e, sectCoag (N:=FN) c s 5 mb n il = Ok v /\ at_ (N:=FN) v 4 = S754_finite true m e.
Proof.
  unfold sectCoag. change (seq 0 5) with (0 :: 1 :: [2; 3; 4])%nat.
  assert (K0 : kept (at_ (N:=FN) (zeros (N:=FN) 5) 4)) by (left; eexists; reflexivity).
  destruct (row_zero 0 (seq 0 5) (zeros (N:=FN) 5) ltac:(lia)) as (v1 & E1 & L1 & K1); [intros j Hj; apply in_seq in Hj; split; [lia|left; lia]|exact K0|].
  cbn [foldM]. change (5 - 0)%nat with 5%nat. rewrite E1. cbn [bind]. change (seq 1 (5 - 1)) with (1 :: [2; 3; 4])%nat. cbn [foldM].
  assert (Z1 : isZero (at_ (N:=FN) v1 4)). { destruct K1 as [[_ Z]|[_ (? & ? & ? & W)]]; [exact Z|discriminate W]. }
  destruct (pair_loss v1 L1 Z1) as (v2 & m & e & E2 & L2 & V2). rewrite E2. cbn [bind].
  assert (K2 : kept (at_ (N:=FN) v2 4)) by (right; rewrite V2; eauto).
  destruct (row_zero 1 [2; 3; 4]%nat v2 ltac:(lia)) as (v3 & E3 & L3 & K3); [intros j Hj; cbn [In] in Hj; lia|exact K2|].
  cbn [foldM] in E3. rewrite E3. cbn [bind].
  destruct (rows_zero [2; 3; 4]%nat v3) as (v4 & E4 & L4 & K4); [intros j Hj; cbn [In] in Hj; lia|exact (keep_kept _ _ K3)|].
  cbn [foldM] in E4. exists v4, m, e. split; [exact E4|].
  pose proof (keep_trans _ _ _ K3 K4) as K. rewrite V2 in K. destruct K as [[[b W] _]|[W _]]; [discriminate W|exact W].
Qed.
End Pairs.

Lemma C78_refuted_ lm : accurate lm -> correctLog lm -> correctPow lm ->
  exists (m : model (N:=F64 lm)) (a : args (F64 lm)) s g2 m2 s2 x,
    constructEnum P_SECT 5 N_NONE G_NONE O_NONE C_FM 0 T_NONE (rootTwo : @num (F64 lm)) 100 = Ok m /\ ladder (sm_mBins m) /\
    usual a /\ call (newState 5 0) a = SetOk s /\ nth_error (sootVar s) 4 = Some (S754_zero false) /\
    (forall eig, setSourceTerms None eig m s = Ok (g2, m2, s2)) /\ nth_error (sootSources (sm_sources m2)) 4 = Some x /\ negative x.
Proof.
  intros AC CL CP.
  assert (EM : exists m : model (N:=F64 lm), constructEnum P_SECT 5 N_NONE G_NONE O_NONE C_FM 0 T_NONE (rootTwo : @num (F64 lm)) 100 = Ok m /\ sm_psd m = P_SECT /\ sm_nsoot m = 5%nat /\
    sm_nucl m = newNucl N_NONE /\ sm_grow m = newGrow G_NONE /\ sm_oxid m = newOxid O_NONE /\ sm_coag m = newCoag C_FM /\ sm_mBins m = set_mBins 5 (rootTwo : @num (F64 lm)) 100 /\ sm_priv m = PrivSect (rootTwo : @num (F64 lm)) []).
  { eexists. split; [reflexivity|]. repeat (split; [reflexivity|]). reflexivity. }
  destruct EM as (m & CO & E1 & E2 & E3 & E4 & E5 & E6 & E7 & E8). rewrite (bins_are lm CP) in E7.
  assert (ES : match call (newState (N:=F64 lm) 5 0) (crowd lm) with SetOk s => sootVar s = [sz; one; sz; sz; sz] | _ => False end) by (vm_compute; reflexivity).
  destruct (call (newState (N:=F64 lm) 5 0) (crowd lm)) as [s|ex s|] eqn:CA; [|destruct ES|destruct ES].
  destruct (coag_loss lm AC CL _ s CA) as (v & mm & ee & EV & V4).
  assert (LF : ilnFof (N:=F64 lm) None (rootTwo : @num (F64 lm)) = il).
  { unfold ilnFof. change (nlog (Num:=F64 lm)) with (lm_log lm). pose proof two_1000 as TT. pose proof (Rinv_le_contravar 1 (2 ^ 1000) Rlt_0_1 (Rle_trans 1 1000 _ ltac:(lra) TT)) as TI. rewrite Rinv_1 in TI.
    rewrite (ln_rootTwo (lm_log lm rootTwo)); [vm_compute; reflexivity|]. apply CL. destruct rootTwo_between as [D B]. split; [exact D|]. split; [apply Rle_trans with (1 := TI); lra|apply Rle_trans with 1000; [lra|exact TT]]. }
  destruct m as [p ns nt nu gr ox co ta nw mbs sr pv]. cbn [sm_psd sm_nsoot sm_nucl sm_grow sm_oxid sm_coag sm_mBins sm_priv] in * . subst p ns nu gr ox co mbs pv.
  assert (R5 : readSoot (N:=F64 lm) 5 s = Ok [sz; one; sz; sz; sz]) by (unfold readSoot; rewrite ES; reflexivity).
  set (m := mkModel (N:=F64 lm) P_SECT 5 nt (newNucl N_NONE) (newGrow G_NONE) (newOxid O_NONE) (newCoag C_FM) ta nw bins sr (PrivSect (rootTwo : @num (F64 lm)) [])) in * .
  assert (CR : chemRates (collSECT m) m s = Ok (nZ (N:=F64 lm) 0, nZ (N:=F64 lm) 0, nZ (N:=F64 lm) 0, m, s)) by reflexivity.
  assert (X : exists g2 m2 s2, (forall eig, setSourceTerms None eig m s = Ok (g2, m2, s2)) /\ nth_error (sootSources (sm_sources m2)) 4 = Some (S754_finite true mm ee)).
  { unfold setSourceTerms, m at 1. cbn [sm_psd]. unfold setSourceTermsSECT. rewrite CR. cbn [bind]. change (sm_nsoot m) with 5%nat. rewrite R5. cbn [bind]. change (sm_priv m) with (PrivSect (rootTwo : @num (F64 lm)) []).
    change (coagOn m) with true. cbv iota. rewrite LF. change (sm_coag m) with (newCoag (N:=F64 lm) C_FM). change (sm_mBins m) with bins. rewrite EV. cbn [bind].
    do 3 eexists. split; [intro; reflexivity|]. unfold finish. cbn [sm_sources with_sources sootSources]. unfold combine5. cbn [map seq nth_error]. rewrite V4. reflexivity. }
  destruct X as (g2 & m2 & s2 & R & NE).
  exists m, (crowd lm), s, g2, m2, s2, (S754_finite true mm ee). split; [exact CO|]. split.
  { unfold m. cbn [sm_mBins]. assert (Q : forall k, (k < 5)%nat -> isDouble (binF bins k) /\ 0 < sfVal (binF bins k)).
    { intros k H. destruct (bin_between k H) as [D B]. split; [exact D|]. pose proof (bpow_gt_0 radix2 (-85)). pose proof mass_lo. lra. }
    split; [intros k H; exact (Q k H)|]. intros k H. change (length bins) with 5%nat in H. assert (O : forallb (fun k => SFltb (binF bins k) (binF bins (S k))) (seq 0 4) = true) by (vm_compute; reflexivity).
    rewrite forallb_forall in O. specialize (O k ltac:(apply in_seq; lia)). destruct (Q k ltac:(lia)) as [D1 _]. destruct (Q (S k) H) as [D2 _].
    apply Rnot_le_lt. intros W. assert (LE : SFleb (binF bins (S k)) (binF bins k) = true) by (rewrite leb_val by assumption; apply Rle_bool_true; exact W).
    revert O LE. assert (k = 0 \/ k = 1 \/ k = 2 \/ k = 3)%nat as [->|[->|[->| ->]]] by lia; vm_compute; discriminate. }
  split; [exact (crowd_usual lm)|]. split; [exact CA|]. split; [rewrite ES; reflexivity|]. split; [exact R|]. split; [exact NE|reflexivity].
Qed.

(** ** a library that rounds correctly *)
Definition rightLibm : libm := mkLibm (lm_exp exactLibm) (fun x => nearest (ln (sfVal x))) (lm_log10 exactLibm) (lm_tanh exactLibm) (lm_pow exactLibm).
Lemma right_accurate : accurate rightLibm.
Proof. destruct accurate_some as [A B C D]. constructor; assumption. Qed.
Lemma nearest_nearest r : Rabs r <= bpow radix2 1022 -> nearestTo (nearest r) r.
Proof.
  intros H. destruct (nearest_val r H) as [D V]. split; [exact D|]. intros y Dy. rewrite V. destruct (ofDouble y Dy) as (b & <- & _). rewrite val_B.
  assert (X : Valid_exp fexp64) by (apply BinarySingleNaN.fexp_correct; reflexivity).
  destruct (round_N_pt radix2 fexp64 (fun x => negb (Z.even x)) r) as [_ N]. apply N. apply BinarySingleNaN.generic_format_B2R.
Qed.
Lemma right_log : correctLog rightLibm.
Proof.
  intros x [D [L H]]. cbn [lm_log rightLibm]. apply nearest_nearest. assert (P : 0 < / 2 ^ 1000) by (apply Rinv_0_lt_compat, pow_lt; lra).
  assert (PP : 2 ^ 1000 <= bpow radix2 1022). { replace (2 ^ 1000) with (bpow radix2 1000); [apply bpow_le; lia|]. rewrite (bpow_powerRZ radix2). change (IZR radix2) with 2. change 1000%Z with (Z.of_nat 1000). rewrite <- pow_powerRZ. reflexivity. }
  assert (PT : 0 < 2 ^ 1000) by (apply pow_lt; lra). set (T := 2 ^ 1000) in * . clearbody T. assert (X : 0 < sfVal x) by (apply Rlt_le_trans with (1 := P); exact L).
  assert (LE : forall y, 0 < y -> ln y <= y). { intros y Y. pose proof (exp_ineq1_le (ln y)) as Q. rewrite exp_ln in Q by exact Y. lra. }
  apply Rle_trans with (2 := PP). apply Rabs_le. split; [|apply Rle_trans with (sfVal x); [apply LE; exact X|exact H]].
  assert (Q : - ln (sfVal x) <= / sfVal x) by (rewrite <- ln_Rinv by exact X; apply LE, Rinv_0_lt_compat; exact X).
  assert (W : / sfVal x <= T). { rewrite <- (Rinv_inv T). apply Rinv_le_contravar; assumption. } lra.
Qed.
Lemma lit_small k : (k <= 20)%nat -> isDouble (f64lit (Z.of_nat k) 0) /\ sfVal (f64lit (Z.of_nat k) 0) = INR k.
Proof.
  intros H. do 21 (destruct k as [|k]; [split; [split; reflexivity|]; vm_compute f64lit; cbn [sfVal cond_Zopp]; rewrite <- ?(bpow_powerRZ radix2); rewrite INR_IZR_INZ; cbn [Z.of_nat Pos.of_succ_nat Pos.succ]; cbn [bpow Z.pow_pos Pos.iter Z.mul Pos.mul radix_val radix2]; lra|]). lia.
Qed.
Lemma right_pow : correctPow rightLibm.
Proof.
  intros x k [D [L H]] K. destruct (lit_small k K) as [DK VK]. cbn [lm_pow rightLibm exactLibm]. assert (E : Rpower (sfVal x) (sfVal (f64lit (Z.of_nat k) 0)) = sfVal x ^ k) by (rewrite VK; apply Rpower_pow; lra). rewrite E.
  assert (Q : nearestTo (nearest (sfVal x ^ k)) (sfVal x ^ k)).
  { apply nearest_nearest. rewrite Rabs_pos_eq by (apply pow_le; lra). apply Rle_trans with (2 ^ k); [apply pow_incr; lra|]. apply Rle_trans with (2 ^ 20); [apply Rle_pow; [lra|exact K]|].
    apply Rle_trans with (bpow radix2 20); [change (bpow radix2 20) with 1048576; lra|apply bpow_le; lia]. }
  destruct x; try exact Q. cbn in L. lra.
Qed.
