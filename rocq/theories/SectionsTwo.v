(** Two sizes apart by a factor of two: a case meeting the hypotheses of C78. *)
From Coq Require Import ZArith List Bool Lia Reals Lra.
From Coq.Floats Require Import SpecFloat.
From Flocq Require Import Core.
From Verif Require Import Num Defs State Coag Nucl Growth Oxid Tar SootModel Sect Calls F64 SpecBinomial SpecState SpecFrame SpecPsd SpecIeee SpecRound SpecSections
  StateProofs NumLaws FrameMain RoundProofs RoundExpr RoundRates RoundMain RoundCases RoundFinal IeeeFinal SectionsLog SectionsCases.
Import ListNotations.
Local Open Scope R_scope.

Lemma ln_2 x : nearestTo x (ln 2) -> x = S754_finite false 6243314768165359 (-53).
Proof.
  apply near_unique; [split; reflexivity|lia|]. change (bpow radix2 (-53)) with (/ 9007199254740992). split.
  - replace ((IZR 6243314768165359 - / 2) * / 9007199254740992) with (INR 1 * (12486629536330717 / 18014398509481984)) by (cbn [INR]; lra).
    apply (ln_lo 12); [lra|lra|hsn; lra|hsn; lra].
  - replace ((IZR 6243314768165359 + / 2) * / 9007199254740992) with (INR 1 * (12486629536330719 / 18014398509481984)) by (cbn [INR]; lra).
    apply (ln_hi 24); [lra|lra|hsn; lra|hsn; lra].
Qed.
Lemma ln_3 x : nearestTo x (ln 3) -> x = S754_finite false 4947709893870347 (-52).
Proof.
  apply near_unique; [split; reflexivity|lia|]. change (bpow radix2 (-52)) with (/ 4503599627370496). split.
  - replace ((IZR 4947709893870347 - / 2) * / 4503599627370496) with (INR 2 * (9895419787740693 / 18014398509481984)) by (cbn [INR]; lra).
    apply (ln_lo 12); [lra|lra|hsn; lra|hsn; lra].
  - replace ((IZR 4947709893870347 + / 2) * / 4503599627370496) with (INR 2 * (9895419787740695 / 18014398509481984)) by (cbn [INR]; lra).
    apply (ln_hi 24); [lra|lra|hsn; lra|hsn; lra].
Qed.
Lemma ln_5 x : nearestTo x (ln 5) -> x = S754_finite false 7248263982714163 (-52).
Proof.
  apply near_unique; [split; reflexivity|lia|]. change (bpow radix2 (-52)) with (/ 4503599627370496). split.
  - replace ((IZR 7248263982714163 - / 2) * / 4503599627370496) with (INR 2 * (14496527965428325 / 18014398509481984)) by (cbn [INR]; lra).
    apply (ln_lo 12); [lra|lra|hsn; lra|hsn; lra].
  - replace ((IZR 7248263982714163 + / 2) * / 4503599627370496) with (INR 2 * (14496527965428327 / 18014398509481984)) by (cbn [INR]; lra).
    apply (ln_hi 24); [lra|lra|hsn; lra|hsn; lra].
Qed.
Lemma ln_4 x : nearestTo x (ln 4) -> x = S754_finite false 6243314768165359 (-52).
Proof.
  apply near_unique; [split; reflexivity|lia|]. change (bpow radix2 (-52)) with (/ 4503599627370496). split.
  - replace ((IZR 6243314768165359 - / 2) * / 4503599627370496) with (INR 2 * (12486629536330717 / 18014398509481984)) by (cbn [INR]; lra).
    apply (ln_lo 12); [lra|lra|hsn; lra|hsn; lra].
  - replace ((IZR 6243314768165359 + / 2) * / 4503599627370496) with (INR 2 * (12486629536330719 / 18014398509481984)) by (cbn [INR]; lra).
    apply (ln_hi 24); [lra|lra|hsn; lra|hsn; lra].
Qed.
Lemma ln_6 x : nearestTo x (ln 6) -> x = S754_finite false 8069367277953026 (-52).
Proof.
  apply near_unique; [split; reflexivity|lia|]. change (bpow radix2 (-52)) with (/ 4503599627370496). split.
  - replace ((IZR 8069367277953026 - / 2) * / 4503599627370496) with (INR 2 * (16138734555906051 / 18014398509481984)) by (cbn [INR]; lra).
    apply (ln_lo 12); [lra|lra|hsn; lra|hsn; lra].
  - replace ((IZR 8069367277953026 + / 2) * / 4503599627370496) with (INR 2 * (16138734555906053 / 18014398509481984)) by (cbn [INR]; lra).
    apply (ln_hi 24); [lra|lra|hsn; lra|hsn; lra].
Qed.
Lemma ln_8 x : nearestTo x (ln 8) -> x = S754_finite false 4682486076124019 (-51).
Proof.
  apply near_unique; [split; reflexivity|lia|]. change (bpow radix2 (-51)) with (/ 2251799813685248). split.
  - replace ((IZR 4682486076124019 - / 2) * / 2251799813685248) with (INR 3 * (3121657384082679 / 4503599627370496)) by (cbn [INR]; lra).
    apply (ln_lo 12); [lra|lra|hsn; lra|hsn; lra].
  - replace ((IZR 4682486076124019 + / 2) * / 2251799813685248) with (INR 3 * (9364972152248039 / 13510798882111488)) by (cbn [INR]; lra).
    apply (ln_hi 24); [lra|lra|hsn; lra|hsn; lra].
Qed.
Definition two : spec_float := S754_finite false 4503599627370496 (-51).
Lemma two_lit : f64lit 2 0 = two. Proof. vm_compute. reflexivity. Qed.
Definition pows2 : list spec_float := [one; two; S754_finite false 4503599627370496 (-50)].
Definition bins2 : list spec_float := Eval vm_compute in map (fun p => f64lit 100 0 *. p *. MWof (N:=F64 lm0) C_ /. Na (N:=F64 lm0)) pows2.
Definition q2 : spec_float := Eval vm_compute in f64lit 1 0 /. S754_finite false 6243314768165359 (-53).
Lemma two_val : sfVal two = 2.
Proof. cbn [sfVal two cond_Zopp]. rewrite <- (bpow_powerRZ radix2). change (bpow radix2 (-51)) with (/ 2251799813685248). lra. Qed.
Lemma pows_two lm k : correctPow lm -> (k < 3)%nat -> lm_pow lm two (f64lit (Z.of_nat k) 0) = nth k pows2 sz.
Proof.
  intros CP H. assert (B : between 1 2 two) by (split; [split; reflexivity|rewrite two_val; lra]). pose proof (CP two k B ltac:(lia)) as N. revert N. rewrite two_val.
  destruct k as [|[|[|k]]]; [| | |lia]; cbn [nth pows2]; apply near_same; try (split; reflexivity); try (rewrite two_val; cbn [pow]; lra);
    cbn [sfVal cond_Zopp]; rewrite <- (bpow_powerRZ radix2); change (bpow radix2 (-52)) with (/ 4503599627370496); change (bpow radix2 (-50)) with (/ 1125899906842624); cbn [pow]; lra.
Qed.
Lemma bins_two lm : correctPow lm -> set_mBins (N:=F64 lm) 3 two 100 = bins2.
Proof.
  intros CP. unfold set_mBins. cbn [map seq]. unfold nn. change (@npow (F64 lm)) with (lm_pow lm). change (@nlit (F64 lm)) with f64lit.
  rewrite !(pows_two lm) by (assumption || lia). cbn [nth pows2]. vm_compute. reflexivity.
Qed.
Lemma log_int lm k x : correctLog lm -> isDouble x -> sfVal x = IZR k -> (1 <= k <= 1000)%Z -> nearestTo (lm_log lm x) (ln (IZR k)).
Proof.
  intros CL D V K. rewrite <- V. apply CL. split; [exact D|]. rewrite V. assert (1 <= IZR k <= 1000) by (split; apply IZR_le; lia).
  pose proof two_1000 as TT. pose proof (Rinv_le_contravar 1 (2 ^ 1000) Rlt_0_1 (Rle_trans 1 1000 _ ltac:(lra) TT)) as TI. rewrite Rinv_1 in TI.
  split; [apply Rle_trans with (1 := TI); lra|apply Rle_trans with 1000; [lra|exact TT]].
Qed.
Definition ratio2 (i j : nat) : spec_float := (binF bins2 i +. binF bins2 j) /. binF bins2 0.
Definition int (k : Z) : spec_float := f64lit k 0.
Lemma log_two lm : correctLog lm -> lm_log lm two = S754_finite false 6243314768165359 (-53).
Proof. intros CL. apply ln_2. apply (log_int lm 2 two CL); [split; reflexivity|exact two_val|lia]. Qed.
Lemma searches lm i j : correctLog lm -> (i <= j)%nat -> (j < 3)%nat -> exists t, f64trunc (q2 *. lm_log lm (ratio2 i j)) = Some t /\
  ((2 <= t)%nat \/ (SFleb (binF bins2 t) (binF bins2 i +. binF bins2 j) = true /\ SFleb (binF bins2 i +. binF bins2 j) (binF bins2 (S t)) = true)).
Proof.
  intros CL Hij Hj.
  assert (L : forall k, (1 <= k <= 20)%nat -> nearestTo (lm_log lm (f64lit (Z.of_nat k) 0)) (ln (IZR (Z.of_nat k)))).
  { intros k H. destruct (lit_small k ltac:(lia)) as [D V]. rewrite INR_IZR_INZ in V. apply log_int; [exact CL|exact D|exact V|lia]. }
  assert (C : (i = 0 /\ j = 0 \/ i = 0 /\ j = 1 \/ i = 0 /\ j = 2 \/ i = 1 /\ j = 1 \/ i = 1 /\ j = 2 \/ i = 2 /\ j = 2)%nat) by lia.
  destruct C as [[-> ->]|[[-> ->]|[[-> ->]|[[-> ->]|[[-> ->]|[-> ->]]]]]].
  - replace (ratio2 0 0) with (f64lit (Z.of_nat 2) 0) by (vm_compute; reflexivity). rewrite (ln_2 _ (L 2%nat ltac:(lia))). eexists. split; [vm_compute; reflexivity|right; split; vm_compute; reflexivity].
  - replace (ratio2 0 1) with (f64lit (Z.of_nat 3) 0) by (vm_compute; reflexivity). rewrite (ln_3 _ (L 3%nat ltac:(lia))). eexists. split; [vm_compute; reflexivity|right; split; vm_compute; reflexivity].
  - replace (ratio2 0 2) with (f64lit (Z.of_nat 5) 0) by (vm_compute; reflexivity). rewrite (ln_5 _ (L 5%nat ltac:(lia))). eexists. split; [vm_compute; reflexivity|left; lia].
  - replace (ratio2 1 1) with (f64lit (Z.of_nat 4) 0) by (vm_compute; reflexivity). rewrite (ln_4 _ (L 4%nat ltac:(lia))). eexists. split; [vm_compute; reflexivity|left; lia].
  - replace (ratio2 1 2) with (f64lit (Z.of_nat 6) 0) by (vm_compute; reflexivity). rewrite (ln_6 _ (L 6%nat ltac:(lia))). eexists. split; [vm_compute; reflexivity|left; lia].
  - replace (ratio2 2 2) with (f64lit (Z.of_nat 8) 0) by (vm_compute; reflexivity). rewrite (ln_8 _ (L 8%nat ltac:(lia))). eexists. split; [vm_compute; reflexivity|left; lia].
Qed.
Lemma coag_runs {N : Num} (c : coagObj) (s : state) ns mb n q :
  (forall i j, (i <= j)%nat -> (j < ns)%nat -> exists t, ntrunc (nmul q (nlog (ndiv (nadd (mb i) (mb j)) (mb 0%nat)))) = Some t) -> exists v, sectCoag c s ns mb n q = Ok v.
Proof.
  intros H. unfold sectCoag.
  assert (R : forall i l v, (forall j, In j l -> (i <= j < ns)%nat) -> exists v', foldM (fun v j => sectPair c s ns mb n q v i j) l v = Ok v').
  { intros i l. induction l as [|j l IH]; intros v Hl; cbn [foldM]; [eauto|]. destruct (Hl j (or_introl eq_refl)) as [A B]. destruct (H i j A B) as [t E]. unfold sectPair at 1. cbv zeta. rewrite E. cbn [bind]. apply IH. intros k Hk. apply Hl. right. exact Hk. }
  assert (RR : forall l v, (forall i, In i l -> (i < ns)%nat) -> exists v', foldM (fun v i => foldM (fun v j => sectPair c s ns mb n q v i j) (seq i (ns - i)) v) l v = Ok v').
  { intros l. induction l as [|i l IH]; intros v Hl; cbn [foldM]; [eauto|]. specialize (Hl i (or_introl eq_refl)) as A. destruct (R i (seq i (ns - i)) v) as [v1 E]; [intros j Hj; apply in_seq in Hj; lia|]. rewrite E. cbn [bind]. apply IH. intros k Hk. apply Hl. right. exact Hk. }
  apply RR. intros i Hi. apply in_seq in Hi. lia.
Qed.
Lemma right_sane : sane rightLibm.
Proof. destruct sane_some as [A B C]. constructor; assumption. Qed.

Definition few lm : args (F64 lm) :=
  mkArgs (N:=F64 lm) (pw 11) (pw 17) (pw (-3)) (pw (-14)) (repeat (pw (-5)) 11) (repeat sz 6) [pw 50; pw 40; sz] 3 [] 0 (pw 6).
Lemma C78_case_ : exists lm (m : model (N:=F64 lm)) (a : args (F64 lm)) s eig g2 m2 s2, sane lm /\ accurate lm /\ correctLog lm /\ correctPow lm /\
  constructEnum P_SECT 3 N_LL G_LIN O_NSC_NEOH C_FM 0 T_NONE (f64lit 2 0 : @num (F64 lm)) 100 = Ok m /\ ladder (sm_mBins m) /\
  placed lm (sm_mBins m) (searchConst lm None (binFactor m)) /\ anyDoubles a /\ call (newState 3 0) a = SetOk s /\
  nth_error (sootVar s) 2 = Some (S754_zero false) /\ setSourceTerms None eig m s = Ok (g2, m2, s2).
Proof.
  exists rightLibm. set (lm := rightLibm) in * . assert (CL : correctLog lm) by exact right_log. assert (CP : correctPow lm) by exact right_pow. assert (AC : accurate lm) by exact right_accurate. assert (HS : sane lm) by exact right_sane. clearbody lm. rewrite two_lit.
  assert (EM : exists m : model (N:=F64 lm), constructEnum P_SECT 3 N_LL G_LIN O_NSC_NEOH C_FM 0 T_NONE (two : @num (F64 lm)) 100 = Ok m /\ sm_psd m = P_SECT /\ sm_nsoot m = 3%nat /\
    sm_nucl m = newNucl N_LL /\ sm_grow m = newGrow G_LIN /\ sm_oxid m = newOxid O_NSC_NEOH /\ sm_coag m = newCoag C_FM /\ sm_mBins m = set_mBins 3 (two : @num (F64 lm)) 100 /\ sm_priv m = PrivSect (two : @num (F64 lm)) []).
  { eexists. split; [reflexivity|]. repeat (split; [reflexivity|]). reflexivity. }
  destruct EM as (m & CO & E1 & E2 & E3 & E4 & E5 & E6 & E7 & E8). rewrite (bins_two lm CP) in E7.
  assert (ES : match call (newState (N:=F64 lm) 3 0) (few lm) with SetOk s => sootVar s = [pw 50; pw 40; sz] /\ yGas s = repeat (pw (-5)) 11 | _ => False end) by (vm_compute; split; reflexivity).
  destruct (call (newState (N:=F64 lm) 3 0) (few lm)) as [s|ex s|] eqn:CA; [|destruct ES|destruct ES]. destruct ES as [ES EY].
  assert (LF : searchConst lm None two = q2) by (unfold searchConst; rewrite (log_two lm CL); vm_compute; reflexivity).
  assert (NU : call (newState (N:=F64 lm) 3 0) (few lm) <> SetUB) by (rewrite CA; discriminate).
  destruct m as [p ns nt nu gr ox co ta nw mbs sr pv]. cbn [sm_psd sm_nsoot sm_nucl sm_grow sm_oxid sm_coag sm_mBins sm_priv] in * . subst p ns nu gr ox co mbs pv.
  set (m := mkModel (N:=F64 lm) P_SECT 3 nt (newNucl N_LL) (newGrow G_LIN) (newOxid O_NSC_NEOH) (newCoag C_FM) ta nw bins2 sr (PrivSect (two : @num (F64 lm)) [])) in * .
  assert (GY : forall sp, exists y, vget (yGas s) (gasIdx sp) = Ok y) by (intro sp; rewrite EY; destruct sp; eexists; reflexivity).
  assert (CR : exists a b c, chemRates (collSECT m) m s = Ok (a, b, c, m, s)).
  { clear CA NU GY CO LF. revert ES EY. destruct s as [f1 f2 f3 f4 f5 f6 f7 f8 f9 f10 f11 f12 f13 f14 f15 f16 f17 f18 f19 f20 f21]. cbn [sootVar yGas]. intros -> ->. unfold m. do 3 eexists. reflexivity. }
  destruct CR as (r1 & r2 & r3 & CR).
  assert (R3 : readSoot (N:=F64 lm) 3 s = Ok [pw 50; pw 40; sz]) by (unfold readSoot; rewrite ES; reflexivity).
  destruct (coag_runs (N:=F64 lm) (newCoag C_FM) s 3 (at_ (N:=F64 lm) bins2) (at_ (N:=F64 lm) [pw 50; pw 40; sz]) q2) as [v EV].
  { intros i j Hij Hj. destruct (searches lm i j CL Hij Hj) as (t & E & _). exists t. exact E. }
  assert (X : exists g2 m2 s2, setSourceTerms None (fun _ _ _ => (fun _ => sz : @num (F64 lm), fun _ => sz)) m s = Ok (g2, m2, s2)).
  { unfold setSourceTerms, m at 1. cbn [sm_psd]. unfold setSourceTermsSECT. rewrite CR. cbn [bind]. change (sm_nsoot m) with 3%nat. rewrite R3. cbn [bind]. change (sm_priv m) with (PrivSect (two : @num (F64 lm)) []).
    change (coagOn m) with true. cbv iota. change (ilnFof (N:=F64 lm) None two) with (searchConst lm None two). rewrite LF. change (sm_coag m) with (newCoag (N:=F64 lm) C_FM). change (sm_mBins m) with bins2. rewrite EV. cbn [bind].
    do 3 eexists. reflexivity. }
  destruct X as (g2 & m2 & s2 & R).
  exists m, (few lm), s, (fun _ _ _ => (fun _ => sz : @num (F64 lm), fun _ => sz)), g2, m2, s2. split; [exact HS|]. split; [exact AC|]. split; [exact CL|]. split; [exact CP|]. split; [exact CO|]. unfold m at 1. cbn [sm_mBins].
  split; [|split; [|split; [|split; [exact CA|split; [rewrite ES; reflexivity|exact R]]]]].
  - assert (Q : forall k, (k < 3)%nat -> isDouble (binF bins2 k) /\ 0 < sfVal (binF bins2 k)).
    { intros k H. destruct k as [|[|[|k]]]; [| | |lia]; (split; [split; reflexivity|]); cbn [binF nth bins2 sfVal cond_Zopp]; (apply Rmult_lt_0_compat; [apply IZR_lt; reflexivity|apply powerRZ_lt; lra]). }
    split; [intros k H; exact (Q k H)|]. intros k H. change (length bins2) with 3%nat in H. destruct (Q k ltac:(lia)) as [D1 _]. destruct (Q (S k) H) as [D2 _].
    apply Rnot_le_lt. intros W. assert (LE : SFleb (binF bins2 (S k)) (binF bins2 k) = true) by (rewrite leb_val by assumption; apply Rle_bool_true; exact W).
    revert LE. assert (k = 0 \/ k = 1)%nat as [->| ->] by lia; vm_compute; discriminate.
  - intros i j Hij Hj. change (length bins2) with 3%nat in Hj. change (binFactor m) with two. rewrite LF. unfold encloses. cbv zeta. intros t ET. destruct (searches lm i j CL Hij Hj) as (t' & E & P).
    assert (Some t = Some t') by (rewrite <- ET, <- E; reflexivity). injection H as ->. change (length bins2 - 1)%nat with 2%nat. exact P.
  - split; [reflexivity|]. split; [reflexivity|]. split; [reflexivity|]. intros y I. cbn [ayGas few] in I. apply repeat_spec in I. subst y. split; [reflexivity|vm_compute; discriminate].
Qed.
