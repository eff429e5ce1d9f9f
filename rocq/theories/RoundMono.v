(** Rounding errors of a whole call of the monodisperse model (C71). *)
From Coq Require Import ZArith List Bool Reals Lra Lia.
From Coq.Floats Require Import SpecFloat.
From Flocq Require Import Core.
From Verif Require Import Num Defs State Nucl Growth Oxid Coag Tar SootModel Mono Calls XR XRLemmas F64 SpecBinomial SpecState SpecChem SpecCoag SpecValid SpecRates SpecGas SpecPsd SpecRound
  StateProofs RateProofs CoagProofs GasProofs PsdProofs MonoProofs RoundProofs RoundExpr RoundRates RoundMain NumLaws.
Import ListNotations.
Local Open Scope R_scope.

(** ** sums of terms of either sign *)
Definition sumL (l : list R) : R := fold_right Rplus 0 l.
Definition absL (l : list R) : R := fold_right (fun r a => Rabs r + a) 0 l.
Definition sumOk (k : Z) (x : spec_float) (l : list R) : Prop :=
  isDouble x /\ Rabs (sfVal x - sumL l) <= IZR k * unitE * absL l /\ (forall r, In r l -> Rabs r <= bpow radix2 900) /\ (length l <= 1000)%nat.
Lemma sumL_app l l' : sumL (l ++ l') = sumL l + sumL l'.
Proof. unfold sumL. induction l as [|r l IH]; [cbn [app fold_right]; ring|]. cbn [app fold_right]. rewrite IH. ring. Qed.
Lemma absL_app l l' : absL (l ++ l') = absL l + absL l'.
Proof. unfold absL. induction l as [|r l IH]; [cbn [app fold_right]; ring|]. cbn [app fold_right]. rewrite IH. ring. Qed.
Lemma absL_nneg l : 0 <= absL l.
Proof. induction l as [|r l IH]; [cbn; lra|]. unfold absL in *. cbn [fold_right]. pose proof (Rabs_pos r). lra. Qed.
Lemma sumL_abs l : Rabs (sumL l) <= absL l.
Proof. induction l as [|r l IH]; [cbn; rewrite Rabs_R0; lra|]. unfold absL, sumL in *. cbn [fold_right]. eapply Rle_trans; [apply Rabs_triang|]. lra. Qed.
Lemma absL_bound l B : (forall r, In r l -> Rabs r <= B) -> absL l <= INR (length l) * B.
Proof.
  intro H. induction l as [|r l IH]; [cbn; lra|]. unfold absL in *. cbn [fold_right length]. rewrite S_INR. pose proof (H r (or_introl eq_refl)). specialize (IH (fun q I => H q (or_intror I))). lra.
Qed.
Lemma sum_add k k' x y l l' : (0 <= k <= 2 ^ 20)%Z -> (0 <= k' <= 2 ^ 20)%Z -> (length l + length l' <= 1000)%nat -> sumOk k x l -> sumOk k' y l' ->
  sumOk (Z.max k k' + 1) (SFadd prec64 emax64 x y) (l ++ l').
Proof.
  intros K K' L (Dx & Ex & Bx & _) (Dy & Ey & By & _). set (M := Z.max k k'). pose proof unitE_pos as UP.
  assert (BB : forall r, In r (l ++ l') -> Rabs r <= bpow radix2 900). { intros r I. apply in_app_or in I. destruct I; auto. }
  assert (LL : (length (l ++ l') <= 1000)%nat) by (rewrite app_length; exact L).
  pose proof (absL_bound _ _ BB) as AB. pose proof (absL_nneg l) as N1. pose proof (absL_nneg l') as N2.
  assert (INR (length (l ++ l')) <= 1024). { eapply Rle_trans; [apply le_INR; exact LL|]. rewrite INR_IZR_INZ. apply IZR_le. cbn; lia. }
  assert (A2 : absL (l ++ l') * 2 <= bpow radix2 911).
  { change 911%Z with (10 + 900 + 1)%Z. rewrite !bpow_plus. change (bpow radix2 10) with 1024. change (bpow radix2 1) with 2. apply Rmult_le_compat_r; [lra|]. eapply Rle_trans; [exact AB|]. apply Rmult_le_compat_r; [apply bpow_ge_0|assumption]. }
  assert (E : Rabs (sfVal x + sfVal y - sumL (l ++ l')) <= IZR M * unitE * absL (l ++ l')).
  { rewrite sumL_app, absL_app. replace (sfVal x + sfVal y - (sumL l + sumL l')) with ((sfVal x - sumL l) + (sfVal y - sumL l')) by ring. eapply Rle_trans; [apply Rabs_triang|].
    assert (M1 : IZR k <= IZR M) by (apply IZR_le; unfold M; lia). assert (M2 : IZR k' <= IZR M) by (apply IZR_le; unfold M; lia).
    assert (U1 : IZR k * unitE * absL l <= IZR M * unitE * absL l) by (apply Rmult_le_compat_r; [exact N1|apply Rmult_le_compat_r; lra]).
    assert (U2 : IZR k' * unitE * absL l' <= IZR M * unitE * absL l') by (apply Rmult_le_compat_r; [exact N2|apply Rmult_le_compat_r; lra]). lra. }
  pose proof (units_small M ltac:(unfold M; lia)) as SM. pose proof (sumL_abs (l ++ l')) as SA. pose proof (absL_nneg (l ++ l')) as NN.
  assert (XY : Rabs (sfVal x + sfVal y) <= 2 * absL (l ++ l')).
  { replace (sfVal x + sfVal y) with ((sfVal x + sfVal y - sumL (l ++ l')) + sumL (l ++ l')) by ring. eapply Rle_trans; [apply Rabs_triang|]. nra. }
  destruct (add_any x y Dx Dy) as (D & e & E1 & E2).
  { eapply Rle_trans; [exact XY|]. rewrite Rmult_comm. eapply Rle_trans; [exact A2|]. apply bpow_le. lia. }
  split; [exact D|]. split; [|split; [exact BB|exact LL]]. rewrite E2, plus_IZR. fold M.
  replace ((sfVal x + sfVal y) * (1 + e) - sumL (l ++ l')) with ((sfVal x + sfVal y - sumL (l ++ l')) + (sfVal x + sfVal y) * e) by ring.
  eapply Rle_trans; [apply Rabs_triang|]. rewrite Rabs_mult. rewrite unitE_half in E1.
  assert (Rabs (sfVal x + sfVal y) * Rabs e <= (2 * absL (l ++ l')) * (unitE / 2)) by (apply Rmult_le_compat; [apply Rabs_pos|apply Rabs_pos|exact XY|exact E1]). lra.
Qed.
Definition smallSum (k k' : Z) (l l' : list R) : bool := (0 <=? k)%Z && (k <=? 2 ^ 20)%Z && (0 <=? k')%Z && (k' <=? 2 ^ 20)%Z && (length l + length l' <=? 1000)%nat.
Lemma sum_plus k k' x y l l' : sumOk k x l -> sumOk k' y l' -> smallSum k k' l l' = true -> sumOk (Z.max k k' + 1) (SFadd prec64 emax64 x y) (l ++ l').
Proof. intros H H' B. unfold smallSum in B. rewrite !andb_true_iff, !Z.leb_le, Nat.leb_le in B. apply sum_add; try assumption; lia. Qed.
Lemma sum_one v x r : okAv v = true -> (av_k v <= 2 ^ 20)%Z -> rel v x r -> sumOk (av_k v + 1) x [r].
Proof.
  intros O K R. destruct (rel_within v x r O ltac:(lia) R) as [D W]. apply okAv_spec in O. split; [exact D|]. unfold sumL, absL. cbn [fold_right length]. rewrite !Rplus_0_r.
  split; [exact W|]. split; [|lia]. intros q [<-|[]]. destruct R as [(_ & -> & _)|(_ & _ & B & _)]; [rewrite Rabs_R0; apply bpow_ge_0|]. eapply Rle_trans; [apply B|]. apply bpow_le. lia.
Qed.
Lemma sum_none : sumOk 0 (S754_zero false) [].
Proof. split; [split; reflexivity|]. cbn. rewrite Rminus_0_r, Rabs_R0. split; [lra|]. split; [intros r []|lia]. Qed.
Lemma sum_weak k k' x l : (k <= k')%Z -> sumOk k x l -> sumOk k' x l.
Proof.
  intros K (D & E & R). split; [exact D|]. split; [|exact R]. eapply Rle_trans; [exact E|]. apply Rmult_le_compat_r; [apply absL_nneg|]. apply Rmult_le_compat_r; [left; apply unitE_pos|]. apply IZR_le. exact K.
Qed.
Lemma sum_agrees k x l : (k <= 4503)%Z -> sumOk k x l -> agreesSum x l.
Proof.
  intros K (D & E & _). split; [exact D|]. eapply Rle_trans; [exact E|]. apply Rmult_le_compat_r; [apply absL_nneg|]. apply units_agree. exact K.
Qed.

(** ** the terms as expressions *)
Definition n0E (c : nucleationMech) : expr := nuclE c.
Definition n1E (c : nucleationMech) : expr :=
  match c with N_NONE => ELit 0 0 | _ => EDiv (EMul (EMul (nuclE c) (EVar 4)) (MWof (N:=Sym) C_)) (Na (N:=Sym)) end.
Definition areaM : expr := monoArea (N:=Sym) (EVar 5) (EVar 6).
Definition g1E (c : growthMech) : expr := match c with G_NONE => ELit 0 0 | _ => EMul (growE c) areaM end.
Definition x1E (c : oxidationMech) : expr := match c with O_NONE => ELit 0 0 | _ => EMul (EOpp (oxidE c)) areaM end.
Definition c0E (c : coagulationMech) : expr :=
  match c with C_NONE => ELit 0 0 | _ => EMul (EMul (EMul (ELit (-5) (-1)) (kernE c (EVar 7) (EVar 8) (EVar 9))) (EVar 5)) (EVar 5) end.
Definition gasE (r : list expr) (e : expr) (i : nat) : expr := nth i (addGasRates (N:=Sym) r e (zeros (N:=Sym) gasSize)) (ELit 0 0).
Definition nGasE c i := gasE (nuclRatios (N:=Sym) c) (n1E c) i.
Definition gGasE c i := gasE (growRatios (N:=Sym) c) (g1E c) i.
Definition oGasE c i := gasE (oxidRatios (N:=Sym) c) (x1E c) i.

Definition anOk (e : expr) (b : Z) : Prop := exists v, an (aenv false) e = Some v /\ (av_k v <=? b)%Z = true.
Ltac anok := eexists; (split; [vm_compute; reflexivity|reflexivity]).
Lemma an_n0 c : gasOnly c -> anOk (n0E c) 1100.
Proof. intros (K1 & K2 & K3). destruct c; try congruence; anok. Qed.
Lemma an_n1 c : gasOnly c -> anOk (n1E c) 1100.
Proof. intros (K1 & K2 & K3). destruct c; try congruence; anok. Qed.
Lemma an_g1 c : c <> G_HACA -> anOk (g1E c) 1100.
Proof. intros K. destruct c; try congruence; anok. Qed.
Lemma an_x1 c : c <> O_NSC_NEOH -> c <> O_HACA -> c <> O_BROWN -> anOk (x1E c) 1500.
Proof. intros K1 K2 K3. destruct c; try congruence; anok. Qed.
Lemma an_c0 c : c <> C_FUCHS -> anOk (c0E c) 3700.
Proof. intros K. destruct c; try congruence; anok. Qed.
Lemma an_ng c i : gasOnly c -> c <> N_size -> (i < 11)%nat -> anOk (nGasE c i) 1100.
Proof. intros (K1 & K2 & K3) K L. do 11 (destruct i as [|i]; [destruct c; try congruence; anok|]). lia. Qed.
Lemma an_gg c i : c <> G_HACA -> c <> G_size -> (i < 11)%nat -> anOk (gGasE c i) 1100.
Proof. intros K1 K L. do 11 (destruct i as [|i]; [destruct c; try congruence; anok|]). lia. Qed.
Lemma an_og c i : c <> O_NSC_NEOH -> c <> O_HACA -> c <> O_BROWN -> c <> O_size -> (i < 11)%nat -> anOk (oGasE c i) 1500.
Proof. intros K1 K2 K3 K4 L. do 11 (destruct i as [|i]; [destruct c; try congruence; anok|]). lia. Qed.
Lemma ratios_n {N : Num} (fe : nat -> num) c i : ev fe (nGasE c i) = nth i (addGasRates (nuclRatios c) (ev fe (n1E c)) (zeros gasSize)) (nZ 0).
Proof. do 11 (destruct i as [|i]; [destruct c; reflexivity|]). destruct i; reflexivity. Qed.
Lemma ratios_g {N : Num} (fe : nat -> num) c i : ev fe (gGasE c i) = nth i (addGasRates (growRatios c) (ev fe (g1E c)) (zeros gasSize)) (nZ 0).
Proof. do 11 (destruct i as [|i]; [destruct c; reflexivity|]). destruct i; reflexivity. Qed.
Lemma ratios_o {N : Num} (fe : nat -> num) c i : ev fe (oGasE c i) = nth i (addGasRates (oxidRatios c) (ev fe (x1E c)) (zeros gasSize)) (nZ 0).
Proof. do 11 (destruct i as [|i]; [destruct c; reflexivity|]). destruct i; reflexivity. Qed.

(** ** the call *)
Section Call.
Context (lm : libm) (AC : accurate lm) (a : args (F64 lm)) (U : usual a) (k : mechs) (f : spec_float) (SM : smoothMechs k)
  (EF : mF k = sfVal f) (BF : between (/ 10 ^ 6) (10 ^ 6) f) (P0 : 0 < soot0 a) (BM : 3 / 10 ^ 26 <= soot1 a / soot0 a <= 1).
Lemma P1 : 0 < soot1 a.
Proof. pose proof (Rinv_0_lt_compat (10 ^ 26) ltac:(apply pow_lt; lra)). replace (soot1 a) with (soot1 a / soot0 a * soot0 a) by (field; lra). apply Rmult_lt_0_compat; lra. Qed.
Definition m0 : spec_float := nth 0 (asoot a) (S754_zero false).
Definition m1 : spec_float := nth 1 (asoot a) (S754_zero false).
Definition xm : spec_float := SFdiv prec64 emax64 m1 m0.
Definition rm : R := soot1 a / soot0 a.
Lemma one_rel : rel (mkAv false false 1 (-85) 0) (S754_finite false 4503599627370496 (-52)) 1.
Proof.
  right. split; [split; reflexivity|]. cbn [av_neg av_lo av_hi av_k]. split; [lra|]. rewrite Rabs_R1. split.
  - split; [change 1 with (bpow radix2 0); apply bpow_le; lia|change (bpow radix2 0) with 1; lra].
  - exists 0. pose proof unitE_pos. rewrite Rabs_R0, exp_0. split; [lra|]. cbn [sfVal cond_Zopp powerRZ]. rewrite Rmult_1_r. rewrite pow_IZR. change (Z.of_nat (Pos.to_nat 52)) with 52%Z.
    change 4503599627370496%Z with (2 ^ 52)%Z. apply Rinv_r. apply Rgt_not_eq, IZR_lt. reflexivity.
Qed.
Lemma BX : rel (mkAv false false 1 (-85) 0) xm rm.
Proof.
  pose proof (env_rel lm a U _ _ f _ _ one_rel one_rel BF false (fun _ => conj P0 P1)) as E.
  pose proof (E 5%nat) as E5. pose proof (E 6%nat) as E6.
  destruct (divR (aenv false 6) (aenv false 5) _ _ _ _ ltac:(reflexivity) ltac:(reflexivity) _ ltac:(reflexivity) ltac:(reflexivity) E6 E5) as [(M & _)|R]; [discriminate M|].
  right. destruct R as (D & S & _ & T). split; [exact D|]. split; [exact S|]. split; [|exact T]. cbn [av_lo av_hi].
  change (Rdiv _ _) with rm. rewrite Rabs_pos_eq; [|apply Rlt_le; exact S]. unfold rm. pose proof mass_lo. change (bpow radix2 0) with 1. lra.
Qed.
Notation fe := (fenv lm a xm xm f).
Notation re := (renv lm a xm xm f rm rm).
Lemma ER : forall i, rel (aenv false i) (fe i) (re i).
Proof. exact (env_rel lm a U _ _ f _ _ BX BX BF false (fun _ => conj P0 P1)). Qed.
Notation xe := (fun i => Fin (re i)).
Lemma term e b r : anOk e b -> ev (N:=XR) xe e = Fin r -> (b <=? 10000)%Z = true -> sumOk (b + 1) (ev (N:=F64 lm) fe e) [r].
Proof.
  intros (v & A & K) E L. apply Z.leb_le in K, L. destruct (an_sound lm AC _ _ _ ER _ _ A) as [O R]. rewrite (an_xr lm AC _ _ _ ER _ _ A) in E.
  assert (Q : evR re e = r) by congruence. rewrite Q in R. apply (sum_weak (av_k v + 1)); [lia|]. apply (sum_one v); [exact O|lia|exact R].
Qed.

(** values of the terms over the reals *)
Notation g := (gasOf a).
Notation M0 := (soot0 a).
Notation M1 := (soot1 a).
Notation xs := (xstate lm a xm xm f rm rm).
Lemma XV : valid xs g [M0; M1].
Proof. exact (xstate_valid lm AC a U _ _ f _ _ BX BX BF). Qed.
Lemma XE : sEnv (N:=XR) xe xs.
Proof. exact (xstate_env lm a _ _ f _ _). Qed.
Lemma v_n0 : ev (N:=XR) xe (n0E (mN k)) = Fin (Jnuc k g).
Proof.
  destruct SM as (G & _). pose proof (nucl_sym _ _ XE (fun _ _ => UB OutOfBounds) (newNucl (N:=XR) (mN k)) G) as X1.
  pose proof (nucl_formula _ _ _ XV (fun _ _ => UB OutOfBounds) (newNucl (N:=XR) (mN k)) G) as X2.
  cbn [newNucl nu_class] in X1, X2. rewrite X1 in X2. apply (f_equal (fun r => match r with Ok (x, _, _, _) => x | _ => Fin 0 end)) in X2. exact X2.
Qed.
Lemma v_ox : ev (N:=XR) xe (oxidE (mO k)) = Fin (koxid k g M0 M1).
Proof.
  destruct SM as (_ & _ & _ & _ & G1 & G2 & _). set (ox := mkOxid (N:=XR) (mO k) (mO k) []). set (w := mkView (N:=XR) P_MONO 2 []).
  pose proof (oxid_sym _ _ XE ox w ltac:(discriminate) G1 G2) as X1.
  assert (SMm : seesMoments w [M0; M1] M0 M1) by (left; repeat split; discriminate).
  pose proof (oxid_formula _ _ _ XV ox w _ _ SMm (fun Q => False_ind _ (G2 Q))) as X2. rewrite X1 in X2. cbn [ox ox_class] in X2.
  apply (f_equal (fun r => match r with Ok x => x | _ => Fin 0 end)) in X2. exact X2.
Qed.
Lemma ltb5 : nltb (Num:=XR) (nZ 0) (xe 5%nat) = true.
Proof. apply (proj2 (xltb_iff 0 (re 5))). exact P0. Qed.
Lemma v_gr : ev (N:=XR) xe (growE (mG k)) = Fin (kgrow k g M0 M1).
Proof.
  destruct SM as (_ & _ & G & _). set (gx := mkGrow (N:=XR) (mG k) (mG k) []). set (w := mkView (N:=XR) P_MONO 2 []).
  assert (SMm : seesMoments w [M0; M1] M0 M1) by (left; repeat split; discriminate).
  pose proof (grow_formula _ _ _ XV gx w _ _ SMm (fun Q => False_ind _ (G Q))) as X2.
  assert (Y1 : nltb (Num:=XR) (nZ 0) (ev (N:=XR) xe areaE) = true).
  { rewrite <- (area_sym (N:=XR) xe ltb5). change (re 5) with M0. change (re 6) with M1. pose proof P1 as Q. rewrite growArea_val by lra. apply (proj2 (xltb_iff 0 _)).
    rewrite surface_sphere by exact P0. apply Rmult_lt_0_compat; [exact P0|]. assert (D : 0 < M1 / M0) by (apply Rdiv_lt_0_compat; [exact Q|exact P0]).
    unfold sphere. destruct (Rlt_dec 0 (M1 / M0)); [|lra]. apply Rmult_lt_0_compat; [apply piC_pos|]. apply pow_lt, diam_pos. }
  pose proof (grow_sym _ _ XE gx w ltac:(discriminate) G ltb5 Y1) as X1. rewrite X1 in X2. cbn [gx gr_class] in X2.
  apply (f_equal (fun r => match r with Ok x => x | _ => Fin 0 end)) in X2. exact X2.
Qed.
Lemma v_area : ev (N:=XR) xe areaM = Fin (surface M0 M1).
Proof.
  pose proof P1 as Q. rewrite <- (monoArea_val M0 M1) by lra. unfold monoArea. match goal with |- _ = if ?c then _ else _ => replace c with true by (symmetry; exact ltb5) end. reflexivity.
Qed.
Lemma v_n1 : ev (N:=XR) xe (n1E (mN k)) = Fin (Jnuc k g * nucMass g).
Proof.
  pose proof v_n0 as V. unfold n0E in V. unfold n1E. destruct (mN k) eqn:E; try (cbn [ev]; rewrite V).
  1: { unfold Jnuc. rewrite E. cbn [nuclFormula]. rewrite Rmult_0_l. reflexivity. }
  all: change (ev (N:=XR) xe (MWof (N:=Sym) C_)) with (@MWof XR C_); change (ev (N:=XR) xe (Na (N:=Sym))) with (@Na XR); change (re 4) with (gCMin g); xsimp; vals; f_equal; unfold nucMass; field; nz.
Qed.
Lemma v_g1 : ev (N:=XR) xe (g1E (mG k)) = Fin (kgrow k g M0 M1 * (M0 * sphere (M1 / M0))).
Proof.
  rewrite <- surface_sphere by exact P0. pose proof v_gr as V. unfold g1E. destruct (mG k) eqn:E; try (cbn [ev]; rewrite V, v_area; reflexivity).
  unfold kgrow. rewrite E. cbn [growFormula]. rewrite Rmult_0_l. reflexivity.
Qed.
Lemma v_x1 : ev (N:=XR) xe (x1E (mO k)) = Fin (- (koxid k g M0 M1 * (M0 * sphere (M1 / M0)))).
Proof.
  rewrite <- surface_sphere by exact P0. pose proof v_ox as V. unfold x1E. destruct (mO k) eqn:E; try (cbn [ev]; rewrite V, v_area; xsimp; f_equal; ring).
  unfold koxid. rewrite E. cbn [oxidFormula]. rewrite Rmult_0_l, Ropp_0. reflexivity.
Qed.
Lemma v_c0 : ev (N:=XR) xe (c0E (mC k)) = Fin (- (1 / 2 * kernel k g (M1 / M0) (M1 / M0) * M0 ^ 2)).
Proof.
  assert (K : mC k <> C_FUCHS /\ mC k <> C_size) by (destruct SM as (_ & _ & _ & _ & _ & _ & _ & _ & K); exact K). destruct K as [K1 K2].
  pose proof (kern_real lm AC a U xm xm f rm rm BX BX BF k K1 K2 EF) as V. unfold c0E.
  destruct (mC k) eqn:E; try congruence.
  1: { unfold kernel. rewrite E. destruct (Rlt_dec massCutoff (M1 / M0)); rewrite ?Rmult_0_r, ?Rmult_0_l, ?Ropp_0; reflexivity. }
  all: cbn [ev]; rewrite V; change (re 5) with M0; change (@nlit XR (-5) (-1)) with (Fin (rlit (-5) (-1))); change rm with (M1 / M0); xsimp; f_equal; unfold rlit; negs; cbn [powerRZ]; field.
Qed.
Lemma v_gas sp : ev (N:=XR) xe (nGasE (mN k) (gasIdx sp)) = Fin (nuclGas (mN k) (Jnuc k g * nucMass g) sp) /\
  ev (N:=XR) xe (gGasE (mG k) (gasIdx sp)) = Fin (growGas (mG k) (kgrow k g M0 M1 * (M0 * sphere (M1 / M0))) sp) /\
  ev (N:=XR) xe (oGasE (mO k) (gasIdx sp)) = Fin (oxidGas (mO k) (koxid k g M0 M1 * (M0 * sphere (M1 / M0))) sp).
Proof.
  destruct SM as ((_ & _ & _) & NS & _ & GS & _ & _ & _ & OS & _). assert (NP : mN k <> N_PAH) by (destruct SM as ((Q & _) & _); exact Q).
  split; [|split].
  - rewrite ratios_n, v_n1. apply nth_error_nth. apply (nucl_each (mN k) _ NP NS).
  - rewrite ratios_g, v_g1. apply nth_error_nth. apply (grow_each (mG k) _ GS).
  - rewrite ratios_o, v_x1. apply nth_error_nth. rewrite <- (Ropp_involutive (koxid k g M0 M1 * _)) at 2. apply (oxid_each (mO k) _ OS).
Qed.

(** the call in double precision *)
Definition holdsM (m : model (N:=F64 lm)) : Prop :=
  sm_psd m = P_MONO /\ sm_nucl m = newNucl (mN k) /\ sm_grow m = newGrow (mG k) /\ sm_oxid m = newOxid (mO k) /\
  sm_coag m = set_FM_multiplier (newCoag (mC k)) (f : @num (F64 lm)) /\ sm_tar m = newTar T_NONE.
Notation fv e := (ev (N:=F64 lm) fe e).
Lemma call_float s0 s m g0 eig : call s0 a = SetOk s -> holdsM m -> absc s <> [] -> wts s <> [] ->
  exists m' s', setSourceTerms (N:=F64 lm) g0 eig m s = Ok (g0, m', s') /\
    sootSources (sm_sources m') = [nadd (Num:=F64 lm) (nadd (Num:=F64 lm) (nadd (Num:=F64 lm) (nadd (Num:=F64 lm) (fv (n0E (mN k))) (nZ 0)) (nZ 0)) (nZ 0)) (fv (c0E (mC k)));
      nadd (Num:=F64 lm) (nadd (Num:=F64 lm) (nadd (Num:=F64 lm) (nadd (Num:=F64 lm) (fv (n1E (mN k))) (nZ 0)) (fv (g1E (mG k)))) (fv (x1E (mO k)))) (nZ 0)] /\
    gasSources (sm_sources m') = map (fun i => nadd (Num:=F64 lm) (nadd (Num:=F64 lm) (fv (nGasE (mN k) i)) (fv (gGasE (mG k) i))) (fv (oGasE (mO k) i))) (seq 0 gasSize).
Proof.
  intros C (HP & HN & HG & HO & HC & HT) NA NW.
  pose proof (state_env lm a U xm xm f s0 s C) as E.
  assert (SM' := SM). destruct SM' as (GN & NS & G1 & G2 & O1 & O2 & O3 & O4 & C1 & C2).
  destruct (area_float lm AC a U xm xm f rm rm BX BX BF (conj P0 P1)) as [L5 LA].
  pose proof (kern_float lm a U xm xm f rm rm BX BX s0 s (set_FM_multiplier (newCoag (mC k)) (f : @num (F64 lm))) C C1 eq_refl) as KF.
  destruct (wts s) as [|w0 w] eqn:EW; [congruence|]. destruct (absc s) as [|a0 aa] eqn:EAb; [congruence|].
  set (s1 := with_wa s (m0 :: w : list (@num (F64 lm))) (xm :: aa : list (@num (F64 lm)))).
  assert (E1 : sEnv (N:=F64 lm) fe s1) by (destruct E; constructor; assumption).
  assert (WA : monoSetWA (N:=F64 lm) (fe 5%nat) (fe 6%nat) s = Ok s1).
  { unfold monoSetWA. match goal with |- (if ?c then _ else _) = _ => replace c with true by (symmetry; exact L5) end. rewrite EW, EAb. reflexivity. }
  assert (KF1 : coagRate (N:=F64 lm) (set_FM_multiplier (newCoag (mC k)) (f : @num (F64 lm))) s1 xm xm = fv (kernE (mC k) (EVar 7) (EVar 8) (EVar 9))) by exact KF.
  assert (AR : monoArea (N:=F64 lm) (fe 5%nat) (fe 6%nat) = fv areaM).
  { unfold monoArea. match goal with |- (if ?c then _ else _) = _ => replace c with true by (symmetry; exact L5) end. reflexivity. }
  assert (CH : chemRates (N:=F64 lm) (collSum (sm_coag m)) m s1 = Ok (fv (nuclE (mN k)), fv (growE (mG k)), fv (oxidE (mO k)), storeNucl m (newNucl (mN k)) None, s1)).
  { unfold chemRates, runNucl. rewrite HN, (nucl_sym (N:=F64 lm) fe s1 E1 _ (newNucl (mN k)) GN). cbn [bind].
    assert (V : sv_psd (viewOf (storeNucl m (newNucl (mN k)) None)) <> P_SECT). { cbn. unfold storeNucl. destruct (sm_priv (with_nuclObj m (newNucl (mN k)))); cbn; rewrite HP; discriminate. }
    assert (EG : sm_grow (storeNucl m (newNucl (mN k)) None) = newGrow (mG k)). { unfold storeNucl. destruct (sm_priv (with_nuclObj m (newNucl (mN k)))); cbn; exact HG. }
    assert (EO : sm_oxid (storeNucl m (newNucl (mN k)) None) = newOxid (mO k)). { unfold storeNucl. destruct (sm_priv (with_nuclObj m (newNucl (mN k)))); cbn; exact HO. }
    rewrite EG, EO, (grow_sym (N:=F64 lm) fe s1 E1 (newGrow (mG k)) _ V G1 L5 LA). cbn [bind]. rewrite (oxid_sym (N:=F64 lm) fe s1 E1 (newOxid (mO k)) _ V O1 O2). reflexivity. }
  set (m2 := storeNucl m (newNucl (mN k)) None) in *.
  assert (M2 : sm_nucl m2 = newNucl (mN k) /\ sm_grow m2 = newGrow (mG k) /\ sm_oxid m2 = newOxid (mO k) /\ sm_coag m2 = set_FM_multiplier (newCoag (mC k)) (f : @num (F64 lm)) /\ sm_tar m2 = newTar T_NONE).
  { unfold m2, storeNucl. destruct (sm_priv (with_nuclObj m (newNucl (mN k)))); cbn; repeat split; assumption. }
  destruct M2 as (N2 & GG2 & OO2 & CC2 & TT2).
  unfold setSourceTerms. rewrite HP. unfold setSourceTermsMONO. rewrite (eM0 _ _ E), (eM1 _ _ E). cbn [bind]. rewrite WA. cbn [bind]. rewrite HT. cbn [ta_mech newTar].
  unfold monoTermsOf. rewrite CH. cbn [bind].
  change (vget (absc s1) 0) with (Ok (xm : @num (F64 lm))). cbn [bind]. change (vget (wts s1) 0) with (Ok (m0 : @num (F64 lm))).
  rewrite CC2, KF1. unfold isPAH, nuclOn, growOn, oxidOn, coagOn. rewrite N2, GG2, OO2, CC2. cbn [newNucl newGrow newOxid newCoag set_FM_multiplier nu_mech gr_mech ox_mech co_mech bind].
  rewrite AR, (eC _ _ E1).
  assert (T0 : (if match mN k with N_NONE => false | _ => true end then fv (nuclE (mN k)) else nZ 0) = fv (n0E (mN k))) by (destruct (mN k); reflexivity).
  assert (T1 : (if match mN k with N_NONE => false | _ => true end then ndiv (nmul (nmul (fv (nuclE (mN k))) (fe 4%nat)) (MWof C_)) Na else nZ 0) = fv (n1E (mN k))) by (destruct (mN k); reflexivity).
  assert (T2 : (if match mG k with G_NONE => false | _ => true end then nmul (fv (growE (mG k))) (fv areaM) else nZ 0) = fv (g1E (mG k))) by (destruct (mG k); reflexivity).
  assert (T3 : (if match oxidTag (mO k) with O_NONE => false | _ => true end then nmul (nopp (fv (oxidE (mO k)))) (fv areaM) else nZ 0) = fv (x1E (mO k))) by (destruct (mO k); reflexivity).
  assert (T4 : (if match mC k with C_NONE => false | _ => true end then Ok (nmul (nmul (nmul (nlit (-5) (-1)) (fv (kernE (mC k) (EVar 7) (EVar 8) (EVar 9)))) (m0 : @num (F64 lm))) (m0 : @num (F64 lm))) else Ok (nZ 0)) = Ok (fv (c0E (mC k)))) by (destruct (mC k); reflexivity).
  assert (TP : (match mN k with N_PAH => true | _ => false end) = false) by (destruct GN as (Q & _); destruct (mN k); congruence).
  rewrite TP, T4. cbn [bind]. rewrite T0, T1, T2, T3. cbn [mt_N0 mt_N1 mt_Cnd1 mt_A mt_G1 mt_X1 mt_C0].
  eexists. exists s1. split; [reflexivity|]. split; [reflexivity|]. unfold finish, gasSrc. cbn [sm_sources with_sources gasSources].
  rewrite N2, GG2, OO2. apply map_ext. intro i. rewrite ratios_n, ratios_g, ratios_o. reflexivity.
Qed.

Lemma mono_sums s0 s m g0 eig : call s0 a = SetOk s -> holdsM m -> absc s <> [] -> wts s <> [] ->
  exists m' s' q0 q1 gs, setSourceTerms (N:=F64 lm) g0 eig m s = Ok (g0, m', s') /\ sootSources (sm_sources m') = [q0; q1] /\ gasSources (sm_sources m') = gs /\ length gs = 11%nat /\
    agreesSum q0 [Jnuc k g; - (1 / 2 * kernel k g (M1 / M0) (M1 / M0) * M0 ^ 2)] /\
    agreesSum q1 [Jnuc k g * nucMass g; kgrow k g M0 M1 * (M0 * sphere (M1 / M0)); - (koxid k g M0 M1 * (M0 * sphere (M1 / M0)))] /\
    forall sp, agreesSum (nth (gasIdx sp) gs (S754_zero false))
      [nuclGas (mN k) (Jnuc k g * nucMass g) sp; growGas (mG k) (kgrow k g M0 M1 * (M0 * sphere (M1 / M0))) sp; oxidGas (mO k) (koxid k g M0 M1 * (M0 * sphere (M1 / M0))) sp].
Proof.
  intros C H NA NW. destruct (call_float s0 s m g0 eig C H NA NW) as (m' & s' & R & ES & EG).
  assert (SM' := SM). destruct SM' as (GN & NS & G1 & G2 & O1 & O2 & O3 & O4 & C1 & C2).
  do 5 eexists. split; [exact R|]. split; [exact ES|]. split; [exact EG|]. split; [rewrite map_length, seq_length; reflexivity|].
  pose proof (term _ _ _ (an_n0 _ GN) v_n0 eq_refl) as S0. pose proof (term _ _ _ (an_n1 _ GN) v_n1 eq_refl) as S1.
  pose proof (term _ _ _ (an_g1 _ G1) v_g1 eq_refl) as S2. pose proof (term _ _ _ (an_x1 _ O1 O2 O3) v_x1 eq_refl) as S3.
  pose proof (term _ _ _ (an_c0 _ C1) v_c0 eq_refl) as S4. pose proof sum_none as Z.
  split; [|split].
  - pose proof (sum_plus _ _ _ _ _ _ (sum_plus _ _ _ _ _ _ (sum_plus _ _ _ _ _ _ (sum_plus _ _ _ _ _ _ S0 Z eq_refl) Z eq_refl) Z eq_refl) S4 eq_refl) as Q. apply sum_agrees in Q; [exact Q|cbn; lia].
  - pose proof (sum_plus _ _ _ _ _ _ (sum_plus _ _ _ _ _ _ (sum_plus _ _ _ _ _ _ (sum_plus _ _ _ _ _ _ S1 Z eq_refl) S2 eq_refl) S3 eq_refl) Z eq_refl) as Q. apply sum_agrees in Q; [exact Q|cbn; lia].
  - intro sp. assert (L : (gasIdx sp < 11)%nat) by (destruct sp; cbn; lia). destruct (v_gas sp) as (V1 & V2 & V3).
    pose proof (term _ _ _ (an_ng _ _ GN NS L) V1 eq_refl) as S5. pose proof (term _ _ _ (an_gg _ _ G1 G2 L) V2 eq_refl) as S6. pose proof (term _ _ _ (an_og _ _ O1 O2 O3 O4 L) V3 eq_refl) as S7.
    pose proof (sum_plus _ _ _ _ _ _ (sum_plus _ _ _ _ _ _ S5 S6 eq_refl) S7 eq_refl) as Q. apply sum_agrees in Q; [|cbn; lia].
    match goal with |- agreesSum ?u _ => match type of Q with agreesSum ?v _ => replace u with v by (destruct sp; reflexivity) end end. exact Q.
Qed.
End Call.
