(** Lemmas for C77: whole calls, and the Nagle-Strickland-Constable rate. *)
From Coq Require Import ZArith List Bool Reals Lra Lia.
From Verif Require Import Num Defs State Coag Nucl Growth Oxid Tar SootModel Qmom Calls XR XRLemmas SpecChem SpecCoag SpecValid SpecRates SpecGas SpecState SpecTar SpecPah SpecPsd SpecHeat
  CoagProofs MiscProofs ValidProofs RateProofs PsdProofs PahProofs MonoMain MonoCases RichProofs HeatProofs.
Import ListNotations.
Local Open Scope R_scope.

Lemma C77_rates_ (s s' : state (N:=XR)) g g' soot : valid s g soot -> valid s' g' soot -> hotter g g' ->
  (forall coll coll' nu, gasOnly (nu_class nu) -> exists r r', nuclRate coll nu s = Ok (Fin r, nu, s, None) /\ nuclRate coll' nu s' = Ok (Fin r', nu, s', None) /\ r <= r') /\
  (forall gr v M0 M1, seesMoments v soot M0 M1 -> gr_class gr <> G_HACA -> exists r r', growRate gr v s = Ok (Fin r) /\ growRate gr v s' = Ok (Fin r') /\ r <= r') /\
  (forall ox v M0 M1, seesMoments v soot M0 M1 -> activated (ox_class ox) -> exists r r', oxidRate ox v s = Ok (Fin r) /\ oxidRate ox v s' = Ok (Fin r') /\ r <= r').
Proof.
  intros V V' HO. split; [|split].
  - intros coll coll' nu G. do 2 eexists. split; [eapply nucl_formula; eauto|]. split; [eapply nucl_formula; eauto|]. eapply nucl_hot; eauto.
  - intros gr v M0 M1 SM NH. do 2 eexists. split; [eapply grow_formula; eauto; contradiction|]. split; [eapply grow_formula; eauto; contradiction|]. eapply grow_hot; eauto.
  - intros ox v M0 M1 SM A. pose proof A as (_ & _ & NH). do 2 eexists. split; [eapply oxid_formula; eauto; contradiction|]. split; [eapply oxid_formula; eauto; contradiction|]. eapply oxid_hot; eauto.
Qed.
Lemma C77_nucl_ (s s' : state (N:=XR)) g g' soot coll coll' nu : valid s g soot -> valid s' g' soot -> hotter g g' -> gasOnly (nu_class nu) ->
  exists r r', nuclRate coll nu s = Ok (Fin r, nu, s, None) /\ nuclRate coll' nu s' = Ok (Fin r', nu, s', None) /\ r <= r'.
Proof. intros V V' H G. now apply (C77_rates_ s s' g g' soot). Qed.
Lemma C77_grow_ (s s' : state (N:=XR)) g g' soot gr v M0 M1 : valid s g soot -> valid s' g' soot -> hotter g g' -> seesMoments v soot M0 M1 -> gr_class gr <> G_HACA ->
  exists r r', growRate gr v s = Ok (Fin r) /\ growRate gr v s' = Ok (Fin r') /\ r <= r'.
Proof. intros V V' H SM G. destruct (C77_rates_ s s' g g' soot V V' H) as (_ & K & _). eapply K; eauto. Qed.
Lemma C77_oxid_ (s s' : state (N:=XR)) g g' soot ox v M0 M1 : valid s g soot -> valid s' g' soot -> hotter g g' -> seesMoments v soot M0 M1 -> activated (ox_class ox) ->
  exists r r', oxidRate ox v s = Ok (Fin r) /\ oxidRate ox v s' = Ok (Fin r') /\ r <= r'.
Proof. intros V V' H SM G. destruct (C77_rates_ s s' g g' soot V V' H) as (_ & _ & K). eapply K; eauto. Qed.
Lemma C77_fair_ (s s' : state (N:=XR)) g g' soot ox v M0 M1 : valid s g soot -> valid s' g' soot -> hotter g g' -> seesMoments v soot M0 M1 -> ox_class ox = O_FAIR ->
  gT g < gT g' -> gT g' <= 2 * 39000 / (1987 / 1000) -> 0 < gY g O2 -> exists r r', oxidRate ox v s = Ok (Fin r) /\ oxidRate ox v s' = Ok (Fin r') /\ r' < r.
Proof.
  intros V V' HO SM EO TL TB Y. do 2 eexists. split; [eapply oxid_formula; eauto; congruence|]. split; [eapply oxid_formula; eauto; congruence|]. rewrite EO. eapply fair_cold; eauto.
Qed.

Lemma C77_mono_ (m : model (N:=XR)) s s' g g' k M0 M1 st eig :
  sm_psd m = P_MONO -> hasAll m k -> okAll k -> noTar m -> mN k <> N_PAH -> mG k <> G_HACA -> mO k <> O_HACA ->
  valid s g [M0; M1] -> valid s' g' [M0; M1] -> hotter g g' -> 0 < M0 ->
  length (wts s) = 1%nat -> length (absc s) = 1%nat -> length (wts s') = 1%nat -> length (absc s') = 1%nat ->
  exists m1 s1 m2 s2 n f n' f', setSourceTerms st eig m s = Ok (st, m1, s1) /\ soots m1 = [Fin n; Fin f] /\ setSourceTerms st eig m s' = Ok (st, m2, s2) /\ soots m2 = [Fin n'; Fin f'] /\
    (mC k = C_NONE -> n <= n') /\ (mO k = O_NONE -> f <= f') /\ (mN k = N_NONE -> mG k = G_NONE -> activated (mO k) -> f' <= f).
Proof.
  intros PP HM OM HT NP NG NO V V' HO P0 LW LA LW' LA'.
  assert (E : isP k = false) by (destruct (isP k) eqn:Q; [apply isP_true in Q; congruence|reflexivity]).
  assert (RG : forall h, regular k h M0 M1) by (intros h [K|K]; contradiction).
  destruct (mono_full m s g k M0 M1 st eig PP HM OM HT V P0 (RG g) LW LA) as (m1 & E1 & S1 & _).
  destruct (mono_full m s' g' k M0 M1 st eig PP HM OM HT V' P0 (RG g') LW' LA') as (m2 & E2 & S2 & _).
  unfold nucl in S1, S2. rewrite E in S1, S2. unfold oN1 in S1, S2. cbn [oJ oGas oMass oConc] in S1, S2. set (x := M1 / M0) in *.
  pose proof (nucl_hot s g g' _ V HO (mN k)) as KN. pose proof (grow_hot s g g' _ V HO (mG k) M0 M1 NG) as KG.
  assert (EM : nucMass g' = nucMass g) by (unfold nucMass; destruct HO as (_ & _ & -> & _); reflexivity).
  assert (PM : 0 < nucMass g) by (unfold nucMass; pose proof (v_cMinpos _ _ _ V); pose proof massC_pos; pose proof avo_pos; apply Rdiv_lt_0_compat; [now apply Rmult_lt_0_compat|assumption]).
  assert (PA : 0 <= M0 * sphere x). { apply Rmult_le_pos; [lra|]. unfold sphere. destruct (Rlt_dec 0 x); [|lra]. apply Rmult_le_pos; [pose proof piC_pos; lra|]. apply pow2_ge_0. }
  do 8 eexists. split; [exact E1|]. split; [exact S1|]. split; [exact E2|]. split; [exact S2|]. rewrite EM. unfold Jnuc, kgrow, koxid in *. split; [|split].
  - intros EC. assert (K : forall h a b, kernel k h a b = 0). { intros h a b. unfold kernel. rewrite EC. destruct (Rlt_dec massCutoff a); [|reflexivity]. destruct (Rlt_dec massCutoff b); reflexivity. }
    rewrite !K. lra.
  - intros EO. rewrite EO. cbn [oxidFormula]. pose proof (Rmult_le_compat_r (nucMass g) _ _ (Rlt_le _ _ PM) KN). pose proof (Rmult_le_compat_r _ _ _ PA KG). lra.
  - intros EN EG A. pose proof (oxid_hot s g g' _ V HO (mO k) M0 M1 A) as KO. rewrite EN, EG. cbn [growFormula nuclFormula]. pose proof (Rmult_le_compat_r _ _ _ PA KO). lra.
Qed.

(** ** bounds of exp(1/4) *)
Lemma exp_n x n : exp (INR n * x) = exp x ^ n.
Proof. induction n; [cbn; now rewrite Rmult_0_l, exp_0|]. rewrite S_INR, Rmult_plus_distr_r, exp_plus, IHn, Rmult_1_l. cbn [pow]. ring. Qed.
Lemma sq_lo x a b : 0 <= a -> a <= exp x -> b <= a * a -> b <= exp (x + x).
Proof. intros A H B. rewrite exp_plus. apply Rle_trans with (a * a); [exact B|]. apply Rmult_le_compat; lra. Qed.
Lemma sq_hi x a b : exp x <= a -> a * a <= b -> exp (x + x) <= b.
Proof. intros H B. rewrite exp_plus. apply Rle_trans with (a * a); [|exact B]. pose proof (exp_pos x). apply Rmult_le_compat; lra. Qed.
Lemma q_lo : 12839 / 10000 <= exp (1 / 4).
Proof.
  apply Rle_trans with (128398815 / 100000000); [lra|].
  replace (1 / 4) with (1 / 8 + 1 / 8) by lra. apply (sq_lo _ (113313201 / 100000000)); [lra| |lra].
  replace (1 / 8) with (1 / 16 + 1 / 16) by lra. apply (sq_lo _ (106448674 / 100000000)); [lra| |lra].
  replace (1 / 16) with (1 / 32 + 1 / 32) by lra. apply (sq_lo _ (103173967 / 100000000)); [lra| |lra].
  replace (1 / 32) with (1 / 64 + 1 / 64) by lra. apply (sq_lo _ (101574587 / 100000000)); [lra| |lra].
  replace (1 / 64) with (1 / 128 + 1 / 128) by lra. apply (sq_lo _ (100784219 / 100000000)); [lra| |lra].
  replace (1 / 128) with (1 / 256 + 1 / 256) by lra. apply (sq_lo _ (100391344 / 100000000)); [lra| |lra].
  replace (1 / 256) with (1 / 512 + 1 / 512) by lra. apply (sq_lo _ (100195481 / 100000000)); [lra| |lra].
  replace (1 / 512) with (1 / 1024 + 1 / 1024) by lra. apply (sq_lo _ (100097693 / 100000000)); [lra| |lra].
  replace (1 / 1024) with (1 / 2048 + 1 / 2048) by lra. apply (sq_lo _ (100048835 / 100000000)); [lra| |lra].
  replace (1 / 2048) with (1 / 4096 + 1 / 4096) by lra. apply (sq_lo _ (100024415 / 100000000)); [lra| |lra].
  replace (1 / 4096) with (1 / 8192 + 1 / 8192) by lra. apply (sq_lo _ (100012207 / 100000000)); [lra| |lra].
  replace (1 / 8192) with (1 / 16384 + 1 / 16384) by lra. apply (sq_lo _ (16385 / 16384)); [lra| |lra].
  pose proof (exp_ineq1 (1 / 16384) ltac:(lra)). lra.
Qed.
Lemma q_hi : exp (1 / 4) <= 12842 / 10000.
Proof.
  apply Rle_trans with (128406699 / 100000000); [|lra].
  replace (1 / 4) with (1 / 8 + 1 / 8) by lra. apply (sq_hi _ (113316679 / 100000000)); [|lra].
  replace (1 / 8) with (1 / 16 + 1 / 16) by lra. apply (sq_hi _ (106450307 / 100000000)); [|lra].
  replace (1 / 16) with (1 / 32 + 1 / 32) by lra. apply (sq_hi _ (103174758 / 100000000)); [|lra].
  replace (1 / 32) with (1 / 64 + 1 / 64) by lra. apply (sq_hi _ (101574976 / 100000000)); [|lra].
  replace (1 / 64) with (1 / 128 + 1 / 128) by lra. apply (sq_hi _ (100784411 / 100000000)); [|lra].
  replace (1 / 128) with (1 / 256 + 1 / 256) by lra. apply (sq_hi _ (100391439 / 100000000)); [|lra].
  replace (1 / 256) with (1 / 512 + 1 / 512) by lra. apply (sq_hi _ (100195528 / 100000000)); [|lra].
  replace (1 / 512) with (1 / 1024 + 1 / 1024) by lra. apply (sq_hi _ (100097716 / 100000000)); [|lra].
  replace (1 / 1024) with (1 / 2048 + 1 / 2048) by lra. apply (sq_hi _ (100048846 / 100000000)); [|lra].
  replace (1 / 2048) with (1 / 4096 + 1 / 4096) by lra. apply (sq_hi _ (100024420 / 100000000)); [|lra].
  replace (1 / 4096) with (1 / 8192 + 1 / 8192) by lra. apply (sq_hi _ (100012209 / 100000000)); [|lra].
  replace (1 / 8192) with (1 / 16384 + 1 / 16384) by lra. apply (sq_hi _ (16384 / 16383)); [|lra].
  pose proof (exp_ineq1 (- (1 / 16384)) ltac:(lra)) as H. assert (E : exp (1 / 16384) * exp (- (1 / 16384)) = 1) by (rewrite <- exp_plus; replace (1 / 16384 + - (1 / 16384)) with 0 by ring; apply exp_0).
  apply Rmult_le_reg_r with (exp (- (1 / 16384))); [apply exp_pos|]. rewrite E. lra.
Qed.
Lemma quarter_lo n x : INR n / 4 <= x -> (12839 / 10000) ^ n <= exp x.
Proof.
  intros H. apply Rle_trans with (exp (INR n * (1 / 4))); [rewrite exp_n; apply pow_incr; pose proof q_lo; lra|]. apply exp_mono. lra.
Qed.
Lemma quarter_hi n x : x <= INR n / 4 -> exp x <= (12842 / 10000) ^ n.
Proof.
  intros H. apply Rle_trans with (exp (INR n * (1 / 4))); [apply exp_mono; lra|]. rewrite exp_n. apply pow_incr. pose proof q_hi. pose proof (exp_pos (1 / 4)). lra.
Qed.

(** ** the Nagle-Strickland-Constable rate falls between 1500 K and 2250 K *)
Lemma exp_neg_lo n x : x <= INR n / 4 -> / (12842 / 10000) ^ n <= exp (- x).
Proof. intros H. rewrite exp_Ropp. apply Rinv_le_contravar; [apply exp_pos|now apply quarter_hi]. Qed.
Lemma exp_neg_hi n x : INR n / 4 <= x -> exp (- x) <= / (12839 / 10000) ^ n.
Proof. intros H. rewrite exp_Ropp. apply Rinv_le_contravar; [apply pow_lt; lra|now apply quarter_lo]. Qed.

Lemma nsc_low (kA kB kT kZ p a z tau : R) : 0 < p -> 0 < kB -> 0 < kT -> 0 <= a <= kA -> 0 <= kZ * p <= z -> kT <= tau * (kB * p) -> 0 < tau ->
  a * p / ((1 + tau) * (1 + z)) <= kA * p * (kB * p / (kB * p + kT) / (1 + kZ * p)) + kB * p * (1 - kB * p / (kB * p + kT)).
Proof.
  intros P B T A Z H TT. assert (BP : 0 < kB * p) by now apply Rmult_lt_0_compat. set (b := kB * p) in *. set (w := kZ * p) in *.
  assert (X1 : / (1 + tau) <= b / (b + kT)). { replace (b / (b + kT)) with (/ ((b + kT) / b)) by (field; lra). apply Rinv_le_contravar; [apply Rdiv_lt_0_compat; lra|]. apply Rmult_le_reg_r with b; [exact BP|]. replace ((b + kT) / b * b) with (b + kT) by (field; lra). lra. }
  assert (X2 : b / (b + kT) <= 1). { apply Rmult_le_reg_r with (b + kT); [lra|]. replace (b / (b + kT) * (b + kT)) with b by (field; lra). lra. }
  assert (W : / (1 + z) <= / (1 + w)) by (apply Rinv_le_contravar; lra). assert (I1 : 0 < / (1 + tau)) by (apply Rinv_0_lt_compat; lra). assert (I2 : 0 < / (1 + z)) by (apply Rinv_0_lt_compat; lra).
  replace (a * p / ((1 + tau) * (1 + z))) with (a * p * (/ (1 + tau) * / (1 + z))) by (field; lra).
  assert (K1 : a * p * (/ (1 + tau) * / (1 + z)) <= kA * p * (b / (b + kT) / (1 + w))).
  { apply Rmult_le_compat; [apply Rmult_le_pos; lra|apply Rmult_le_pos; lra|apply Rmult_le_compat_r; lra|]. unfold Rdiv at 1. apply Rmult_le_compat; lra. }
  assert (K2 : 0 <= b * (1 - b / (b + kT))) by (apply Rmult_le_pos; lra). lra.
Qed.
Lemma nsc_high (kA kB kT kZ p a b' xi : R) : 0 < p -> 0 < kB -> 0 < kT -> 0 <= kA <= a -> 0 <= kZ * p -> kB <= b' -> kB * p <= xi * kT -> 0 <= xi ->
  kA * p * (kB * p / (kB * p + kT) / (1 + kZ * p)) + kB * p * (1 - kB * p / (kB * p + kT)) <= a * p * xi + b' * p.
Proof.
  intros P B T A Z HB H XI. assert (BP : 0 < kB * p) by now apply Rmult_lt_0_compat. pose proof (Rmult_le_compat_r p _ _ (Rlt_le _ _ P) HB) as HB'. set (b := kB * p) in *. set (w := kZ * p) in *.
  assert (X0 : 0 <= b / (b + kT)) by (apply Rlt_le, Rdiv_lt_0_compat; lra).
  assert (X1 : b / (b + kT) <= xi). { apply Rmult_le_reg_r with (b + kT); [lra|]. replace (b / (b + kT) * (b + kT)) with b by (field; lra). pose proof (Rmult_le_pos _ _ XI (Rlt_le _ _ BP)). lra. }
  assert (W : / (1 + w) <= 1) by (rewrite <- Rinv_1 at 2; apply Rinv_le_contravar; lra). assert (W0 : 0 < / (1 + w)) by (apply Rinv_0_lt_compat; lra).
  assert (X2 : 0 <= b / (b + kT) / (1 + w) <= xi). { unfold Rdiv at 1 3. split; [apply Rmult_le_pos; lra|]. replace xi with (xi * 1) by ring. apply Rmult_le_compat; lra. }
  assert (K1 : kA * p * (b / (b + kT) / (1 + w)) <= a * p * xi). { apply Rmult_le_compat; [apply Rmult_le_pos; lra|lra|apply Rmult_le_compat_r; lra|lra]. }
  assert (K2 : b * (1 - b / (b + kT)) <= b * 1) by (apply Rmult_le_compat_l; lra). lra.
Qed.
Lemma nsc_falls : nsc 2250 (3 / 2000) < nsc 1500 (1 / 1000).
Proof.
  unfold nsc. cbv zeta. unfold sootDensity. apply Rmult_lt_compat_l; [lra|].
  eapply Rle_lt_trans; [apply (nsc_high _ _ _ _ _ (302 / 10000) (174 / 1000000) (485 / 100000))|eapply Rlt_le_trans; [|apply (nsc_low _ _ _ _ _ (70 / 100000) (1 / 10) (6 / 100))]].
  - lra.
  - apply Rmult_lt_0_compat; [lra|apply exp_pos].
  - apply Rmult_lt_0_compat; [lra|apply exp_pos].
  - split; [apply Rmult_le_pos; [lra|apply Rlt_le, exp_pos]|]. replace (- 15098 / 2250) with (- (15098 / 2250)) by lra. pose proof (exp_neg_hi 26 (15098 / 2250) ltac:(cbn; lra)). lra.
  - apply Rmult_le_pos; [apply Rmult_le_pos; [lra|apply Rlt_le, exp_pos]|lra].
  - replace (- 7650 / 2250) with (- (7650 / 2250)) by lra. pose proof (exp_neg_hi 13 (7650 / 2250) ltac:(cbn; lra)). lra.
  - replace (- 7650 / 2250) with (- 48817 / 2250 + 41167 / 2250) by lra. rewrite exp_plus. pose proof (quarter_hi 74 (41167 / 2250) ltac:(cbn; lra)) as Q. pose proof (exp_pos (- 48817 / 2250)) as E.
    apply Rle_trans with (exp (- 48817 / 2250) * (446 / 100000 * (3 / 2000) * (12842 / 10000) ^ 74)).
    + replace (446 / 100000 * (exp (- 48817 / 2250) * exp (41167 / 2250)) * (3 / 2000)) with (exp (- 48817 / 2250) * (446 / 100000 * (3 / 2000) * exp (41167 / 2250))) by ring. apply Rmult_le_compat_l; lra.
    + replace (485 / 100000 * (151000 * exp (- 48817 / 2250))) with (exp (- 48817 / 2250) * (485 / 100000 * 151000)) by ring. apply Rmult_le_compat_l; lra.
  - lra.
  - lra.
  - lra.
  - apply Rmult_lt_0_compat; [lra|apply exp_pos].
  - apply Rmult_lt_0_compat; [lra|apply exp_pos].
  - split; [lra|]. replace (- 15098 / 1500) with (- (15098 / 1500)) by lra. pose proof (exp_neg_lo 41 (15098 / 1500) ltac:(cbn; lra)). lra.
  - split; [apply Rmult_le_pos; [apply Rmult_le_pos; [lra|apply Rlt_le, exp_pos]|lra]|]. pose proof (quarter_hi 6 (2063 / 1500) ltac:(cbn; lra)). lra.
  - replace (- 48817 / 1500) with (- 7650 / 1500 + - (41167 / 1500)) by lra. rewrite exp_plus. pose proof (exp_neg_hi 109 (41167 / 1500) ltac:(cbn; lra)) as Q. pose proof (exp_pos (- 7650 / 1500)) as E.
    replace (151000 * (exp (- 7650 / 1500) * exp (- (41167 / 1500)))) with (exp (- 7650 / 1500) * (151000 * exp (- (41167 / 1500)))) by ring.
    replace (6 / 100 * (446 / 100000 * exp (- 7650 / 1500) * (1 / 1000))) with (exp (- 7650 / 1500) * (6 / 100 * (446 / 100000) * (1 / 1000))) by ring. apply Rmult_le_compat_l; lra.
  - lra.
Qed.

(** oxygen, at a density that makes its pressure 1/1000 atmosphere at 1500 K *)
Definition thinGas (t : R) : gas :=
  mkGas t 101325 (101325 / 1000 * molarMass O2 / (avogadro * boltzmann * 1500)) (1 / 20000) 100 (fun sp => match sp with O2 => 1 | _ => 0 end) (fun _ => 0).
Definition warmGas (t : R) : gas := mkGas t 101325 (1 / 5) (1 / 20000) 100 (fun _ => 1 / 20) (fun _ => 1 / 1000).
Lemma thin_state t : 0 < t -> exists s, call (newState 2 0) (argsOf (thinGas t) [1; 1] []) = SetOk s /\ valid s (thinGas t) [1; 1].
Proof.
  intros T. pose proof avo_pos. pose proof boltz_pos. pose proof (mm_pos O2).
  destruct (argsOf_any (newState 2 0) (thinGas t) [1; 1] [] eq_refl eq_refl eq_refl) as (s & C & V & _); [|intros []; cbn; lra|unfold pahVec, allPah; cbn [map fold_left gPah thinGas]; lra|exact in11|intros ? []|now exists s].
  unfold okGas, thinGas. cbn [gT gP gRho gMu gCMin gY gPah]. split; [exact T|]. split; [lra|]. split; [|split; [lra|]; split; [lra|]; split; [intros []; lra|intros; lra]].
  apply Rdiv_lt_0_compat; [apply Rmult_lt_0_compat; lra|]. repeat apply Rmult_lt_0_compat; lra.
Qed.
Lemma warm_state t : 0 < t -> exists s, call (newState 2 0) (argsOf (warmGas t) [1; 1] []) = SetOk s /\ valid s (warmGas t) [1; 1] /\ length (wts s) = 1%nat /\ length (absc s) = 1%nat.
Proof.
  intros T. destruct (argsOf_any (newState 2 0) (warmGas t) [1; 1] [] eq_refl eq_refl eq_refl) as (s & C & V & _ & EW & EA & _);
    [|intros; cbn; lra|unfold pahVec, allPah; cbn [map fold_left gPah warmGas]; lra|exact in11|intros ? []|exists s; rewrite EW, EA; auto].
  unfold okGas, warmGas. cbn [gT gP gRho gMu gCMin gY gPah]. repeat split; intros; lra.
Qed.
Lemma thin_press t : atm (partialP (thinGas t) O2) = t / 1500000.
Proof. pose proof avo_pos. pose proof boltz_pos. pose proof (mm_pos O2). unfold atm, partialP, conc. cbn [gRho gY gT thinGas]. field. lra. Qed.
Lemma thin_OH t : partialP (thinGas t) OH = 0.
Proof. unfold partialP, conc. cbn [gRho gY thinGas]. unfold Rdiv. ring. Qed.
Lemma C77_nsc_ : exists (s s' : state (N:=XR)) g g' (v : smView (N:=XR)) r r',
  call (newState 2 0) (argsOf g [1; 1] []) = SetOk s /\ call (newState 2 0) (argsOf g' [1; 1] []) = SetOk s' /\ valid s g [1; 1] /\ valid s' g' [1; 1] /\ hotter g g' /\ gT g < gT g' /\
  seesMoments v [1; 1] 1 1 /\ oxidRate (newOxid O_NSC_NEOH) v s = Ok (Fin r) /\ oxidRate (newOxid O_NSC_NEOH) v s' = Ok (Fin r') /\ r' < r.
Proof.
  destruct (thin_state 1500 ltac:(lra)) as (s & C & V). destruct (thin_state 2250 ltac:(lra)) as (s' & C' & V').
  destruct (constructEnum (N:=XR) P_MONO 2 N_LL G_LL O_NSC_NEOH C_FM 0 T_NONE (nZ 2) 100) as [m| |] eqn:E; try discriminate. destruct (built _ _ _ _ _ _ _ _ _ _ _ E) as (_ & Hp & _).
  assert (SM : seesMoments (viewOf m) [1; 1] 1 1) by (apply sees_moment; rewrite Hp; discriminate).
  exists s, s', (thinGas 1500), (thinGas 2250), (viewOf m), (oxidFormula O_NSC_NEOH (thinGas 1500) 1 1), (oxidFormula O_NSC_NEOH (thinGas 2250) 1 1).
  split; [exact C|]. split; [exact C'|]. split; [exact V|]. split; [exact V'|]. split; [split; [cbn; lra|]; split; [reflexivity|]; split; reflexivity|]. split; [cbn; lra|]. split; [exact SM|].
  split; [exact (oxid_formula s _ _ V (newOxid O_NSC_NEOH) _ 1 1 SM ltac:(discriminate))|]. split; [exact (oxid_formula s' _ _ V' (newOxid O_NSC_NEOH) _ 1 1 SM ltac:(discriminate))|].
  cbn [oxidFormula]. rewrite !thin_OH, !thin_press. cbn [gT thinGas]. replace (2250 / 1500000) with (3 / 2000) by lra. replace (1500 / 1500000) with (1 / 1000) by lra. pose proof nsc_falls. unfold atm, Rdiv in *. lra.
Qed.

Definition kHeat (o : oxidationMech) : mechs := mkMechs N_LL G_LL o C_NONE 1.
Lemma heat_case : exists (m : model (N:=XR)) s s', constructEnum P_MONO 2 N_LL G_LL O_NONE C_NONE 0 T_NONE (nZ 2) 100 = Ok m /\
  sm_psd m = P_MONO /\ hasAll m (kHeat O_NONE) /\ okAll (kHeat O_NONE) /\ noTar m /\
  call (newState 2 0) (argsOf (warmGas 1500) [1; 1] []) = SetOk s /\ call (newState 2 0) (argsOf (warmGas 2000) [1; 1] []) = SetOk s' /\
  valid s (warmGas 1500) [1; 1] /\ valid s' (warmGas 2000) [1; 1] /\ hotter (warmGas 1500) (warmGas 2000) /\
  length (wts s) = 1%nat /\ length (absc s) = 1%nat /\ length (wts s') = 1%nat /\ length (absc s') = 1%nat /\ seesMoments (viewOf m) [1; 1] 1 1 /\
  gT (warmGas 1500) < gT (warmGas 2000) <= 2 * 39000 / (1987 / 1000) /\ 0 < gY (warmGas 1500) O2.
Proof.
  destruct (warm_state 1500 ltac:(lra)) as (s & C & V & L1 & L2). destruct (warm_state 2000 ltac:(lra)) as (s' & C' & V' & L1' & L2').
  destruct (constructEnum (N:=XR) P_MONO 2 N_LL G_LL O_NONE C_NONE 0 T_NONE (nZ 2) 100) as [m| |] eqn:E; try discriminate. destruct (built _ _ _ _ _ _ _ _ _ _ _ E) as (H & Hp & _ & Ht & _).
  exists m, s, s'. split; [reflexivity|]. split; [exact Hp|]. split; [exact H|]. split; [split; [left; unfold kHeat; okm|unfold kHeat; okm]|]. split; [exact Ht|]. split; [exact C|]. split; [exact C'|]. split; [exact V|]. split; [exact V'|].
  split; [split; [cbn; lra|]; split; [reflexivity|]; split; reflexivity|]. do 4 (split; [assumption|]). split; [apply sees_moment; rewrite Hp; discriminate|]. cbn [gT gY warmGas]. lra.
Qed.
Lemma heat_case_ox : exists (m : model (N:=XR)), constructEnum P_MONO 2 N_NONE G_NONE O_LL C_NONE 0 T_NONE (nZ 2) 100 = Ok m /\
  sm_psd m = P_MONO /\ hasAll m (mkMechs N_NONE G_NONE O_LL C_NONE 1) /\ okAll (mkMechs N_NONE G_NONE O_LL C_NONE 1) /\ noTar m /\ activated O_LL.
Proof.
  destruct (constructEnum (N:=XR) P_MONO 2 N_NONE G_NONE O_LL C_NONE 0 T_NONE (nZ 2) 100) as [m| |] eqn:E; try discriminate. destruct (built _ _ _ _ _ _ _ _ _ _ _ E) as (H & Hp & _ & Ht & _).
  exists m. split; [reflexivity|]. split; [exact Hp|]. split; [exact H|]. split; [split; [left; okm|okm]|]. split; [exact Ht|]. split; [|split]; discriminate.
Qed.
