(** Lemmas on the lognormal model: closure, kernels as sums of powers, one whole call. *)
From Coq Require Import ZArith List Bool Reals Lra Lia.
From Verif Require Import Num Defs State Coag Nucl Growth Oxid Tar SootModel Logn Qmom Calls XR XRLemmas
  SpecState SpecChem SpecCoag SpecValid SpecRates SpecGas SpecTar SpecPah SpecPsd SpecSect SpecQmom SpecLogn CoagProofs StateXR ValidProofs InterpProofs GasProofs MiscProofs RateProofs PsdProofs PahProofs
  MonoProofs SectProofs ChemAll SectMain.
Import ListNotations.
Local Open Scope R_scope.

(** ** closure *)
Lemma Mr_val r M0 M1 M2 : 0 <= M0 -> 0 <= M1 -> 0 <= M2 ->
  lognMr (N:=XR) (Fin r) (Fin M0) (Fin M1) (Fin M2) = Fin (closure M0 M1 M2 r).
Proof.
  intros P0 P1 P2. unfold lognMr, closure. cbv zeta. change (@nleb XR) with xleb. change (@nZ XR 0) with (Fin 0).
  destruct (Rlt_dec 0 M0) as [H0|H0]; [|now rewrite xleb_true by lra]. rewrite xleb_false by auto.
  replace (@nadd XR (nZ 1) (@nmul XR (@nmul XR (nlit 5 (-1)) (Fin r)) (@nsub XR (Fin r) (nZ 3)))) with (Fin (1 + 1 / 2 * r * (r - 3))) by (xsimp; f_equal; lra).
  replace (@nmul XR (Fin r) (@nsub XR (nZ 2) (Fin r))) with (Fin (r * (2 - r))) by (xsimp; reflexivity).
  replace (@nmul XR (@nmul XR (nlit 5 (-1)) (Fin r)) (@nsub XR (Fin r) (nZ 1))) with (Fin (1 / 2 * r * (r - 1))) by (xsimp; f_equal; lra).
  change (@npow XR) with xpow. set (e0 := 1 + 1 / 2 * r * (r - 3)). set (e1 := r * (2 - r)). set (e2 := 1 / 2 * r * (r - 1)).
  cbn [andb orb].
  destruct (Rlt_dec 0 M1) as [H1|H1].
  - rewrite (xleb_false M1) by auto. cbn [andb orb]. destruct (Rlt_dec 0 M2) as [H2|H2].
    + rewrite (xleb_false M2) by auto. cbn [andb]. rewrite !xpow_fin by auto. reflexivity.
    + replace M2 with 0 by lra. rewrite (xleb_true 0 0) by lra. cbn [andb]. unfold xleb at 1. destruct (Rle_dec e2 0); [reflexivity|].
      rewrite xpow_0pos by lra. rewrite !xpow_fin by auto. xsimp. f_equal. ring.
  - replace M1 with 0 by lra. rewrite (xleb_true 0 0) by lra. cbn [andb orb]. unfold xleb at 1. destruct (Rle_dec e1 0); [reflexivity|]. cbn [orb].
    rewrite (xpow_0pos e1) by lra. rewrite (xpow_fin M0) by auto.
    destruct (Rlt_dec 0 M2) as [H2|H2].
    + rewrite (xleb_false M2) by auto. cbn [andb]. rewrite xpow_fin by auto. xsimp. f_equal. ring.
    + replace M2 with 0 by lra. rewrite (xleb_true 0 0) by lra. cbn [andb]. unfold xleb at 1. destruct (Rle_dec e2 0); [reflexivity|].
      rewrite xpow_0pos by lra. xsimp. f_equal. ring.
Qed.
Lemma M_val z M0 M1 M2 : 0 <= M0 -> 0 <= M1 -> 0 <= M2 ->
  lognM (N:=XR) (Fin M0) (Fin M1) (Fin M2) z = Fin (closure M0 M1 M2 (sixth z)).
Proof.
  intros. unfold lognM. replace (@ndiv XR (nZ z) (nZ 6)) with (Fin (sixth z)); [now apply Mr_val|]. change (@nZ XR z) with (Fin (IZR z)). change (@nZ XR 6) with (Fin 6).
  change (@ndiv XR) with xdiv. now rewrite xdiv_fin by lra.
Qed.
Lemma mom_z M0 M1 M2 z : z <> 0%Z -> z <> 6%Z -> mom M0 M1 M2 z = closure M0 M1 M2 (sixth z).
Proof. intros A B. unfold mom. now rewrite (proj2 (Z.eqb_neq z 0) A), (proj2 (Z.eqb_neq z 6) B). Qed.

Lemma closure_pos M0 M1 M2 r : 0 < M0 -> 0 < M1 -> 0 < M2 ->
  closure M0 M1 M2 r = exp ((1 + 1 / 2 * r * (r - 3)) * ln M0 + r * (2 - r) * ln M1 + 1 / 2 * r * (r - 1) * ln M2).
Proof.
  intros. unfold closure. destruct (Rlt_dec 0 M0), (Rlt_dec 0 M1), (Rlt_dec 0 M2); try lra. unfold Rpower. now rewrite !exp_plus.
Qed.
Lemma closure_0 M0 M1 M2 : 0 < M0 -> 0 < M1 -> 0 < M2 -> closure M0 M1 M2 0 = M0.
Proof. intros. rewrite closure_pos by auto. rewrite <- (exp_ln M0) at 2 by auto. f_equal. lra. Qed.
Lemma closure_1 M0 M1 M2 : 0 < M0 -> 0 < M1 -> 0 < M2 -> closure M0 M1 M2 1 = M1.
Proof. intros. rewrite closure_pos by auto. rewrite <- (exp_ln M1) at 2 by auto. f_equal. lra. Qed.
Lemma closure_2 M0 M1 M2 : 0 < M0 -> 0 < M1 -> 0 < M2 -> closure M0 M1 M2 2 = M2.
Proof. intros. rewrite closure_pos by auto. rewrite <- (exp_ln M2) at 2 by auto. f_equal. lra. Qed.
Lemma closure_scale c M0 M1 M2 r : 0 < c -> 0 < M0 -> 0 < M1 -> 0 < M2 -> closure (c * M0) (c * M1) (c * M2) r = c * closure M0 M1 M2 r.
Proof.
  intros Hc H0 H1 H2. rewrite !closure_pos; try (apply Rmult_lt_0_compat; auto); auto. rewrite !ln_mult by auto. rewrite <- (exp_ln c) at 4 by auto. rewrite <- exp_plus. f_equal. field.
Qed.
Lemma closure_logn n mu v r : 0 < n ->
  closure (lognormalMoment n mu v 0) (lognormalMoment n mu v 1) (lognormalMoment n mu v 2) r = lognormalMoment n mu v r.
Proof.
  intros H. assert (P : forall q, 0 < lognormalMoment n mu v q) by (intros; unfold lognormalMoment; apply Rmult_lt_0_compat; auto using exp_pos).
  assert (L : forall q, ln (lognormalMoment n mu v q) = ln n + (mu * q + v * q ^ 2 / 2)) by (intros; unfold lognormalMoment; rewrite ln_mult, ln_exp by auto using exp_pos; reflexivity).
  rewrite closure_pos by auto. rewrite !L. unfold lognormalMoment. rewrite <- (exp_ln n) at 4 by auto. rewrite <- exp_plus. f_equal. field.
Qed.
Lemma lndiv a b : 0 < a -> 0 < b -> ln (a / b) = ln a - ln b.
Proof. intros. unfold Rdiv. rewrite ln_mult, ln_Rinv by auto using Rinv_0_lt_compat. ring. Qed.
(** every positive triple is one; the variance is non-negative exactly for M1^2 <= M0 M2 *)
Lemma logn_params M0 M1 M2 : 0 < M0 -> 0 < M1 -> 0 < M2 ->
  exists mu v, M0 = lognormalMoment M0 mu v 0 /\ M1 = lognormalMoment M0 mu v 1 /\ M2 = lognormalMoment M0 mu v 2 /\ (0 <= v <-> M1 ^ 2 <= M0 * M2).
Proof.
  intros H0 H1 H2. set (v := ln M0 + ln M2 - 2 * ln M1). set (mu := ln M1 - ln M0 - v / 2). exists mu, v. unfold lognormalMoment.
  assert (E : forall x, 0 < x -> M0 * (x / M0) = x) by (intros; field; lra). split; [|split; [|split]].
  - replace (mu * 0 + v * 0 ^ 2 / 2) with 0 by field. rewrite exp_0. ring.
  - replace (mu * 1 + v * 1 ^ 2 / 2) with (ln (M1 / M0)) by (rewrite lndiv by auto; unfold mu; field). rewrite exp_ln by (apply Rdiv_lt_0_compat; auto). field. lra.
  - replace (mu * 2 + v * 2 ^ 2 / 2) with (ln (M2 / M0)) by (rewrite lndiv by auto; unfold mu, v; field). rewrite exp_ln by (apply Rdiv_lt_0_compat; auto). field. lra.
  - assert (Q : v = ln (M0 * M2) - ln (M1 ^ 2)). { unfold v. rewrite ln_mult by auto. cbn [pow]. rewrite Rmult_1_r, ln_mult by auto. ring. }
    assert (0 < M0 * M2) by (apply Rmult_lt_0_compat; auto). assert (0 < M1 ^ 2) by (apply pow_lt; auto). rewrite Q. split.
    + intros G. destruct (Rle_lt_dec (M1 ^ 2) (M0 * M2)) as [|L]; [assumption|]. apply ln_increasing in L; auto. lra.
    + intros [L|L]; [apply ln_increasing in L; auto; lra|rewrite L; lra].
Qed.
Lemma closure_gt M0 M1 M2 r : 0 < M0 -> 0 < M1 -> 0 < M2 -> 0 < closure M0 M1 M2 r.
Proof. intros. rewrite closure_pos by auto. apply exp_pos. Qed.
Lemma mom_gt M0 M1 M2 z : 0 < M0 -> 0 < M1 -> 0 < M2 -> 0 < mom M0 M1 M2 z.
Proof. intros. unfold mom. destruct (Z.eqb z 0); [auto|]. destruct (Z.eqb z 6); [auto|]. now apply closure_gt. Qed.
Lemma closure_nn M0 M1 M2 r : 0 <= closure M0 M1 M2 r.
Proof. unfold closure. destruct (Rlt_dec 0 M0); [|lra]. destruct (Rlt_dec 0 M1); [|lra]. destruct (Rlt_dec 0 M2); [|lra]. repeat apply Rmult_le_pos; apply Rlt_le, exp_pos. Qed.
Lemma mom_nn M0 M1 M2 z : 0 <= M0 -> 0 <= M1 -> 0 <= mom M0 M1 M2 z.
Proof. intros. unfold mom. destruct (Z.eqb z 0); [auto|]. destruct (Z.eqb z 6); [auto|]. apply closure_nn. Qed.

(** ** constants *)
Section Gas.
Context (s : state (N:=XR)) (g : gas) (soot : list R) (V : valid s g soot).
Lemma kfm_val c f : co_FM c = Fin f -> getKfm c s = Fin (kFM f g).
Proof.
  intros E. unfold getKfm. rewrite E, (v_T _ _ _ V). pose proof piC_pos. pose proof boltz_pos. pose proof (v_Tpos _ _ _ V). xsimp. cvals. f_equal.
  unfold kFM, enhancement, sootDensity. replace (piC * boltzmann * gT g / 2) with (5 / 10 * piC * boltzmann * gT g) by field.
  replace (22 / 10 * f) with (f * (22 / 10)) by ring. reflexivity.
Qed.
Lemma kc_val : getKc s = Fin (kC g).
Proof. unfold getKc. rewrite (v_T _ _ _ V), (v_mu _ _ _ V). pose proof boltz_pos. pose proof (v_mupos _ _ _ V). xsimp. cvals. reflexivity. Qed.
Lemma kslip_val : getKcp s = Fin (kSlip g).
Proof.
  unfold getKcp. rewrite (mfp_val s (gT g) (gP g) (gRho g) (gMu g) (v_gas _ _ _ V)). pose proof piC_pos. xsimp. cvals. reflexivity.
Qed.
Lemma kFM_pos f : 0 < f -> 0 < kFM f g.
Proof.
  intros. unfold kFM, enhancement. pose proof piC_pos. pose proof boltz_pos. pose proof (v_Tpos _ _ _ V).
  assert (0 < piC * boltzmann * gT g / 2) by pos. pose proof (sqrt_lt_R0 _ H3). pose proof (Rpower_pos (6 / (piC * sootDensity)) (2 / 3)). repeat apply Rmult_lt_0_compat; auto; lra.
Qed.
Lemma kC_pos : 0 < kC g.
Proof. unfold kC. pose proof boltz_pos. pose proof (v_Tpos _ _ _ V). pose proof (v_mupos _ _ _ V). pos. Qed.
Lemma kSlip_pos : 0 < kSlip g.
Proof.
  unfold kSlip. pose proof (mfp_pos s _ _ _ _ (v_gas _ _ _ V)). pose proof (Rpower_pos (piC * sootDensity / 6) (1 / 3)). assert (0 < 2 * (1657 / 1000)) by lra. apply Rmult_lt_0_compat; [apply Rmult_lt_0_compat|]; assumption.
Qed.
End Gas.
