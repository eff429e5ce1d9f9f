(** Proofs for C94: kernels of two equal particles, and the recursion of the number. *)
From Coq Require Import ZArith List Bool Reals Lra Lia.
From Verif Require Import Num Defs State Coag Nucl Growth Oxid Tar SootModel Qmom Calls XR XRLemmas SpecChem SpecCoag SpecValid SpecRates SpecPsd SpecSect SpecStep SpecFinite SpecMarch
  CoagProofs ValidProofs PsdProofs.
Import ListNotations.
Local Open Scope R_scope.

Section Equal.
Context (f t p rho mu x0 x : R) (s : state (N:=XR)) (G : gasState s t p rho mu).
Context (Hf : 0 < f) (H0 : 0 < x0) (HX : x0 <= x).
Let Ht : 0 < t. Proof. apply G. Qed.
Let Hp : 0 < p. Proof. apply G. Qed.
Let Hr : 0 < rho. Proof. apply G. Qed.
Let Hm : 0 < mu. Proof. apply G. Qed.
Let Px : 0 < x. Proof. lra. Qed.
Let A z := betaFM f t z z.
Let C0 := 8 * boltzmann * t / (3 * mu).

Lemma third_mono : diam x0 <= diam x.
Proof.
  unfold diam. apply Rle_Rpower_l; [lra|]. pose proof piC_pos. unfold sootDensity. split.
  - apply Rdiv_lt_0_compat; [lra|nra].
  - unfold Rdiv. apply Rmult_le_compat_r; [|lra]. left. apply Rinv_0_lt_compat. nra.
Qed.
Lemma FM_equal z : 0 < z -> A z = enhancement * f * sqrt (piC * boltzmann * t) * 4 * Rpower (6 / (piC * sootDensity)) (1 / 3) ^ 2 * Rpower z (1 / 6).
Proof.
  intros Hz. unfold A, betaFM. pose proof piC_pos. pose proof boltz_pos.
  replace (piC * boltzmann * t / 2 * (1 / z + 1 / z)) with (piC * boltzmann * t * / z) by (field; lra).
  rewrite sqrt_mult_alt by (apply Rmult_le_pos; [apply Rmult_le_pos|]; lra). rewrite (diam_split z Hz).
  set (a := Rpower (6 / _) _). rewrite <- (Rpower_sqrt (/ z)) by now apply Rinv_0_lt_compat.
  replace ((a * Rpower z (1 / 3) + a * Rpower z (1 / 3)) ^ 2) with (4 * a ^ 2 * (Rpower z (1 / 3) * Rpower z (1 / 3))) by ring.
  rewrite Rpower_third2. replace (Rpower (/ z) (/ 2)) with (Rpower z (- (1 / 2))).
  2:{ unfold Rpower. f_equal. rewrite ln_Rinv by auto. field. }
  replace (Rpower z (1 / 6)) with (Rpower z (- (1 / 2)) * Rpower z (2 / 3)) by (rewrite <- Rpower_plus; f_equal; field). ring.
Qed.
Lemma FM_const : 0 < enhancement * f * sqrt (piC * boltzmann * t) * 4 * Rpower (6 / (piC * sootDensity)) (1 / 3) ^ 2.
Proof.
  pose proof piC_pos. pose proof boltz_pos. assert (0 < Rpower (6 / (piC * sootDensity)) (1 / 3)) by apply exp_pos.
  assert (0 < sqrt (piC * boltzmann * t)) by (apply sqrt_lt_R0; apply Rmult_lt_0_compat; [apply Rmult_lt_0_compat|]; lra).
  unfold enhancement. repeat apply Rmult_lt_0_compat; try lra.
Qed.
Lemma FM_up : A x0 <= A x.
Proof. rewrite !FM_equal by lra. pose proof FM_const. apply Rmult_le_compat_l; [lra|]. apply Rle_Rpower_l; lra. Qed.
Lemma FM_down : A x / x <= A x0 / x0.
Proof.
  rewrite !FM_equal by lra. pose proof FM_const as K. set (c := enhancement * f * _ * 4 * _) in *.
  assert (E : forall z, 0 < z -> c * Rpower z (1 / 6) / z = c * / Rpower z (5 / 6)).
  { intros z Hz. unfold Rdiv at 1. rewrite Rmult_assoc. f_equal. rewrite <- (Rpower_1 z Hz) at 2. rewrite <- !Rpower_Ropp, <- Rpower_plus. f_equal. lra. }
  rewrite !E by lra. apply Rmult_le_compat_l; [lra|]. apply Rinv_le_contravar; [apply exp_pos|]. apply Rle_Rpower_l; lra.
Qed.

Lemma C_equal C z : betaC C t mu z z = C0 * C z.
Proof. unfold betaC, C0. pose proof (diam_pos z). field. split; lra. Qed.
Lemma C0_pos : 0 < C0. Proof. unfold C0. pose proof boltz_pos. apply Rdiv_lt_0_compat; nra. Qed.
Lemma kn_down : knudsen p rho mu x <= knudsen p rho mu x0.
Proof.
  unfold knudsen. pose proof (mfp_pos s t p rho mu G) as L. pose proof third_mono. pose proof (diam_pos x0). pose proof (diam_pos x).
  unfold Rdiv. apply Rmult_le_compat_l; [lra|]. now apply Rinv_le_contravar.
Qed.
Let kp z : 0 < knudsen p rho mu z := knudsen_pos s t p rho mu G z.
Lemma lin_one z : 1 <= slipLinear p rho mu z.
Proof. unfold slipLinear. pose proof (kp z). lra. Qed.
Lemma exp_one z : 1 <= slipExp p rho mu z.
Proof. unfold slipExp. cbv zeta. pose proof (kp z). pose proof (exp_pos (- (11 / 10) / knudsen p rho mu z)). nra. Qed.
Lemma lin_down : slipLinear p rho mu x <= slipLinear p rho mu x0.
Proof. unfold slipLinear. pose proof kn_down. lra. Qed.
Lemma exp_down : slipExp p rho mu x <= slipExp p rho mu x0.
Proof.
  unfold slipExp. cbv zeta. pose proof kn_down as K. pose proof (kp x) as P1. pose proof (kp x0) as P2.
  set (a := knudsen p rho mu x) in *. set (b := knudsen p rho mu x0) in *.
  assert (E : exp (- (11 / 10) / a) <= exp (- (11 / 10) / b)).
  { destruct (Req_dec a b) as [->|N]; [lra|]. left. apply exp_increasing. unfold Rdiv. assert (/ b < / a) by (apply Rinv_lt_contravar; [apply Rmult_lt_0_compat|]; lra). lra. }
  pose proof (exp_pos (- (11 / 10) / a)). set (u := exp _) in *. set (v := exp _) in *. clearbody u v a b. nra.
Qed.

Lemma harm_up a a' b b' : 0 < a -> 0 < b -> a <= a' -> b <= b' -> / (/ a + / b) <= / (/ a' + / b').
Proof.
  intros. assert (0 < / a') by (apply Rinv_0_lt_compat; lra). assert (0 < / b') by (apply Rinv_0_lt_compat; lra).
  assert (/ a' <= / a) by (apply Rinv_le_contravar; lra). assert (/ b' <= / b) by (apply Rinv_le_contravar; lra). apply Rinv_le_contravar; lra.
Qed.
Lemma harm_div a b z : 0 < a -> 0 < b -> 0 < z -> / (/ a + / b) / z = / (/ (a / z) + / (b / z)).
Proof. intros. field. repeat split; try lra. nra. Qed.

Let P0 z : 0 < z -> 0 < A z. Proof. intros. now apply (betaFM_pos s t p rho mu G). Qed.
Let Cx z : 0 < betaC (slipExp p rho mu) t mu z z.
Proof. rewrite C_equal. pose proof C0_pos. pose proof (exp_one z). nra. Qed.
Lemma C_div C z : C x <= C x0 -> 1 <= C x -> z = C0 * C x -> z / x <= C0 * C x0 / x0.
Proof.
  intros L L1 ->. pose proof C0_pos. unfold Rdiv. assert (/ x <= / x0) by (apply Rinv_le_contravar; lra). assert (0 < / x) by (apply Rinv_0_lt_compat; lra).
  apply Rmult_le_compat; try lra; [apply Rmult_le_pos; lra|apply Rmult_le_compat_l; lra].
Qed.

(** never slower than a positive constant *)
Definition slowest (co : coagulationMech) : R :=
  match co with
  | C_FM => A x0
  | C_CONTINUUM => C0
  | C_HM | C_FUCHS => / (/ A x0 + / C0)
  | _ => 0
  end.
Lemma slowest_pos co : co <> C_NONE -> co <> C_size -> 0 < slowest co.
Proof.
  intros N1 N2. pose proof C0_pos as K. pose proof (P0 x0 H0) as L. destruct co; try congruence; cbn [slowest]; auto;
  apply Rinv_0_lt_compat; apply Rplus_lt_0_compat; now apply Rinv_0_lt_compat.
Qed.
Lemma rest_le : fuchsRest t p rho mu x x <= / C0.
Proof.
  unfold fuchsRest. pose proof (diam_pos x) as D. pose proof piC_pos. pose proof boltz_pos. pose proof C0_pos as K. pose proof (exp_one x) as S1.
  pose proof (sqrt_sum_nneg (fuchsG t p rho mu x) (fuchsG t p rho mu x)) as Q. set (q := sqrt _) in *. clearbody q.
  pose proof (D12_pos s t p rho mu G x x) as DD.
  apply Rinv_le_contravar; [exact K|].
  apply Rle_trans with (2 * piC * (diffusivity t p rho mu x + diffusivity t p rho mu x) * (diam x + diam x)).
  - replace (2 * piC * (diffusivity t p rho mu x + diffusivity t p rho mu x) * (diam x + diam x)) with (C0 * slipExp p rho mu x) by (unfold C0, diffusivity; field; repeat split; lra). nra.
  - apply Rmult_le_compat_l; [|lra]. apply Rmult_le_pos; lra.
Qed.
Definition equalK (co : coagulationMech) (z : R) : R :=
  match co with
  | C_FM => A z
  | C_CONTINUUM => betaC (slipLinear p rho mu) t mu z z
  | C_HM => betaHM f t p rho mu z z
  | C_FUCHS => betaFuchs f t p rho mu z z
  | _ => 0
  end.
Lemma above co : slowest co <= equalK co x.
Proof.
  pose proof C0_pos as K. pose proof FM_up as U. pose proof (P0 x0 H0). pose proof (P0 x Px). pose proof (Cx x).
  destruct co; cbn [slowest equalK]; try lra.
  - rewrite C_equal. pose proof (lin_one x). nra.
  - unfold betaHM. apply harm_up; auto. rewrite C_equal. pose proof (exp_one x). nra.
  - rewrite (fuchs_inv s t p rho mu G) by auto. pose proof (fuchsRest_pos s t p rho mu G x x). pose proof rest_le.
    assert (0 < / A x) by now apply Rinv_0_lt_compat. assert (/ A x <= / A x0) by (apply Rinv_le_contravar; auto).
    fold (A x). apply Rinv_le_contravar; lra.
Qed.
Lemma below co : equalK co x / x <= equalK (match co with C_FUCHS => C_FM | _ => co end) x0 / x0.
Proof.
  pose proof FM_down as U. pose proof (P0 x0 H0). pose proof (P0 x Px). pose proof (Cx x). pose proof (Cx x0). assert (0 < / x) by (apply Rinv_0_lt_compat; lra).
  destruct co; cbn [equalK]; try (unfold Rdiv; lra).
  - rewrite (C_equal _ x0). apply C_div; [apply lin_down|apply lin_one|apply C_equal].
  - unfold betaHM. fold (A x) (A x0). rewrite !harm_div by auto.
    assert (D : forall a z, 0 < a -> 0 < z -> 0 < a / z) by (intros; now apply Rdiv_lt_0_compat).
    apply harm_up; auto. rewrite (C_equal _ x0). apply C_div; [apply exp_down|apply exp_one|apply C_equal].
  - eapply Rle_trans; [|exact U]. unfold Rdiv. apply Rmult_le_compat_r; [lra|]. left.
    rewrite (fuchs_inv s t p rho mu G) by auto. apply inv_lt_sum; [now apply P0|]. exact (fuchsRest_pos s t p rho mu G x x).
Qed.
End Equal.

(** the number of a step from the previous one *)
Section Recursion.
Context (dt N0 c : R) (f : R -> R) (Hd : 0 < dt) (HN : 0 < N0) (Hc : 0 < c).
Context (LO : forall N, 0 < N <= N0 -> c * N <= f N) (HI : forall N, 0 < N <= N0 -> dt * f N < 1).
Fixpoint numbers (i : nat) : R := match i with O => N0 | S j => numbers j * (1 - dt * f (numbers j)) end.
Lemma in_range i : 0 < numbers i <= N0.
Proof.
  induction i as [|i IH]; cbn [numbers]; [lra|]. pose proof (LO _ IH). pose proof (HI _ IH). set (N := numbers i) in *. assert (0 <= f N) by nra. split; [nra|].
  assert (0 <= N * (dt * f N)) by (apply Rmult_le_pos; [lra|]; nra). lra.
Qed.
Lemma falls i : numbers (S i) < numbers i.
Proof. cbn [numbers]. pose proof (in_range i) as IH. pose proof (LO _ IH). set (N := numbers i) in *. assert (0 < f N) by nra. assert (0 < N * (dt * f N)) by (apply Rmult_lt_0_compat; [lra|]; nra). lra. Qed.
Lemma harmonic i : / N0 + INR i * (dt * c) <= / numbers i.
Proof.
  induction i as [|i IH]; [cbn [numbers INR]; lra|]. rewrite S_INR. pose proof (in_range i) as R1. pose proof (LO _ R1) as L. pose proof (HI _ R1) as H. cbn [numbers].
  set (N := numbers i) in *. set (u := dt * f N) in *. assert (U : dt * c * N <= u) by (unfold u; nra). clearbody u. assert (0 <= u) by (assert (0 < dt * c) by nra; nra).
  apply Rle_trans with (/ N + dt * c); [lra|]. rewrite Rinv_mult.
  apply Rle_trans with (/ N * (1 + u)).
  - rewrite Rmult_plus_distr_l. assert (dt * c <= / N * u); [|lra]. apply (Rmult_le_reg_l N); [lra|]. replace (N * (/ N * u)) with u by (field; lra). lra.
  - apply Rmult_le_compat_l; [left; apply Rinv_0_lt_compat; lra|]. apply (Rmult_le_reg_r (1 - u)); [lra|]. rewrite Rinv_l by lra. nra.
Qed.
Lemma to_zero : Un_cv numbers 0.
Proof.
  intros e He. assert (K : 0 < dt * c) by nra. destruct (archimed_cor1 (e * (dt * c))) as (n & Hn & Pn); [now apply Rmult_lt_0_compat|]. exists n. intros i Hi.
  pose proof (harmonic i) as H. pose proof (in_range i) as (R1 & _). unfold R_dist. rewrite Rminus_0_r, Rabs_pos_eq by lra.
  assert (0 < INR n) by (apply lt_0_INR; lia). assert (INR n <= INR i) by (apply le_INR; lia).
  assert (/ e < INR i * (dt * c)).
  { apply Rlt_le_trans with (INR n * (dt * c)); [|nra]. apply (Rmult_lt_reg_l (e * / INR n)); [apply Rmult_lt_0_compat; [lra|now apply Rinv_0_lt_compat]|].
    replace (e * / INR n * / e) with (/ INR n) by (field; lra). replace (e * / INR n * (INR n * (dt * c))) with (e * (dt * c)) by (field; lra). exact Hn. }
  assert (0 < / N0) by now apply Rinv_0_lt_compat. assert (/ e < / numbers i) by lra.
  rewrite <- (Rinv_inv (numbers i)), <- (Rinv_inv e). apply Rinv_lt_contravar; [|lra]. assert (0 < / e) by now apply Rinv_0_lt_compat. apply Rmult_lt_0_compat; lra.
Qed.
End Recursion.
