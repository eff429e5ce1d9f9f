(** Proofs for C99: the Fuchs kernel of two equal large particles. *)
From Coq Require Import ZArith List Bool Reals Lra Lia.
From Verif Require Import Num Defs State Coag XR SpecChem SpecCoag SpecValid SpecNumLoop CoagProofs MarchProofs.
Local Open Scope R_scope.

Lemma jump d l : 0 < d -> 0 < l -> let G := sqrt 2 / (3 * d * l) * ((d + l) ^ 3 - Rpower (d ^ 2 + l ^ 2) (3 / 2)) - sqrt 2 * d in 0 <= G <= sqrt 2 * (l + l ^ 2 / (3 * d)).
Proof.
  intros Pd Pl. cbv zeta. assert (S2 : 0 < sqrt 2) by (apply sqrt_lt_R0; lra). assert (D2 : 0 < d ^ 2) by now apply pow_lt. assert (L2 : 0 < l ^ 2) by now apply pow_lt. set (w := Rpower (d ^ 2 + l ^ 2) (3 / 2)).
  assert (Pw : 0 < w) by apply exp_pos. assert (W2 : w ^ 2 = (d ^ 2 + l ^ 2) ^ 3).
  { unfold w. rewrite <- (Rpower_pow 2) by apply exp_pos. rewrite Rpower_mult, <- (Rpower_pow 3) by lra. f_equal. cbn [INR]. field. }
  assert (D3 : 0 < d ^ 3) by now apply pow_lt. assert (L3 : 0 < l ^ 3) by now apply pow_lt. assert (DL : 0 < d * l) by now apply Rmult_lt_0_compat. assert (DL2 : 0 < d * l ^ 2) by now apply Rmult_lt_0_compat.
  assert (LO : d ^ 3 <= w).
  { apply Rsqr_incr_0_var; [|lra]. rewrite !Rsqr_pow2, W2. replace ((d ^ 3) ^ 2) with ((d ^ 2) ^ 3) by ring. apply pow_incr. lra. }
  assert (HI : w <= d ^ 3 + 3 * d * l ^ 2 + l ^ 3).
  { apply Rsqr_incr_0_var; [|lra]. rewrite !Rsqr_pow2, W2. assert (0 < d ^ 2 * l ^ 2 * l ^ 2) by (repeat apply Rmult_lt_0_compat; lra). assert (0 < d ^ 2 * d ^ 2 * l ^ 2) by (repeat apply Rmult_lt_0_compat; lra).
    assert (0 < d ^ 3 * l ^ 3) by (apply Rmult_lt_0_compat; lra). assert (0 < d * l ^ 2 * l ^ 3) by (apply Rmult_lt_0_compat; lra).
    replace ((d ^ 3 + 3 * d * l ^ 2 + l ^ 3) ^ 2) with ((d ^ 2 + l ^ 2) ^ 3 + (6 * (d ^ 2 * l ^ 2 * l ^ 2) + 3 * (d ^ 2 * d ^ 2 * l ^ 2) + 2 * (d ^ 3 * l ^ 3) + 6 * (d * l ^ 2 * l ^ 3))) by ring. lra. }
  assert (E : sqrt 2 / (3 * d * l) * ((d + l) ^ 3 - w) - sqrt 2 * d = sqrt 2 / (3 * d * l) * (d ^ 3 + 3 * d * l ^ 2 + l ^ 3 - w)) by (field; lra). rewrite E.
  assert (Pc : 0 < sqrt 2 / (3 * d * l)) by (apply Rdiv_lt_0_compat; lra). split; [apply Rmult_le_pos; lra|].
  apply Rle_trans with (sqrt 2 / (3 * d * l) * (3 * d * l ^ 2 + l ^ 3)); [apply Rmult_le_compat_l; lra|]. right. field. lra.
Qed.
Section Equal.
Context (g : gas) (s : state (N:=XR)) (G : gasState s (gT g) (gP g) (gRho g) (gMu g)).
Let t := gT g. Let p := gP g. Let rho := gRho g. Let mu := gMu g.
Let Ht : 0 < t. Proof. apply G. Qed.
Let Hm : 0 < mu. Proof. apply G. Qed.
Let C0 := 8 * boltzmann * t / (3 * mu).
Let slipE := slipExp p rho mu.
Let D x := diffusivity t p rho mu x.
Lemma D_pos x : 0 < D x. Proof. pose proof (D12_pos s _ _ _ _ G x x) as A. unfold D, t, p, rho, mu. lra. Qed.
Lemma r_pos x : 0 < x -> 0 < stoppingRatio g x.
Proof. intros H. unfold stoppingRatio. pose proof (D_pos x) as A. pose proof (speed_pos s _ _ _ _ G x H) as B. pose proof (diam_pos x). pose proof piC_pos. apply Rdiv_lt_0_compat; [|assumption]. apply Rdiv_lt_0_compat; [unfold D, t, p, rho, mu in A; lra|now apply Rmult_lt_0_compat]. Qed.
Lemma r_free x : 0 < x -> stoppingRatio g x = 8 * boltzmann * t * enhancement * sqrt 2 / (3 * piC * mu) * slipE x / betaFM 1 t x x.
Proof.
  intros H. pose proof piC_pos. pose proof boltz_pos. pose proof (diam_pos x) as PD. pose proof (speed_pos s _ _ _ _ G x H) as PS. fold t in PS. assert (S2 : 0 < sqrt 2) by (apply sqrt_lt_R0; lra).
  assert (E : sqrt (piC * boltzmann * t / 2 * (1 / x + 1 / x)) = piC / 4 * (sqrt 2 * thermalSpeed t x)).
  { assert (Q : sqrt 2 * thermalSpeed t x = 4 / piC * sqrt (piC * boltzmann * t / 2 * (1 / x + 1 / x))).
    { pose proof (speeds s _ _ _ _ G x x H H) as SP. fold t in SP. rewrite <- SP. replace (thermalSpeed t x ^ 2 + thermalSpeed t x ^ 2) with (2 * thermalSpeed t x ^ 2) by ring. rewrite sqrt_mult_alt by lra. f_equal. symmetry. apply sqrt_pow2. lra. }
    rewrite Q. field. lra. }
  assert (A : betaFM 1 t x x = enhancement * piC * sqrt 2 * thermalSpeed t x * diam x ^ 2) by (unfold betaFM; rewrite E; field).
  rewrite A. unfold stoppingRatio, diffusivity. fold t p rho mu. fold (slipE x). unfold enhancement. field. repeat split; lra.
Qed.
Lemma fuchs_up x : 0 < x -> betaFuchs 1 t p rho mu x x <= C0 * (slipE x * (1 + 2 * stoppingRatio g x + stoppingRatio g x ^ 2)).
Proof.
  intros H. pose proof piC_pos. pose proof boltz_pos. pose proof (diam_pos x) as PD. pose proof (D_pos x) as PDD. pose proof (speed_pos s _ _ _ _ G x H) as PS. fold t in PS. pose proof (r_pos x H) as PR.
  unfold t, p, rho, mu. rewrite (fuchs_inv s _ _ _ _ G) by (auto; lra). fold t p rho mu. pose proof (fuchsRest_pos s _ _ _ _ G x x) as P. fold t p rho mu in P. assert (PF : 0 < betaFM 1 t x x) by (apply (betaFM_pos s _ _ _ _ G); auto; lra). apply Rinv_0_lt_compat in PF.
  apply Rle_trans with (/ fuchsRest t p rho mu x x); [apply Rinv_le_contravar; lra|]. unfold fuchsRest. rewrite Rinv_inv. fold (D x).
  set (l := 8 * D x / (piC * thermalSpeed t x)). assert (Pl : 0 < l) by (unfold l; apply Rdiv_lt_0_compat; [lra|now apply Rmult_lt_0_compat]).
  assert (ER : stoppingRatio g x = l / diam x) by reflexivity. destruct (jump (diam x) l PD Pl) as (J1 & J2). fold (fuchsG t p rho mu x) in J1, J2.
  change (sqrt 2 / (3 * diam x * l) * ((diam x + l) ^ 3 - Rpower (diam x ^ 2 + l ^ 2) (3 / 2)) - sqrt 2 * diam x) with (fuchsG t p rho mu x) in J1, J2.
  set (q := fuchsG t p rho mu x) in *. replace (q ^ 2 + q ^ 2) with (2 * q ^ 2) by ring. rewrite sqrt_mult_alt by lra. rewrite sqrt_pow2 by exact J1. assert (S2 : 0 < sqrt 2) by (apply sqrt_lt_R0; lra).
  apply (Rmult_le_compat_l (sqrt 2)) in J2; [|lra]. rewrite <- Rmult_assoc, sqrt_sqrt in J2 by lra.
  assert (EC : 8 * piC * D x * diam x = C0 * slipE x) by (unfold C0, D, diffusivity; fold (slipE x); field; lra).
  apply Rle_trans with (2 * piC * (D x + D x) * (diam x + diam x + 2 * (2 * (l + l ^ 2 / (3 * diam x))))).
  - apply Rmult_le_compat_l; [|lra]. apply Rmult_le_pos; lra.
  - rewrite ER. replace (2 * piC * (D x + D x) * (diam x + diam x + 2 * (2 * (l + l ^ 2 / (3 * diam x))))) with (8 * piC * D x * diam x * (1 + 2 * (l / diam x) + 2 / 3 * (l / diam x) ^ 2)) by (field; lra). rewrite EC.
    assert (0 < C0 * slipE x) by (rewrite <- EC; apply Rmult_lt_0_compat; [apply Rmult_lt_0_compat|]; lra). rewrite <- !Rmult_assoc. apply Rmult_le_compat_l; [lra|]. assert (0 <= (l / diam x) ^ 2) by apply pow2_ge_0. lra.
Qed.
Lemma r_down x0 x : 0 < x0 -> x0 <= x -> stoppingRatio g x <= stoppingRatio g x0.
Proof.
  intros H0 H. rewrite !r_free by lra. pose proof piC_pos. pose proof boltz_pos. assert (S2 : 0 < sqrt 2) by (apply sqrt_lt_R0; lra).
  assert (PQ : 0 < 8 * boltzmann * t * enhancement * sqrt 2 / (3 * piC * mu)). { unfold enhancement. apply Rdiv_lt_0_compat; repeat apply Rmult_lt_0_compat; lra. }
  pose proof (exp_down _ _ _ _ x0 x s G H0 H) as A. pose proof (exp_one _ _ _ _ s G x) as A1. fold p rho mu in A, A1. fold (slipE x) (slipE x0) in A, A1.
  pose proof (FM_up 1 _ _ _ _ x0 x s G ltac:(lra) H0 H) as B. fold t in B. assert (PF : 0 < betaFM 1 t x0 x0) by (apply (betaFM_pos s _ _ _ _ G); auto; lra).
  set (q := 8 * boltzmann * t * enhancement * sqrt 2 / (3 * piC * mu)) in *. clearbody q. set (u := slipE x) in *. set (v := slipE x0) in *. clearbody u v. unfold Rdiv. rewrite !Rmult_assoc. apply Rmult_le_compat_l; [lra|]. apply Rmult_le_compat; try lra; [left; apply Rinv_0_lt_compat; lra|]. apply Rinv_le_contravar; lra.
Qed.
End Equal.
