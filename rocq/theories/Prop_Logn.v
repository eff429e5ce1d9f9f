(** Properties C25-C27: the lognormal three-moment model. *)
From Coq Require Import ZArith List Reals.
From Verif Require Import Num Defs State Nucl Growth Oxid Coag Tar SootModel Logn Qmom Calls XR SpecState SpecChem SpecCoag SpecValid SpecRates SpecGas
  SpecPah SpecPsd SpecSect SpecQmom SpecLogn PahProofs ValidProofs LognMain LognFinal LognCases.
Import ListNotations.
Local Open Scope R_scope.

(** ** C25 *)
(** the closure gives the moments of the one lognormal distribution that has the
    three given moments, at every real order; its variance is non-negative exactly
    for realizable moments *)
Theorem C25_lognormal : forall M0 M1 M2, 0 < M0 -> 0 < M1 -> 0 < M2 ->
  exists mu v, lognormalMoment M0 mu v 0 = M0 /\ lognormalMoment M0 mu v 1 = M1 /\ lognormalMoment M0 mu v 2 = M2 /\
    (0 <= v <-> M1 ^ 2 <= M0 * M2) /\
    forall r, lognMr (N:=XR) (Fin r) (Fin M0) (Fin M1) (Fin M2) = Fin (lognormalMoment M0 mu v r).
Proof. exact C25_l. Qed.
Print Assumptions C25_lognormal.
Theorem C25_given_moments : forall M0 M1 M2, 0 < M0 -> 0 < M1 -> 0 < M2 ->
  lognMr (N:=XR) (Fin 0) (Fin M0) (Fin M1) (Fin M2) = Fin M0 /\ lognMr (N:=XR) (Fin 1) (Fin M0) (Fin M1) (Fin M2) = Fin M1 /\
  lognMr (N:=XR) (Fin 2) (Fin M0) (Fin M1) (Fin M2) = Fin M2.
Proof. exact C25_given_l. Qed.
Print Assumptions C25_given_moments.
Theorem C25_homogeneous : forall c M0 M1 M2 r, 0 < c -> 0 < M0 -> 0 < M1 -> 0 < M2 ->
  exists x, 0 < x /\ lognMr (N:=XR) (Fin r) (Fin M0) (Fin M1) (Fin M2) = Fin x /\
    lognMr (N:=XR) (Fin r) (Fin (c * M0)) (Fin (c * M1)) (Fin (c * M2)) = Fin (c * x).
Proof. exact C25_scale_l. Qed.
Print Assumptions C25_homogeneous.
(** one vanishing moment makes all of them 0, also those of order 0, 1 and 2 *)
Theorem C25_vanishing : forall M0 M1 M2 r, 0 <= M0 -> 0 <= M1 -> 0 <= M2 -> M0 = 0 \/ M1 = 0 \/ M2 = 0 ->
  lognMr (N:=XR) (Fin r) (Fin M0) (Fin M1) (Fin M2) = Fin 0.
Proof. exact C25_zero_l. Qed.
Print Assumptions C25_vanishing.
(** the hypotheses are plain inequalities; three moments no lognormal distribution has are included *)
Example C25_case : 0 < 1 /\ 0 < 2 /\ 0 < 3 /\ ~ 2 ^ 2 <= 1 * 3.
Proof. repeat split; try apply Rlt_0_1; try (apply IZR_lt; reflexivity). cbn [pow]. rewrite Rmult_1_r, Rmult_1_l, <- mult_IZR. intros H. apply le_IZR in H. apply H. reflexivity. Qed.

(** ** C26 *)
(** all sources of a call *)
Theorem C26_sources : forall (m : model (N:=XR)) s g k M0 M1 M2 st eig,
  readyLogn m s g k M0 M1 M2 -> (isP k = true -> somePah g /\ 0 < M0 /\ 0 < M1) ->
  let o := nucl k g (lognHits k g (dimerMass g) (mom M0 M1 M2) 0) in
  exists m', setSourceTerms st eig m s = Ok (st, m', outS k g s) /\
    soots m' = map Fin (lognSources k g M0 M1 M2 o) /\
    gasBudget m' k g o (kgrow k g M0 M1 * areaCoef * mom M0 M1 M2 4%Z) (koxid k g M0 M1 * areaCoef * mom M0 M1 M2 4%Z) /\
    pahs m' = pahSourcesOf k g (pahs m) /\ hasAll m' k /\ sm_psd m' = P_LOGN.
Proof. exact logn_run. Qed.
Print Assumptions C26_sources.
(** coagulation: no part in the M1 source (see [lognSources]), fewer particles for FM
    and CONTINUUM, more M2 *)
Theorem C26_signs : forall (m : model (N:=XR)) s g k M0 M1 M2, readyLogn m s g k M0 M1 M2 -> 0 < M0 -> 0 < M1 -> 0 < M2 ->
  (mC k = C_FM \/ mC k = C_CONTINUUM -> lognC0 k g (mom M0 M1 M2) < 0) /\ (mC k = C_HM -> lognC0 k g (mom M0 M1 M2) = 0) /\ 0 < lognC2 k g (mom M0 M1 M2).
Proof. exact signs_l. Qed.
Print Assumptions C26_signs.
(** the sums of moments behind [lognC0] and [lognC2] are Smoluchowski's, for any
    population: half the collisions are lost, each pair adds (x+y)^2 - x^2 - y^2 *)
Theorem C26_loss : forall l w x, (forall i, (i < length w)%nat -> 0 < el x i) ->
  lossOf l (popMoment w x) = 1 / 2 * Sum (length w) (fun i => Sum (length w) (fun j => el w i * el w j * kernelOf l (el x i) (el x j))).
Proof. exact loss_population. Qed.
Print Assumptions C26_loss.
Theorem C26_gain : forall l w x, (forall i, (i < length w)%nat -> 0 < el x i) ->
  gainOf l (popMoment w x) = 1 / 2 * Sum (length w) (fun i => Sum (length w) (fun j => el w i * el w j * kernelOf l (el x i) (el x j) * ((el x i + el x j) ^ 2 - el x i ^ 2 - el x j ^ 2))).
Proof. exact gain_population. Qed.
Print Assumptions C26_gain.
(** the kernels: the continuum one exactly, the free-molecular one up to a factor
    between 0.8536 and 0.8536 sqrt 2 *)
Theorem C26_continuum_kernel : forall (s : state (N:=XR)) g soot a b, valid s g soot -> 0 < a -> 0 < b ->
  kernelOf (coTerms g) a b = betaC (slipLinear (gP g) (gRho g) (gMu g)) (gT g) (gMu g) a b.
Proof. exact co_kernel. Qed.
Print Assumptions C26_continuum_kernel.
Theorem C26_fm_kernel : forall (s : state (N:=XR)) g soot f a b, valid s g soot -> 0 < f -> 0 < a -> 0 < b ->
  8536 / 10000 * betaFM f (gT g) a b <= kernelOf (fmTerms f g) a b <= 8536 / 10000 * sqrt 2 * betaFM f (gT g) a b.
Proof. exact fm_bounds. Qed.
Print Assumptions C26_fm_kernel.
(** HM: soot with positive moments never loses a particle *)
Theorem C26_hm_loss_refuted : forall (m : model (N:=XR)) s g k M0 M1 M2 st eig,
  readyLogn m s g k M0 M1 M2 -> isP k = false -> mC k = C_HM ->
  exists m' a b, setSourceTerms st eig m s = Ok (st, m', s) /\ soots m' = [Fin (Jnuc k g); Fin a; Fin b].
Proof. exact hm_never_lost. Qed.
Print Assumptions C26_hm_loss_refuted.
(** what the constructor and setState give *)
Example C26_case : forall nm co M0 M1 M2, nm = N_LL \/ nm = N_PAH -> co = C_FM \/ co = C_CONTINUUM \/ co = C_HM -> 0 <= M0 -> 0 <= M1 -> 0 <= M2 ->
  exists (m : model (N:=XR)) s, constructEnum P_LOGN 3 nm G_LL O_LL co 0 T_NONE (Fin 2) 100 = Ok m /\
    call (newState 3 0) (argsOf demoGas [M0; M1; M2] []) = SetOk s /\ readyLogn m s demoGas (mkMechs nm G_LL O_LL co 1) M0 M1 M2.
Proof. exact logn_case. Qed.
Example C26_some_pah : somePah demoGas. Proof. exact demo_pah. Qed.

(** ** C27 *)
(** monodisperse soot, above the cutoff: the sources of M0 and M1 against those of
    the monodisperse model.  CONTINUUM: equal.  FM: the loss of particles is
    0.8536 sqrt 2 times that of the monodisperse model.  HM: there is none *)
Theorem C27_monodisperse : forall (mL mM : model (N:=XR)) s s' g k M0 M1 M2 st eig,
  readyLogn mL s g k M0 M1 M2 -> isP k = false -> 0 < M0 -> 0 < M1 -> M0 * M2 = M1 ^ 2 -> massCutoff < M1 / M0 ->
  sm_psd mM = P_MONO -> hasAll mM k -> noTar mM -> valid s' g [M0; M1] -> length (wts s') = 1%nat -> length (absc s') = 1%nat ->
  exists rL rM t t' J A K a2, setSourceTerms st eig mL s = Ok (st, rL, t) /\ setSourceTerms st eig mM s' = Ok (st, rM, t') /\ J = Jnuc k g /\
    K = 1 / 2 * kernel k g (M1 / M0) (M1 / M0) * M0 ^ 2 /\ (mC k = C_FM \/ mC k = C_CONTINUUM -> 0 < K) /\
    soots rM = [Fin (J - K); Fin A] /\
    (mC k = C_CONTINUUM -> soots rL = [Fin (J - K); Fin A; a2]) /\
    (mC k = C_FM -> soots rL = [Fin (J - 8536 / 10000 * sqrt 2 * K); Fin A; a2]) /\
    (mC k = C_HM -> soots rL = [Fin J; Fin A; a2]).
Proof. exact C27_l. Qed.
Print Assumptions C27_monodisperse.
Theorem C27_fm_factor : 1207 / 1000 < 8536 / 10000 * sqrt 2 < 1208 / 1000.
Proof. exact fm_factor. Qed.
Print Assumptions C27_fm_factor.
Example C27_case : forall co, co = C_FM \/ co = C_CONTINUUM \/ co = C_HM -> exists (mL mM : model (N:=XR)) s s' g k M0 M1 M2,
  readyLogn mL s g k M0 M1 M2 /\ isP k = false /\ 0 < M0 /\ 0 < M1 /\ M0 * M2 = M1 ^ 2 /\ massCutoff < M1 / M0 /\
  sm_psd mM = P_MONO /\ hasAll mM k /\ noTar mM /\ valid s' g [M0; M1] /\ length (wts s') = 1%nat /\ length (absc s') = 1%nat /\ mC k = co.
Proof. exact logn_mono_case. Qed.
