(** Properties C42-C44: PAH nucleation and condensation. *)
From Coq Require Import ZArith List Reals.
From Verif Require Import Num Defs State Nucl Growth Oxid Coag Tar SootModel Qmom Calls XR SpecChem SpecCoag SpecValid SpecRates SpecGas
  SpecTar SpecPah SpecPsd ValidProofs PsdProofs PahProofs MonoMain MonoCases PahMain.
Import ListNotations.
Local Open Scope R_scope.

(** ** C42 *)
(** [coll] is the soot model's dimer collision function; here it returns [i] *)
Theorem C42_dimer_balance : forall (s : state (N:=XR)) g soot, valid s g soot -> somePah g -> forall coll nu i eff,
  nu_class nu = N_PAH -> 0 <= i -> coll (with_cMin s (Fin (pahCMin g))) (Fin (dimerMass g)) = Ok (Fin i, eff) ->
  exists nu' J n,
    nuclRate coll nu s = Ok (Fin J, nu', with_cMin s (Fin (pahCMin g)), Some eff) /\
    mDimer nu' = Fin (meanC g * (massC / avogadro)) /\ nDimer nu' = Fin n /\ nDotD nu' = Fin (pahTotal g / 2) /\
    steady (betaSelf (gT g) (meanC g * (massC / avogadro))) i (pahTotal g / 2) n /\
    J = 1 / 2 * (betaSelf (gT g) (meanC g * (massC / avogadro)) * n ^ 2).
Proof. exact C42_. Qed.
Print Assumptions C42_dimer_balance.

(** ** C43 *)
Theorem C43_half_of_the_carbon : forall (s : state (N:=XR)) g soot, valid s g soot -> somePah g -> forall coll nu i eff,
  nu_class nu = N_PAH -> 0 <= i -> coll (with_cMin s (Fin (pahCMin g))) (Fin (dimerMass g)) = Ok (Fin i, eff) ->
  exists nu' s' J n mD c,
    nuclRate coll nu s = Ok (Fin J, nu', s', Some eff) /\ nDimer nu' = Fin n /\ mDimer nu' = Fin mD /\ cMin s' = Fin c /\
    nu_pah nu' = map (fun sp => Fin (- (pahLoss g sp * pahMass sp))) allPah /\
    J * (c * massC / avogadro) + i * n * mD = 1 / 2 * pahCarbon g + J * (gCMin g / pahTotal g) * (massC / avogadro).
Proof. exact C43_. Qed.
Print Assumptions C43_half_of_the_carbon.

(** the soot mass source of MONO with PAH as the only soot chemistry *)
Theorem C43_mono : forall (m : model (N:=XR)) s g k M0 M1 st eig,
  sm_psd m = P_MONO -> hasAll m k -> okAll k -> noTar m -> mN k = N_PAH -> mG k = G_NONE -> mO k = O_NONE -> somePah g ->
  valid s g [M0; M1] -> 0 < M0 -> length (wts s) = 1%nat -> length (absc s) = 1%nat ->
  exists m' s' a J, setSourceTerms st eig m s = Ok (st, m', s') /\ 0 < J /\
    soots m' = [Fin a; Fin (1 / 2 * pahCarbon g + J * (gCMin g / pahTotal g) * (massC / avogadro))] /\
    pahs m' = map (fun sp => Fin (- (pahLoss g sp * pahMass sp))) allPah.
Proof. exact C43_mono_. Qed.
Print Assumptions C43_mono.

(** ** C44 *)
(** two calls of setSourceTerms on the same state object *)
Theorem C44_history_dependent : forall (m : model (N:=XR)) s g k M0 M1 st eig,
  sm_psd m = P_MONO -> hasAll m k -> okAll k -> noTar m -> mN k = N_PAH -> somePah g ->
  valid s g [M0; M1] -> 0 < M0 -> regular k g M0 M1 -> length (wts s) = 1%nat -> length (absc s) = 1%nat ->
  let c1 := 2 * meanC g + gCMin g / pahTotal g in
  let c2 := 2 * meanC g + c1 / pahTotal g in
  exists m1 s1 m2 s2 n0 J f1 f2,
    setSourceTerms st eig m s = Ok (st, m1, s1) /\ setSourceTerms st eig m1 s1 = Ok (st, m2, s2) /\
    cMin s1 = Fin c1 /\ cMin s2 = Fin c2 /\ soots m1 = [Fin n0; Fin f1] /\ soots m2 = [Fin n0; Fin f2] /\
    0 < J /\ f2 - f1 = J * (c2 - c1) * (massC / avogadro) /\ (c1 <> gCMin g -> f1 <> f2).
Proof. exact C44_. Qed.
Print Assumptions C44_history_dependent.

Example C44_case : exists (m : model (N:=XR)) s g k M0 M1,
  sm_psd m = P_MONO /\ hasAll m k /\ okAll k /\ mN k = N_PAH /\ somePah g /\ noTar m /\ valid s g [M0; M1] /\ 0 < M0 /\ regular k g M0 M1 /\
  length (wts s) = 1%nat /\ length (absc s) = 1%nat /\ massCutoff < M1 / M0.
Proof. exact mono_case_pah. Qed.
