(** Property C77: the effect of temperature at constant composition and density. *)
From Coq Require Import ZArith List Reals.
From Verif Require Import Num Defs State Nucl Growth Oxid Coag Tar SootModel Qmom Calls XR SpecChem SpecCoag SpecValid SpecRates SpecGas SpecState
  SpecTar SpecPah SpecPsd SpecHeat ValidProofs PsdProofs PahProofs MonoMain MonoCases HeatCases.
Import ListNotations.
Local Open Scope R_scope.

(** nucleation, growth and oxidation are not slower in a hotter gas *)
Theorem C77_nucleation : forall (s s' : state (N:=XR)) g g' soot coll coll' nu, valid s g soot -> valid s' g' soot -> hotter g g' -> gasOnly (nu_class nu) ->
  exists r r', nuclRate coll nu s = Ok (Fin r, nu, s, None) /\ nuclRate coll' nu s' = Ok (Fin r', nu, s', None) /\ r <= r'.
Proof. exact C77_nucl_. Qed.
Print Assumptions C77_nucleation.

Theorem C77_growth : forall (s s' : state (N:=XR)) g g' soot gr v M0 M1, valid s g soot -> valid s' g' soot -> hotter g g' ->
  seesMoments v soot M0 M1 -> gr_class gr <> G_HACA ->
  exists r r', growRate gr v s = Ok (Fin r) /\ growRate gr v s' = Ok (Fin r') /\ r <= r'.
Proof. exact C77_grow_. Qed.
Print Assumptions C77_growth.

Theorem C77_oxidation : forall (s s' : state (N:=XR)) g g' soot ox v M0 M1, valid s g soot -> valid s' g' soot -> hotter g g' ->
  seesMoments v soot M0 M1 -> activated (ox_class ox) ->
  exists r r', oxidRate ox v s = Ok (Fin r) /\ oxidRate ox v s' = Ok (Fin r') /\ r <= r'.
Proof. exact C77_oxid_. Qed.
Print Assumptions C77_oxidation.

(** the FAIR oxidation has a positive exponent: it is strictly slower up to about 39000 K *)
Theorem C77_fair_refuted : forall (s s' : state (N:=XR)) g g' soot ox v M0 M1, valid s g soot -> valid s' g' soot -> hotter g g' ->
  seesMoments v soot M0 M1 -> ox_class ox = O_FAIR -> gT g < gT g' -> gT g' <= 2 * 39000 / (1987 / 1000) -> 0 < gY g O2 ->
  exists r r', oxidRate ox v s = Ok (Fin r) /\ oxidRate ox v s' = Ok (Fin r') /\ r' < r.
Proof. exact C77_fair_. Qed.
Print Assumptions C77_fair_refuted.

(** the Nagle-Strickland-Constable rate can fall too *)
Theorem C77_nsc_refuted : exists (s s' : state (N:=XR)) g g' (v : smView (N:=XR)) r r',
  call (newState 2 0) (argsOf g [1; 1] []) = SetOk s /\ call (newState 2 0) (argsOf g' [1; 1] []) = SetOk s' /\ valid s g [1; 1] /\ valid s' g' [1; 1] /\ hotter g g' /\ gT g < gT g' /\
  seesMoments v [1; 1] 1 1 /\ oxidRate (newOxid O_NSC_NEOH) v s = Ok (Fin r) /\ oxidRate (newOxid O_NSC_NEOH) v s' = Ok (Fin r') /\ r' < r.
Proof. exact C77_nsc_. Qed.
Print Assumptions C77_nsc_refuted.

(** whole calls of the monodisperse model *)
Theorem C77_mono : forall (m : model (N:=XR)) s s' g g' k M0 M1 st eig,
  sm_psd m = P_MONO -> hasAll m k -> okAll k -> noTar m -> mN k <> N_PAH -> mG k <> G_HACA -> mO k <> O_HACA ->
  valid s g [M0; M1] -> valid s' g' [M0; M1] -> hotter g g' -> 0 < M0 ->
  length (wts s) = 1%nat -> length (absc s) = 1%nat -> length (wts s') = 1%nat -> length (absc s') = 1%nat ->
  exists m1 s1 m2 s2 n f n' f',
    setSourceTerms st eig m s = Ok (st, m1, s1) /\ soots m1 = [Fin n; Fin f] /\
    setSourceTerms st eig m s' = Ok (st, m2, s2) /\ soots m2 = [Fin n'; Fin f'] /\
    (mC k = C_NONE -> n <= n') /\ (mO k = O_NONE -> f <= f') /\
    (mN k = N_NONE -> mG k = G_NONE -> activated (mO k) -> f' <= f).
Proof. exact C77_mono_. Qed.
Print Assumptions C77_mono.

Example C77_case : exists (m : model (N:=XR)) s s', constructEnum P_MONO 2 N_LL G_LL O_NONE C_NONE 0 T_NONE (nZ 2) 100 = Ok m /\
  sm_psd m = P_MONO /\ hasAll m (kHeat O_NONE) /\ okAll (kHeat O_NONE) /\ noTar m /\
  call (newState 2 0) (argsOf (warmGas 1500) [1; 1] []) = SetOk s /\ call (newState 2 0) (argsOf (warmGas 2000) [1; 1] []) = SetOk s' /\
  valid s (warmGas 1500) [1; 1] /\ valid s' (warmGas 2000) [1; 1] /\ hotter (warmGas 1500) (warmGas 2000) /\
  length (wts s) = 1%nat /\ length (absc s) = 1%nat /\ length (wts s') = 1%nat /\ length (absc s') = 1%nat /\ seesMoments (viewOf m) [1; 1] 1 1 /\
  gT (warmGas 1500) < gT (warmGas 2000) <= 2 * 39000 / (1987 / 1000) /\ 0 < gY (warmGas 1500) O2.
Proof. exact heat_case. Qed.
(** a model that only oxidises, for the last conclusion *)
Example C77_case_ox : exists (m : model (N:=XR)), constructEnum P_MONO 2 N_NONE G_NONE O_LL C_NONE 0 T_NONE (nZ 2) 100 = Ok m /\
  sm_psd m = P_MONO /\ hasAll m (mkMechs N_NONE G_NONE O_LL C_NONE 1) /\ okAll (mkMechs N_NONE G_NONE O_LL C_NONE 1) /\ noTar m /\ activated O_LL.
Proof. exact heat_case_ox. Qed.
