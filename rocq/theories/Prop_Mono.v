(** Properties C22-C24 and C55: the monodisperse model. *)
From Coq Require Import ZArith List Reals.
From Verif Require Import Num Defs State Nucl Growth Oxid Coag Tar SootModel Qmom Calls XR SpecChem SpecCoag SpecValid SpecRates SpecGas
  SpecTar SpecPah SpecPsd ValidProofs PsdProofs PahProofs MonoTar MonoMain MonoCases.
Import ListNotations.
Local Open Scope R_scope.

(** a model built by the enumerator constructor has exactly the mechanisms asked for *)
Example built_model : forall p ns n gr ox co Ntar ta F c (m : model (N:=XR)), constructEnum p ns n gr ox co Ntar ta F c = Ok m ->
  hasAll m (mkMechs n gr ox co 1) /\ sm_psd m = p /\ sm_nsoot m = ns /\ sm_tar m = newTar ta /\
  sm_mBins m = initBins p ns F c /\ sm_sources m = newSources ns Ntar /\ sm_priv m = initPriv p ns n F.
Proof. exact built. Qed.

(** ** C22 *)
(** [nucl k g i] is the outcome of nucleation when soot takes up dimers at rate [i] each *)
Theorem C22_mono_rates : forall (m : model (N:=XR)) s g k M0 M1 st eig,
  sm_psd m = P_MONO -> hasAll m k -> okAll k -> noTar m -> valid s g [M0; M1] -> 0 < M0 -> regular k g M0 M1 ->
  length (wts s) = 1%nat -> length (absc s) = 1%nat ->
  let x := M1 / M0 in
  let o := nucl k g (M0 * kernel k g (dimerMass g) x) in
  exists m' s', setSourceTerms st eig m s = Ok (st, m', s') /\
    soots m' = [Fin (oJ o - 1 / 2 * kernel k g x x * M0 ^ 2);
                Fin (oN1 o + kernel k g (oMass o) x * M0 * oConc o * oMass o + (kgrow k g M0 M1 - koxid k g M0 M1) * (M0 * sphere x))] /\
    gasBudget m' k g o (kgrow k g M0 M1 * (M0 * sphere x)) (koxid k g M0 M1 * (M0 * sphere x)) /\
    pahs m' = pahSourcesOf k g (pahs m).
Proof. exact C22_. Qed.
Print Assumptions C22_mono_rates.

(** in particular without PAH *)
Theorem C22_mono_rates_gas : forall (m : model (N:=XR)) s g k M0 M1 st eig,
  sm_psd m = P_MONO -> hasMechs m k -> okMechs k -> noTar m -> valid s g [M0; M1] -> 0 < M0 -> regular k g M0 M1 ->
  length (wts s) = 1%nat -> length (absc s) = 1%nat ->
  let x := M1 / M0 in
  exists m' s', setSourceTerms st eig m s = Ok (st, m', s') /\
    soots m' = [Fin (Jnuc k g - 1 / 2 * kernel k g x x * M0 ^ 2);
                Fin (Jnuc k g * nucMass g + (kgrow k g M0 M1 - koxid k g M0 M1) * (M0 * sphere x))].
Proof. exact C22_gas_. Qed.
Print Assumptions C22_mono_rates_gas.

Example C22_case : exists (m : model (N:=XR)) s g k M0 M1,
  sm_psd m = P_MONO /\ hasAll m k /\ okAll k /\ mN k = N_PAH /\ somePah g /\ noTar m /\ valid s g [M0; M1] /\ 0 < M0 /\ regular k g M0 M1 /\
  length (wts s) = 1%nat /\ length (absc s) = 1%nat /\ massCutoff < M1 / M0.
Proof. exact mono_case_pah. Qed.
Example C22_gas_case : exists (m : model (N:=XR)) s g k M0 M1,
  sm_psd m = P_MONO /\ hasMechs m k /\ okMechs k /\ 0 < Jnuc k g /\ noTar m /\ valid s g [M0; M1] /\ 0 < M0 /\ regular k g M0 M1 /\
  length (wts s) = 1%nat /\ length (absc s) = 1%nat /\ massCutoff < M1 / M0.
Proof. exact mono_case_gas. Qed.

(** ** C23 *)
(** for any arithmetic: extended reals, IEEE doubles *)
Theorem C23_current_state_only : forall (N : Num) (m : model (N:=N)) s w a w2 a2 M0 st eig, sm_psd m = P_MONO ->
  nth_error (sootVar s) 0 = Some M0 -> nltb (nZ 0) M0 = true ->
  length w = 1%nat -> length a = 1%nat -> length w2 = 1%nat -> length a2 = 1%nat ->
  setSourceTerms st eig m (with_wa s w a) = setSourceTerms st eig m (with_wa s w2 a2).
Proof. exact @mono_indep. Qed.
Print Assumptions C23_current_state_only.

(** a state that held soot before and holds none now: the number source differs
    from the one a fresh state object yields, and is not the nucleation rate *)
Theorem C23_stale_node_refuted : forall (m : model (N:=XR)) k g g2 M0 M1 st eig,
  sm_psd m = P_MONO -> hasMechs m k -> okMechs k -> noTar m -> physical g -> physical g2 -> 0 < M0 ->
  massCutoff < M1 / M0 -> mC k <> C_NONE -> regular k g M0 M1 -> regular k g2 0 0 ->
  exists m1 m2 s1 s2 a,
    runActions (st, m, newState 2 0) [setTo g [M0; M1] []; ASrc eig; setTo g2 [0; 0] []; ASrc eig] = Ok (st, m1, s1) /\
    runActions (st, m, newState 2 0) [setTo g2 [0; 0] []; ASrc eig] = Ok (st, m2, s2) /\
    nth_error (soots m1) 0 = Some (Fin a) /\ nth_error (soots m2) 0 = Some (Fin (Jnuc k g2)) /\
    a < Jnuc k g2.
Proof. exact C23_stale. Qed.
Print Assumptions C23_stale_node_refuted.

Example C23_case : exists (m : model (N:=XR)) k g g2 M0 M1,
  sm_psd m = P_MONO /\ hasMechs m k /\ okMechs k /\ noTar m /\ physical g /\ physical g2 /\ 0 < M0 /\
  massCutoff < M1 / M0 /\ mC k <> C_NONE /\ regular k g M0 M1 /\ regular k g2 0 0.
Proof. exact mono_case_stale. Qed.

(** ** C24 *)
(** BROWN: exact sources; gas and soot mass do not balance: the mass that growth
    takes from the gas is added to nothing *)
Theorem C24_brown_sources : forall (m : model (N:=XR)) s g k M0 M1 w x mt n0 ts0 tr tsr st eig,
  sm_psd m = P_MONO -> hasMechs m k -> okAny k -> valid s g [M0; M1] -> regular k g M0 M1 ->
  wts s = [Fin w] -> absc s = [Fin x] -> 0 < mt -> mtar s = Fin mt -> tarVar s = Fin n0 :: tr ->
  tarSources (sm_sources m) = Fin ts0 :: tsr -> sm_tar m = newTar T_BROWN ->
  let J := nuclTar (mN k) g mt n0 in let A := surface M0 M1 in
  exists m' s' q, setSourceTerms st eig m s = Ok (st, m', s') /\
    soots m' = [Fin (J - brownAggregate g M0 M1); Fin (J * nucMass g - koxid k g M0 M1 * A)] /\
    tarSources (sm_sources m') = Fin (- (J * nucMass g) - brownGasify g n0 - brownOxid g n0) :: tsr /\
    q = reactions k (J * nucMass g) (kgrow k g M0 M1 * A) (koxid k g M0 M1 * A) /\ holdsGas (gases m') q /\
    total q + (J * nucMass g - koxid k g M0 M1 * A) = - (kgrow k g M0 M1 * A).
Proof. exact brown_balance. Qed.
Print Assumptions C24_brown_sources.

(** AJ_RED: the growth and oxidation mass rate R1 is multiplied by the surface A once more *)
Theorem C24_aj_red_sources : forall (m : model (N:=XR)) s g k M0 M1 w x mt n0 ts0 tr tsr st eig,
  sm_psd m = P_MONO -> hasMechs m k -> okAny k -> valid s g [M0; M1] -> regular k g M0 M1 ->
  wts s = [Fin w] -> absc s = [Fin x] -> 0 < mt -> mtar s = Fin mt -> tarVar s = Fin n0 :: tr ->
  tarSources (sm_sources m) = Fin ts0 :: tsr -> sm_tar m = newTar T_AJ_RED -> 0 < M0 ->
  let J := nuclTar (mN k) g mt n0 in let A := M0 * sphere (M1 / M0) in
  let R1 := (kgrow k g M0 M1 - koxid k g M0 M1) * A in
  exists m' s' q, setSourceTerms st eig m s = Ok (st, m', s') /\
    soots m' = [Fin (J - 1 / 2 * kernel k g (M1 / M0) (M1 / M0) * M0 ^ 2);
                Fin (mt * tarDepo g mt n0 M0 M1 + A * (R1 - tarGasify g) + 2 * mt * J)] /\
    tarSources (sm_sources m') =
      Fin (- tarDepo g mt n0 M0 M1 - crackingReduced (gT g) n0 + 2508 * n0 * (R1 - tarGasify g) - 2 * J) :: tsr /\
    q = reactions k (J * nucMass g) (kgrow k g M0 M1 * A) (koxid k g M0 M1 * A) /\ holdsGas (gases m') q /\ total q = - (J * nucMass g + R1).
Proof. exact aj_balance. Qed.
Print Assumptions C24_aj_red_sources.

(** no tar variable: for any arithmetic *)
Theorem C24_no_tar_variable : forall (N : Num) (m : model (N:=N)) s st eig a b l w wr x xr,
  sm_psd m = P_MONO -> ta_mech (sm_tar m) <> T_NONE -> sootVar s = a :: b :: l -> wts s = w :: wr -> absc s = x :: xr ->
  tarVar s = [] -> setSourceTerms st eig m s = UB OutOfBounds.
Proof. exact @mono_no_tar. Qed.
Print Assumptions C24_no_tar_variable.

(** growth non-zero, so the imbalance of BROWN is real *)
Example C24_case : forall t, t = T_BROWN \/ t = T_AJ_RED -> exists (m : model (N:=XR)) s g k M0 M1 w x mt n0,
  sm_psd m = P_MONO /\ hasMechs m k /\ okAny k /\ valid s g [M0; M1] /\ regular k g M0 M1 /\
  wts s = [Fin w] /\ absc s = [Fin x] /\ 0 < mt /\ mtar s = Fin mt /\ tarVar s = [Fin n0] /\
  tarSources (sm_sources m) = [Fin 0] /\ sm_tar m = newTar t /\ 0 < M0 /\ 0 < n0 /\
  0 < kgrow k g M0 M1 * surface M0 M1.
Proof. exact mono_case_tar. Qed.

(** ** C55 *)
(** nucleation of AJ_RED tar: collisions of molecules of diameter [tarDiamNucl mt];
    the mean speed is taken with mt*Na as the mass of a molecule (it is mt/Na) *)
Theorem C55_tar_nucleation : forall (s : state (N:=XR)) g soot mt n0 tr coll nu, valid s g soot -> 0 < mt -> mtar s = Fin mt ->
  tarVar s = Fin n0 :: tr -> nu_class nu = N_AJ_RED ->
  nuclRate coll nu s =
    Ok (Fin (22 / 10 * (tarDiamNucl mt ^ 2 * sqrt (8 * piC * boltzmann * gT g / (mt * avogadro))) * n0 ^ 2 * (2 * avogadro / gCMin g)), nu, s, None).
Proof. exact C55_nucl. Qed.
Print Assumptions C55_tar_nucleation.

(** the molar mass a new state object has (0) makes it NaN *)
Theorem C55_default_molar_mass : forall coll (s : state (N:=XR)) g soot nu n0 tr, valid s g soot ->
  nu_class nu = N_AJ_RED -> mtar s = Fin 0 -> tarVar s = Fin n0 :: tr -> nuclRate coll nu s = Ok (NaN, nu, s, None).
Proof. exact aj_mtar0. Qed.
Print Assumptions C55_default_molar_mass.

(** deposition uses a diameter larger than nucleation's by the factor sqrt(1/1.395e-10) *)
Theorem C55_deposition_diameter_refuted : forall (s : state (N:=XR)) g M0 M1 mt n0 tr, valid s g [M0; M1] -> 0 < mt -> 0 < M0 -> 0 < M1 ->
  mtar s = Fin mt -> tarVar s = Fin n0 :: tr ->
  let m := M1 / M0 in let mu := mt / avogadro * m / (mt / avogadro + m) in
  exists d, d = sqrt (10 ^ 13 / 1395) * tarDiamNucl mt /\
    depoRate (newTar T_AJ_RED) s =
      Ok (Fin (22 / 10 * ((diam m + d) ^ 2 * sqrt (piC * boltzmann * gT g / (2 * mu))) * n0 * M0)).
Proof. exact C55_depo. Qed.
Print Assumptions C55_deposition_diameter_refuted.

Example C55_new_state : forall n nt, mtar (newState (N:=XR) n nt) = Fin 0.
Proof. reflexivity. Qed.
