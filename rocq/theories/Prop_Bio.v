(** Property C62: yield and molar mass of tar from biomass and coal. *)
From Coq Require Import ZArith List Reals Lra.
From Verif Require Import Num Defs State Coag Nucl Growth Oxid Tar SootModel Calls XR SpecBio BioMain.
Import ListNotations.
Local Open Scope R_scope.

(** biomass: the composition-weighted means of the constituents' correlations *)
Theorem C62_biomass : forall (s : state (N:=XR)) t p y,
  T s = Fin t -> P s = Fin p -> 0 < p -> yBio s = map (fun b => Fin (y b)) allBio -> noPole t (atmLog p) ->
  get_mtar_ytar s = Ok (with_my s (Fin (bioMean (fun b => tarMass b t (atmLog p)) y)) (Fin (bioMean (fun b => yield b t (atmLog p)) y))).
Proof. exact bio_val. Qed.
Print Assumptions C62_biomass.
(** at one atmosphere between 600 and 2000 K: no pole, a yield between 0 and 1, a molar mass between 200 and 500 kg/kmol *)
Theorem C62_one_atmosphere : forall (s : state (N:=XR)) t y,
  T s = Fin t -> 600 <= t <= 2000 -> P s = Fin 101325 -> yBio s = map (fun b => Fin (y b)) allBio ->
  (forall b, 0 <= y b) -> bioMean (fun _ => 1) y = 1 ->
  exists m v, get_mtar_ytar s = Ok (with_my s (Fin m) (Fin v)) /\ 200 < m < 500 /\ 0 < v < 1.
Proof. exact bio_range. Qed.
Print Assumptions C62_one_atmosphere.
(** at ten atmospheres softwood hemicellulose gets a negative molar mass between 700 and 2000 K *)
Theorem C62_ten_atmospheres : forall (s : state (N:=XR)) t,
  T s = Fin t -> 700 <= t <= 2000 -> P s = Fin 1013250 -> yBio s = [Fin 0; Fin 0; Fin 1; Fin 0; Fin 0] ->
  exists m v, get_mtar_ytar s = Ok (with_my s (Fin m) (Fin v)) /\ m < 0.
Proof. exact ten_atm. Qed.
Print Assumptions C62_ten_atmospheres.
(** with which AJ_RED nucleation makes the particle source not a number *)
Theorem C62_negative_mass : forall n nt gr ox co ta F k (md : model (N:=XR)) g eig s m,
  constructEnum P_MONO n N_AJ_RED gr ox co nt ta F k = Ok md -> mtar s = Fin m -> m < 0 ->
  match setSourceTerms g eig md s with Ok (_, m', _) => exists l, sootSources (sm_sources m') = NaN :: l | _ => True end.
Proof. exact mono_nan. Qed.
Print Assumptions C62_negative_mass.
(** coal *)
Theorem C62_coal : forall (s : state (N:=XR)) t p o h v,
  T s = Fin t -> P s = Fin p -> 0 < p -> OC s = Fin o -> HC s = Fin h -> V s = Fin v ->
  let x := atmLog p in cpoly coalYieldDen t x o h v <> 0 -> cpoly coalMassDen t x o h v <> 0 ->
  get_mtar_ytar_coal s = with_my s (Fin (cpoly coalMassNum t x o h v / cpoly coalMassDen t x o h v)) (Fin (cpoly coalYieldNum t x o h v / cpoly coalYieldDen t x o h v)).
Proof. exact coal_val. Qed.
Print Assumptions C62_coal.
(** the coal set by get_coal is the one used, and nothing else of the state changes *)
Theorem C62_coal_given : forall (s : state (N:=XR)) t p o h v, T s = Fin t -> P s = Fin p -> 0 < p ->
  let x := atmLog p in cpoly coalYieldDen t x o h v <> 0 -> cpoly coalMassDen t x o h v <> 0 ->
  let s' := get_mtar_ytar_coal (get_coal s (Fin o) (Fin h) (Fin v)) in
  mtar s' = Fin (cpoly coalMassNum t x o h v / cpoly coalMassDen t x o h v) /\
  ytar s' = Fin (cpoly coalYieldNum t x o h v / cpoly coalYieldDen t x o h v) /\
  OC s' = Fin o /\ HC s' = Fin h /\ State.V s' = Fin v /\
  with_coal (with_my s' (mtar s) (ytar s)) (OC s) (HC s) (State.V s) = s.
Proof. exact coal_given. Qed.
Print Assumptions C62_coal_given.
(** fewer than five mass fractions, as in a new state, are read out of bounds *)
Theorem C62_short : forall (N : Num) (s : state (N:=N)), (length (yBio s) < 5)%nat -> get_mtar_ytar s = UB OutOfBounds.
Proof. exact bio_short. Qed.
Print Assumptions C62_short.
Theorem C62_new_state : forall (N : Num) n nt, get_mtar_ytar (newState (N:=N) n nt) = UB OutOfBounds.
Proof. exact bio_new. Qed.
Print Assumptions C62_new_state.
(** nothing else changes, and nothing else but temperature, pressure and composition matters *)
Theorem C62_frame : forall (N : Num) (s s' : state (N:=N)), get_mtar_ytar s = Ok s' -> s' = with_my s (mtar s') (ytar s').
Proof. exact bio_frame. Qed.
Print Assumptions C62_frame.
Theorem C62_depends : forall (N : Num) (s1 s2 s1' s2' : state (N:=N)), T s1 = T s2 -> P s1 = P s2 -> yBio s1 = yBio s2 ->
  get_mtar_ytar s1 = Ok s1' -> get_mtar_ytar s2 = Ok s2' -> mtar s1' = mtar s2' /\ ytar s1' = ytar s2'.
Proof. exact bio_depends. Qed.
Print Assumptions C62_depends.
(** the claim "the molar mass is positive" is false *)
Theorem C62_positive_mass_refuted : exists (s s' : state (N:=XR)) m, T s = Fin 1000 /\ P s = Fin 1013250 /\
  yBio s = [Fin 0; Fin 0; Fin 1; Fin 0; Fin 0] /\ get_mtar_ytar s = Ok s' /\ mtar s' = Fin m /\ m < 0.
Proof. exact neg_case. Qed.
Print Assumptions C62_positive_mass_refuted.
(** the mixture of the commented example, one atmosphere, 1500 K *)
Example C62_case : exists (s : state (N:=XR)) y, T s = Fin 1500 /\ P s = Fin 101325 /\ yBio s = map (fun b => Fin (y b)) allBio /\
  (forall b, 0 <= y b) /\ bioMean (fun _ => 1) y = 1 /\ noPole 1500 (atmLog 101325).
Proof. exact one_case. Qed.
Example C62_coal_case : cpoly coalYieldDen 1500 (atmLog 101325) (1 / 10) (7 / 10) (682 / 10) <> 0 /\ cpoly coalMassDen 1500 (atmLog 101325) (1 / 10) (7 / 10) (682 / 10) <> 0.
Proof. exact coal_case. Qed.
