(** Specification vocabulary for C67: which parts of the state a call looks at. *)
From Coq Require Import ZArith List Bool.
From Verif Require Import Num Defs State Coag Nucl Growth Oxid Tar SootModel Calls SpecSafe.
Import ListNotations.

Section SpecNeeds.
Context {N : Num}.

(** temperature, gas density, soot variables, weights and abscissas and [cMin] of [s], everything else of [o] *)
Definition mix (s o : state) : state :=
  mkState (T s) (P o) (rhoGas s) (MWGas o) (muGas o) (yGas o) (yPah o) (st_nsoot o) (sootVar s) (absc s) (wts s) (sootScales o) (cMin s)
    (st_Ntar o) (tarVar o) (yBio o) (mtar o) (ytar o) (OC o) (HC o) (V o).

(** mechanism objects whose tag is that of their class (all constructors but oxidation FAIR, see C20) *)
Definition tagged (m : model) : Prop :=
  nu_mech (sm_nucl m) = nu_class (sm_nucl m) /\ co_mech (sm_coag m) = co_class (sm_coag m) /\ ta_mech (sm_tar m) = ta_class (sm_tar m).

(** oxidation and tar mechanisms written in partial pressures *)
Definition byPressure (ox : oxidationMech) (ta : tarMech) : Prop :=
  match ox with O_LEE_NEOH | O_NSC_NEOH | O_OPTJ | O_OPTG | O_AJ_RED | O_BROWN => True | _ => ta = T_AJ_RED end.
(** viscosity and mean free path: all kernels but the free-molecular one, and the collisions
    with dimers of the models without a size distribution to sum over *)
Definition byTransport (p : psdMech) (nu : nucleationMech) (co : coagulationMech) : Prop :=
  match co with
  | C_CONTINUUM | C_HM | C_FUCHS | C_size => True
  | C_NONE | C_FM => p = P_HMOM \/ nu = N_PAH /\ (p = P_LOGN \/ p = P_MOMIC)
  end.

(** [o] agrees with [s] in what the model [m] looks at *)
Record needs (m : model) (s o : state) : Prop := mkNeeds {
  needs_gas : forall sp, nuclReads (nu_class (sm_nucl m)) sp = true \/ growReads (gr_class (sm_grow m)) sp = true \/
      oxidReads (ox_class (sm_oxid m)) sp = true \/ tarReads (ta_class (sm_tar m)) sp = true ->
      nth_error (yGas o) (gasIdx sp) = nth_error (yGas s) (gasIdx sp);
  needs_pah : nu_class (sm_nucl m) = N_PAH -> yPah o = yPah s;
  needs_tar : readsTar (nu_class (sm_nucl m)) (ta_class (sm_tar m)) -> nth_error (tarVar o) 0 = nth_error (tarVar s) 0;
  needs_mtar : nu_class (sm_nucl m) = N_AJ_RED \/ ta_class (sm_tar m) = T_AJ_RED -> mtar o = mtar s;
  needs_P : byPressure (ox_class (sm_oxid m)) (ta_class (sm_tar m)) -> P o = P s;
  needs_MW : byPressure (ox_class (sm_oxid m)) (ta_class (sm_tar m)) \/ byTransport (sm_psd m) (nu_class (sm_nucl m)) (co_class (sm_coag m)) -> MWGas o = MWGas s;
  needs_mu : byTransport (sm_psd m) (nu_class (sm_nucl m)) (co_class (sm_coag m)) -> muGas o = muGas s;
  needs_nsoot : sm_psd m = P_SECT -> gr_class (sm_grow m) = G_HACA -> st_nsoot o = st_nsoot s }.

(** the same outcome, with a state that keeps the rest of [o] *)
Definition onlyRest (o : state) (r r' : res (option num * model * state)) : Prop :=
  match r, r' with
  | Ok (g, m, s), Ok (g', m', s') => g' = g /\ m' = m /\ s' = mix s o
  | Throw e, Throw e' => e' = e
  | UB u, UB u' => u' = u
  | _, _ => False
  end.

End SpecNeeds.
