(** Specification vocabulary for memory safety and histories of calls (C39, C46, C47, C49). *)
From Coq Require Import ZArith List Bool.
From Verif Require Import Num Defs State Coag Nucl Growth Oxid Tar SootModel Calls.
Import ListNotations.

Section SpecSafe.
Context {N : Num}.

(** a state for [n] soot variables and [nt] tar variables with all vectors of the right size, at least [G] gases *)
Definition fitState (G n nt : nat) (s : state) : Prop :=
  G <= length (yGas s) /\ length (yPah s) = 6 /\ st_nsoot s = Z.of_nat n /\ length (sootVar s) = n /\
  length (wts s) = Nat.div n 2 /\ length (absc s) = Nat.div n 2 /\ st_Ntar s = Z.of_nat nt /\ length (tarVar s) = nt.
(** a user action whose vectors and counts have these sizes (PAH: any size, a wrong one is rejected) *)
Definition fitAction (G n nt : nat) (a : action) : Prop :=
  match a with
  | ASet _ _ _ _ yg _ sv ns tv nT _ => G <= length yg /\ length sv = n /\ ns = Z.of_nat n /\ length tv = nt /\ nT = Z.of_nat nt
  | ASrc _ => True
  end.
(** with all 11 gases *)
Definition sizedState (n nt : nat) (s : state) : Prop := fitState 11 n nt s.
Definition sizedAction (n nt : nat) (a : action) : Prop := fitAction 11 n nt a.
(** gases whose concentration or partial pressure a mechanism reads *)
Definition nuclReads (nu : nucleationMech) (sp : gasSp) : bool :=
  match nu, sp with
  | N_LL, C2H2 | N_LIN, C2H2 | N_MB, C2H2 | N_FAIR, C2H2 | N_LINA1, C6H6 => true
  | _, _ => false
  end.
Definition hacaReads (sp : gasSp) : bool :=
  match sp with H_ | H2 | OH | H2O | C2H2 | O2 => true | _ => false end.
Definition growReads (gr : growthMech) (sp : gasSp) : bool :=
  match gr, sp with
  | G_LL, C2H2 | G_LIN, C2H2 | G_MB, C2H2 | G_FAIR, C2H2 => true
  | G_HACA, _ => hacaReads sp
  | _, _ => false
  end.
Definition oxidReads (ox : oxidationMech) (sp : gasSp) : bool :=
  match ox, sp with
  | O_LL, O2 | O_FAIR, O2 | O_BROWN, O2 | O_MB, OH => true
  | (O_LEE_NEOH | O_NSC_NEOH | O_OPTJ | O_OPTG | O_AJ_RED), (O2 | OH) => true
  | O_HACA, _ => hacaReads sp
  | _, _ => false
  end.
Definition tarReads (ta : tarMech) (sp : gasSp) : bool :=
  match ta, sp with T_AJ_RED, (H2 | H2O | CO2) | T_BROWN, O2 => true | _, _ => false end.
(** the first [G] gases include all that are read *)
Definition enoughGas (G : nat) (nu : nucleationMech) (gr : growthMech) (ox : oxidationMech) (ta : tarMech) : Prop :=
  forall sp, nuclReads nu sp = true \/ growReads gr sp = true \/ oxidReads ox sp = true \/ tarReads ta sp = true -> gasIdx sp < G.
(** gases read whatever the soot; growth LL, MB and FAIR read acetylene only if there is surface *)
Definition growAlways (gr : growthMech) (sp : gasSp) : bool :=
  match gr, sp with G_LIN, C2H2 => true | G_HACA, _ => hacaReads sp | _, _ => false end.
(** mechanisms that read the first tar variable *)
Definition readsTar (nu : nucleationMech) (ta : tarMech) : Prop :=
  nu = N_AJ_RED \/ nu = N_BROWN \/ ta <> T_NONE.
(** the source vectors of a model *)
Definition sizedSources (n nt : nat) (x : sourceTerms) : Prop :=
  length (sootSources x) = n /\ length (gasSources x) = 11 /\ length (pahSources x) = 6 /\ length (tarSources x) = nt.

(** the same model with other growth and oxidation mechanisms *)
Definition withSurface (m : model) (gr : growObj) (ox : oxidObj) : model :=
  mkModel (sm_psd m) (sm_nsoot m) (sm_Ntar m) (sm_nucl m) gr ox (sm_coag m) (sm_tar m) (sm_newed m) (sm_mBins m) (sm_sources m) (sm_priv m).

(** states that differ at most in the weights and abscissas, which calls overwrite *)
Definition sameInputs (s s' : state) : Prop :=
  s' = with_wa s (wts s') (absc s') /\ length (wts s') = length (wts s) /\ length (absc s') = length (absc s).
(** models that differ at most in source terms and in work arrays of the interpolative model *)
Definition samePriv (a b : privData) : Prop :=
  match a, b with
  | PrivMomic d, PrivMomic d' => id_Nmom d = id_Nmom d' /\ length (id_Mp6 d) = length (id_Mp6 d') /\ length (id_Mq6 d) = length (id_Mq6 d')
  | _, _ => a = b
  end.
Definition sameModel (m m' : model) : Prop :=
  sm_psd m = sm_psd m' /\ sm_nsoot m = sm_nsoot m' /\ sm_nucl m = sm_nucl m' /\ sm_grow m = sm_grow m' /\ sm_oxid m = sm_oxid m' /\
  sm_coag m = sm_coag m' /\ sm_tar m = sm_tar m' /\ sm_mBins m = sm_mBins m' /\ samePriv (sm_priv m) (sm_priv m').
(** two calls end the same way, with the same soot and gas sources if they return *)
Definition sameOutcome (r r' : res (option num * model * state)) : Prop :=
  match r, r' with
  | Ok (g, m, _), Ok (g', m', _) => g = g' /\ sootSources (sm_sources m) = sootSources (sm_sources m') /\ gasSources (sm_sources m) = gasSources (sm_sources m')
  | Throw e, Throw e' => e = e'
  | UB u, UB u' => u = u'
  | _, _ => False
  end.

End SpecSafe.

(** *** no mechanisms *)
Section None.
Context {N : Num}.
Definition allNone (m : model (N:=N)) : Prop :=
  sm_nucl m = newNucl N_NONE /\ sm_grow m = newGrow G_NONE /\ sm_oxid m = newOxid O_NONE /\ co_mech (sm_coag m) = C_NONE /\ ta_mech (sm_tar m) = T_NONE.
(** 0 + 0 = 0, 0 * 0 = 0, and 0 times an atomic or molar mass over that of carbon vanishes *)
Definition zeroLaws : Prop :=
  nadd (nZ 0) (nZ 0) = nZ 0 /\ forall i, (i < 11)%nat -> ndiv (nmul (nmul (nZ 0) (nZ 0)) (nth i gasSpMW (nZ 0))) (nmul (nZ 1) (MWof C_)) = nZ 0.
End None.
Arguments zeroLaws : clear implicits.
