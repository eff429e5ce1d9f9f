(** Property C87: programs that catch the exceptions of setSourceTerms. *)
From Coq Require Import ZArith List Bool Reals.
From Verif Require Import Num Defs State Coag Nucl Growth Oxid Tar SootModel Qmom Calls Catch XR SpecState SpecSafe SpecChem SpecValid SpecRates SpecPah SpecPsd SpecQmom ValidProofs CatchProofs CatchCases.
Import ListNotations.

(** a history that runs to its end without exceptions of setSourceTerms is the same with and without a catch *)
Theorem C87_same : forall (N : Num) l (c r : option num * model (N:=N) * state), runActions c l = Ok r -> runCatching c l = Ok r.
Proof. exact @C87_same_. Qed.
Print Assumptions C87_same.
(** with the catch no history of calls with matching sizes throws, and all vectors keep their sizes *)
Theorem C87_histories : forall (N : Num) n nt newed p (nu : nuclObj (N:=N)) gr ox co ta F k m l g,
  build newed p n nu gr ox co nt ta F k = Ok m ->
  p <> P_HMOM -> (p = P_MOMIC -> n <= 7) -> nu_class nu = nu_mech nu -> length (nu_pah nu) = 6 ->
  (readsTar (nu_class nu) (ta_mech ta) -> 1 <= nt) -> Forall (sizedAction n nt) l ->
  match runCatching (g, m, newState n nt) l with
  | Ok (_, m', s') => sizedState n nt s' /\ sizedSources n nt (sm_sources m')
  | Throw _ => False
  | UB u => u = BadCast /\ p = P_SECT /\ co_mech co <> C_NONE
  end.
Proof. exact @C87_histories_. Qed.
Print Assumptions C87_histories.
(** a quadrature model with coagulation and at least 36 moments completes no call, whatever the state and the arithmetic *)
Theorem C87_never_completes : forall (N : Num) g eig (m : model (N:=N)) s r,
  sm_psd m = P_QMOM -> coagOn m = true -> 36 <= sm_nsoot m -> setSourceTerms g eig m s <> Ok r.
Proof. exact @C87_never_. Qed.
Print Assumptions C87_never_completes.
(** hence its sources never change, through any history with a catch *)
Theorem C87_sources_frozen : forall (N : Num) l g (m : model (N:=N)) s g' m' s',
  sm_psd m = P_QMOM -> coagOn m = true -> 36 <= sm_nsoot m ->
  runCatching (g, m, s) l = Ok (g', m', s') -> g' = g /\ sm_sources m' = sm_sources m.
Proof. exact @C87_frozen_. Qed.
Print Assumptions C87_sources_frozen.
(** of the state only the nodes and, with PAH nucleation, cMin change *)
Theorem C87_state : forall (N : Num) g eig (m : model (N:=N)) s g' m' s',
  sm_psd m = P_QMOM -> coagOn m = true -> 36 <= sm_nsoot m -> tryCall g eig m s = Ok (g', m', s') ->
  s' = with_cMin (with_wa s (wts s') (absc s')) (cMin s') /\ (nu_class (sm_nucl m) <> N_PAH -> cMin s' = cMin s /\ sm_nucl m' = sm_nucl m).
Proof. exact @C87_state_. Qed.
Print Assumptions C87_state.
(** they do change: the state holds the nodes of the new moments and the cMin of the new
    gas beside the sources of the old state *)
Theorem C87_left_behind : forall m s g k soot p eig st, readyQmom m s g k soot p -> mC k <> C_NONE -> 18 <= p ->
  setSourceTerms st eig m s = Throw ERunBinomial /\
  exists m' s' w x, tryCall st eig m s = Ok (st, m', s') /\ nodesAre s' w x /\ nodesOf eig soot p w x /\
    valid s' (oGas (nucl k g (nodeHits k g w x))) soot /\ sm_sources m' = sm_sources m /\ hasAll m' k /\ isQmom m' s' p.
Proof. exact C87_left_. Qed.
Print Assumptions C87_left_behind.
Example C87_case : forall nm, nm = N_LL \/ nm = N_PAH -> exists m s,
  constructEnum P_QMOM 36 nm G_LL O_LL C_FM 0 T_NONE (Fin 2) 100 = Ok m /\
  call (newState 36 0) (argsOf demoGas (repeat 1%R 36) []) = SetOk s /\
  readyQmom m s demoGas (mkMechs nm G_LL O_LL C_FM 1) (repeat 1%R 36) 18 /\ coagOn m = true /\ sm_sources m = newSources 36 0.
Proof. exact C87_case_. Qed.
