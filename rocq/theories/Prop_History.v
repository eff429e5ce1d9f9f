(** Properties C46 and C49: what a call does not depend on.  For every number type. *)
From Coq Require Import ZArith List.
From Verif Require Import Num Defs State Coag Nucl Growth Oxid Tar SootModel Qmom Calls XR F64 SpecSafe HistMain SurfProofs.
Import ListNotations.

(** ** C46 *)
(** the outcome of a call does not depend on weights, abscissas, source terms and work
    arrays left by earlier calls (models [m], [m'] and states [s], [s'] differ in these only) *)
Theorem C46_inputs : forall (N : Num) n nt newed p (nu : nuclObj (N:=N)) gr ox co ta F k m0 m m' s s' g eig,
  build newed p n nu gr ox co nt ta F k = Ok m0 -> p = P_LOGN \/ p = P_QMOM \/ p = P_MOMIC \/ p = P_SECT ->
  nu_class nu <> N_PAH -> nu_mech nu <> N_PAH ->
  sameModel m0 m -> sameModel m0 m' -> sameInputs s s' -> sameOutcome (setSourceTerms g eig m s) (setSourceTerms g eig m' s').
Proof. exact @C46_inputs_. Qed.
Print Assumptions C46_inputs.
(** evaluating twice gives the same sources *)
Theorem C46_twice : forall (N : Num) n nt newed p (nu : nuclObj (N:=N)) gr ox co ta F k m0 m s g eig g1 m1 s1,
  build newed p n nu gr ox co nt ta F k = Ok m0 -> p = P_LOGN \/ p = P_QMOM \/ p = P_MOMIC \/ p = P_SECT ->
  nu_class nu <> N_PAH -> nu_mech nu <> N_PAH ->
  sameModel m0 m -> setSourceTerms g eig m s = Ok (g1, m1, s1) ->
  exists m2 s2, setSourceTerms g1 eig m1 s1 = Ok (g1, m2, s2) /\
    sootSources (sm_sources m2) = sootSources (sm_sources m1) /\ gasSources (sm_sources m2) = gasSources (sm_sources m1).
Proof. exact @C46_again. Qed.
Print Assumptions C46_twice.
(** two objects with different histories, both set to the same accepted conditions, give the
    same outcome (the static of the sectional model, [g], being the same: see C30) *)
Theorem C46_histories : forall (N : Num) n nt newed p (nu : nuclObj (N:=N)) gr ox co ta F k m T_ P_ rho mu yg yp sv ns tv nT c l1 l2 ga gb g1 m1 s1 g2 m2 s2 g eig,
  build newed p n nu gr ox co nt ta F k = Ok m -> p = P_LOGN \/ p = P_QMOM \/ p = P_MOMIC \/ p = P_SECT ->
  nu_class nu <> N_PAH -> nu_mech nu <> N_PAH ->
  let a := ASet T_ P_ rho mu yg yp sv ns tv nT c in
  Forall (sizedAction n nt) l1 -> Forall (sizedAction n nt) l2 -> sizedAction n nt a ->
  (exists s, setState (newState n nt) T_ P_ rho mu yg yp sv ns tv nT c = SetOk s) ->
  runActions (ga, m, newState n nt) (l1 ++ [a]) = Ok (g1, m1, s1) -> runActions (gb, m, newState n nt) (l2 ++ [a]) = Ok (g2, m2, s2) ->
  sameOutcome (setSourceTerms g eig m1 s1) (setSourceTerms g eig m2 s2).
Proof. exact @C46_history_. Qed.
Print Assumptions C46_histories.
(** the relations relate different things: other weights, other sources *)
Example C46_case : exists (m0 m : model (N:=XR)) s s',
  build true P_QMOM 6 (newNucl N_LL) (newGrow G_LL) (newOxid O_LL) (newCoag C_HM) 0 (newTar T_NONE) (nZ 2) 100 = Ok m0 /\
  sameModel m0 m /\ sm_sources m <> sm_sources m0 /\ sameInputs s s' /\ wts s <> wts s'.
Proof.
  eexists. exists (with_sources (mkModel P_QMOM 6 0 (newNucl N_LL) (newGrow G_LL) (newOxid O_LL) (newCoag C_HM) (newTar T_NONE) true [] (newSources 6 0) PrivNone) (newSources 7 0)).
  exists (newState 6 0), (with_wa (newState 6 0) (repeat (NaN : @num XR) 3) (repeat (NaN : @num XR) 3)). split; [reflexivity|]. repeat split; discriminate.
Qed.

(** ** C49 *)
(** other growth and oxidation mechanisms: both calls return, with the same source 0 and the same state *)
Theorem C49_surface : forall (N : Num) n nt newed p (nu : nuclObj (N:=N)) gr ox gr' ox' co ta F k m g eig s,
  build newed p n nu gr ox co nt ta F k = Ok m -> p = P_MONO \/ p = P_LOGN \/ p = P_QMOM /\ n <= 34 \/ p = P_MOMIC /\ n <= 7 ->
  nu_class nu = nu_mech nu -> length (nu_pah nu) = 6 -> (readsTar (nu_class nu) (ta_mech ta) -> 1 <= nt) -> sizedState n nt s ->
  exists m' g1 m1 s1 g2 m2 x, build newed p n nu gr' ox' co nt ta F k = Ok m' /\
    setSourceTerms g eig m s = Ok (g1, m1, s1) /\ setSourceTerms g eig m' s = Ok (g2, m2, s1) /\
    nth_error (sootSources (sm_sources m1)) 0 = Some x /\ nth_error (sootSources (sm_sources m2)) 0 = Some x.
Proof. exact @C49_both. Qed.
Print Assumptions C49_surface.
(** the same at any point of a history: models that differ in growth and oxidation only *)
Theorem C49_any_model : forall (N : Num) g eig (m : model (N:=N)) gr ox s g1 m1 s1 g2 m2 s2,
  sm_psd m = P_MONO \/ sm_psd m = P_LOGN \/ sm_psd m = P_QMOM \/ sm_psd m = P_MOMIC ->
  setSourceTerms g eig m s = Ok (g1, m1, s1) -> setSourceTerms g eig (withSurface m gr ox) s = Ok (g2, m2, s2) ->
  nth_error (sootSources (sm_sources m1)) 0 = nth_error (sootSources (sm_sources m2)) 0 /\ s1 = s2.
Proof. exact @C49_. Qed.
Print Assumptions C49_any_model.
Example C49_case : exists m : model (N:=XR),
  build true P_MOMIC 6 (newNucl N_PAH) (newGrow G_HACA) (newOxid O_HACA) (newCoag C_HM) 0 (newTar T_NONE) (nZ 2) 100 = Ok m /\
  ~ readsTar N_PAH T_NONE /\ sizedState 6 0 (newState (N:=XR) 6 0).
Proof. eexists. split; [reflexivity|]. split; [intros [H|[H|H]]; try discriminate; now apply H|]. repeat split; cbn; auto with arith. Qed.
