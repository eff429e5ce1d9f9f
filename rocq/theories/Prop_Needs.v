(** Property C67: what a call depends on; for any arithmetic, binary64 included. *)
From Coq Require Import ZArith List Bool Reals Lra Lia.
From Verif Require Import Num Defs State Coag Nucl Growth Oxid Tar SootModel Calls XR XRLemmas SpecSafe SpecNeeds NeedsProofs NeedsMain SpecState StateProofs StateXR NumLaws ValidProofs.
Import ListNotations.

(** whatever the state holds: a call reads temperature, gas density, soot variables, nodes and
    cMin, and of the other fields only those that [needs] names for the mechanisms of the model.
    Everything else may be replaced: same outcome, same model, and the replaced fields stay *)
Theorem C67_fields : forall (N : Num) (o : state (N:=N)) g eig m s,
  needs m s o -> tagged m -> onlyRest o (setSourceTerms g eig m s) (setSourceTerms g eig m (mix s o)).
Proof. exact @call_mix. Qed.
Print Assumptions C67_fields.
(** after any history, two accepted setState calls that differ in gases no mechanism reads, in PAHs
    without PAH nucleation, in tar variables without tar mechanisms, in pressure or viscosity that
    neither mechanisms nor kernel use: the same sources *)
Theorem C67_arguments : forall (N : Num) p n nt nu gr ox co ta F k (m0 : model (N:=N)) l s0 g0 g m s T_ P_ P' rho mu mu' yg yg' yp yp' sv ns tv tv' nT c s1 s2 eig,
  constructEnum p n nu gr ox co nt ta F k = Ok m0 -> runActions (g0, m0, s0) l = Ok (g, m, s) ->
  setState s T_ P_ rho mu yg yp sv ns tv nT c = SetOk s1 -> setState s T_ P' rho mu' yg' yp' sv ns tv' nT c = SetOk s2 ->
  (forall sp, nuclReads nu sp = true \/ growReads gr sp = true \/ oxidReads ox sp = true \/ tarReads ta sp = true -> nth_error yg' (gasIdx sp) = nth_error yg (gasIdx sp)) ->
  (nu = N_PAH -> yp' = yp) -> (readsTar nu ta -> tv' = tv) -> (byPressure ox ta \/ byTransport p nu co -> P' = P_) -> (byTransport p nu co -> mu' = mu) ->
  onlyRest s2 (setSourceTerms g eig m s1) (setSourceTerms g eig m s2).
Proof. exact @C67_args_. Qed.
Print Assumptions C67_arguments.
(** eight gases, another pressure, against eleven: LL mechanisms, free-molecular kernel *)
Example C67_case : exists (m : model (N:=XR)) s1 s2,
  constructEnum P_QMOM 2 N_LL G_LL O_LL C_FM 0 T_NONE (nZ 2) 100 = Ok m /\
  setState (newState 2 0) (Fin 300) (Fin 1) (Fin 1) (Fin 1) (repeat (Fin 0) 11) six (map Fin [1; 1]%R) 2 [] 0 (Fin 100) = SetOk s1 /\
  setState (newState 2 0) (Fin 300) (Fin 2) (Fin 1) (Fin 1) (map Fin [0; 1; 0; 1; 1; 1; 1; 0]%R) six (map Fin [1; 1]%R) 2 [] 0 (Fin 100) = SetOk s2 /\
  ~ byPressure O_LL T_NONE /\ ~ byTransport P_QMOM N_LL C_FM /\
  forall sp, nuclReads N_LL sp = true \/ growReads G_LL sp = true \/ oxidReads O_LL sp = true \/ tarReads T_NONE sp = true ->
    nth_error (map Fin [0; 1; 0; 1; 1; 1; 1; 0]%R) (gasIdx sp) = nth_error (repeat (Fin 0) 11) (gasIdx sp).
Proof.
  destruct (accept_ok XR_cmpLaws (newState 2 0) (someArgs (Fin 300) (Fin 1) (repeat (Fin 0) 11) (map Fin [1; 1]%R) 2 [] 0)) as [s1 [E1 _]].
  { apply someArgs_accepted; try (apply xleb_false; lra); auto.
    - intros y Hy. apply repeat_spec in Hy. subst. apply xltb_false. lra.
    - apply negFrom_fin. cbn [In]; intros; lra.
    - apply (negFrom_fin _ []). contradiction. }
  { cbn; lia. } { cbn; lia. }
  destruct (accept_ok XR_cmpLaws (newState 2 0) (someArgs (Fin 300) (Fin 2) (map Fin [0; 1; 0; 1; 1; 1; 1; 0]%R) (map Fin [1; 1]%R) 2 [] 0)) as [s2 [E2 _]].
  { apply someArgs_accepted; try (apply xleb_false; lra); auto.
    - intros y Hy. apply in_map_iff in Hy. destruct Hy as (r & <- & Hr). apply xltb_false. cbn [In] in Hr. lra.
    - apply negFrom_fin. cbn [In]; intros; lra.
    - apply (negFrom_fin _ []). contradiction. }
  { cbn; lia. } { cbn; lia. }
  eexists. exists s1, s2. split; [reflexivity|]. split; [exact E1|]. split; [exact E2|]. split; [discriminate|]. split; [intros [H|(H & _)]; discriminate|].
  intros sp [H|[H|[H|H]]]; destruct sp; try discriminate H; reflexivity.
Qed.
