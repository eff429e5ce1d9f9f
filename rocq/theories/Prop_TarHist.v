(** C63: time loops of MONO with a tar mechanism. *)
From Coq Require Import ZArith List Bool Reals Lra Lia.
From Verif Require Import Num Defs State Coag Nucl Growth Oxid Tar SootModel Qmom Calls XR SpecValid SpecRates SpecPah SpecPsd SpecSect SpecMomic SpecFinite SpecSign ValidProofs MonoMain MomicCases TarHistMain.
Import ListNotations.
Local Open Scope R_scope.

(** the molar mass of tar set to a positive number: any number of steps, soot variables of any sign; AJ_RED must not see
    soot mass without soot particles *)
Theorem C63_tar : forall nu gr ox co nt ta F c (m : model (N:=XR)) mt yt,
  constructEnum P_MONO 2 nu gr ox co nt ta F c = Ok m -> nu <> N_PAH -> ta = T_BROWN \/ ta = T_AJ_RED -> (1 <= nt)%nat -> 0 < mt ->
  forall l, (forall x, In x l -> anySign P_MONO (mkMechs nu gr ox co 1) [] 2 nt x /\ (ta = T_AJ_RED -> 0 < el (spSoot x) 0 \/ el (spSoot x) 1 <= 0)) ->
  exists st' m' s', runActions (None, m, with_my (newState 2 nt) (Fin mt) (Fin yt)) (actionsOf l) = Ok (st', m', s') /\ finiteSources m'.
Proof. exact tar_history_. Qed.
Print Assumptions C63_tar.
(** AJ_RED with soot mass but no (or a negative number of) soot particles: mass source and tar source are NaN *)
Theorem C63_tar_refuted : forall nu gr ox co nt ta F c (m : model (N:=XR)) mt yt,
  constructEnum P_MONO 2 nu gr ox co nt ta F c = Ok m -> nu <> N_PAH -> ta = T_BROWN \/ ta = T_AJ_RED -> (1 <= nt)%nat -> 0 < mt ->
  forall l g soot tar eig, ta = T_AJ_RED ->
  (forall x, In x l -> anySign P_MONO (mkMechs nu gr ox co 1) [] 2 nt x /\ (0 < el (spSoot x) 0 \/ el (spSoot x) 1 <= 0)) ->
  anySign P_MONO (mkMechs nu gr ox co 1) [] 2 nt (mkStep g soot tar eig) -> el soot 0 <= 0 -> 0 < el soot 1 ->
  exists st' m' s' x r, runActions (None, m, with_my (newState 2 nt) (Fin mt) (Fin yt)) (actionsOf l ++ [setTo g soot tar; ASrc eig]) = Ok (st', m', s') /\
    soots m' = [Fin x; NaN] /\ tarSources (sm_sources m') = NaN :: r.
Proof. exact tar_spoilt_. Qed.
Print Assumptions C63_tar_refuted.

(** a case: tar nucleation and all other mechanisms on; soot, then soot whose mass has become negative, then mass without number *)
Example C63_tar_case : forall eig, exists m : model (N:=XR),
  let k := mkMechs N_AJ_RED G_LL O_LL C_FM 1 in
  constructEnum P_MONO 2 N_AJ_RED G_LL O_LL C_FM 1 T_AJ_RED (Fin 2) 100 = Ok m /\
  (forall x, In x [mkStep demoGas [2; 1] [3] eig; mkStep demoGas [2; -1] [3] eig] -> anySign P_MONO k [] 2 1 x /\ (0 < el (spSoot x) 0 \/ el (spSoot x) 1 <= 0)) /\
  anySign P_MONO k [] 2 1 (mkStep demoGas [0; 1] [3] eig) /\ el [0; 1] 0 <= 0 /\ 0 < el [0; 1] 1.
Proof.
  intros eig. eexists. cbv zeta. split; [reflexivity|].
  assert (A : forall y, length y = 2%nat -> anySign P_MONO (mkMechs N_AJ_RED G_LL O_LL C_FM 1) [] 2 1 (mkStep demoGas y [3] eig)).
  { intros y L. split; [exact demo_physical|]. split; [exact L|]. split; [reflexivity|]. split; [intros z [<-|[]]; lra|]. intros [H|H]; discriminate H. }
  split; [intros x [<-|[<-|[]]]; (split; [now apply A|cbn; lra])|]. split; [now apply A|]. cbn. lra.
Qed.
