(** C89: closed vessels integrated with any explicit method. *)
From Coq Require Import ZArith List Bool Reals Lra Lia.
From Verif Require Import Num Defs State Coag Nucl Growth Oxid Tar SootModel Calls XR SpecChem SpecValid SpecRates SpecGas SpecPsd SpecSect SpecFinite SpecVessel VesselProofs.
Import ListNotations.
Local Open Scope R_scope.

(** every linear combination of the rates met so far leaves mass and atoms unchanged *)
Theorem C89_conserved : forall p n nt nu gr ox co ta F c (m : model (N:=XR)),
  goodConfig p n nu co ta F c -> gasOnly nu -> constructEnum p n nu gr ox co nt ta (Fin F) c = Ok m ->
  let b := geometric c F n in let ok := goodStep p (mkMechs nu gr ox co 1) b n nt in
  forall v hist rs cs, visited ok n nt m v hist rs -> sameContent p b n v (combined v cs rs).
Proof. exact conserved. Qed.
Print Assumptions C89_conserved.
(** as long as the content is acceptable the next evaluation returns finite rates *)
Theorem C89_goes_on : forall p n nt nu gr ox co ta F c (m : model (N:=XR)),
  goodConfig p n nu co ta F c -> gasOnly nu -> constructEnum p n nu gr ox co nt ta (Fin F) c = Ok m ->
  let ok := goodStep p (mkMechs nu gr ox co 1) (geometric c F n) n nt in
  forall v hist rs cs ct, visited ok n nt m v hist rs -> ok (evaluation n nt ct (combined v cs rs)) ->
  exists r, visited ok n nt m v (hist ++ [evaluation n nt ct (combined v cs rs)]) (r :: rs).
Proof. exact goes_on. Qed.
Print Assumptions C89_goes_on.
(** soot never exceeds the carbon of the vessel *)
Theorem C89_carbon : forall p n nt nu gr ox co ta F c (m : model (N:=XR)),
  goodConfig p n nu co ta F c -> gasOnly nu -> constructEnum p n nu gr ox co nt ta (Fin F) c = Ok m ->
  let b := geometric c F n in let ok := goodStep p (mkMechs nu gr ox co 1) b n nt in
  forall v hist rs cs, visited ok n nt m v hist rs -> (forall sp, 0 <= vGas (combined v cs rs) sp) ->
  sootMass p b n (combined v cs rs) <= massC * element atomsC (vGas v) + sootMass p b n v.
Proof. exact carbon_limit. Qed.
Print Assumptions C89_carbon.

(** case: a monodisperse model and a vessel with soot, acetylene and oxygen; one evaluation can be made *)
Example C89_case : forall eig, exists (m : model (N:=XR)) r,
  goodConfig P_MONO 2 N_LL C_FM T_NONE 2 100 /\ gasOnly N_LL /\ constructEnum P_MONO 2 N_LL G_LL O_LL C_FM 0 T_NONE (Fin 2) 100 = Ok m /\
  visited (goodStep P_MONO (mkMechs N_LL G_LL O_LL C_FM 1) (geometric 100 2 2) 2 0) 2 0 m someVessel
    ([] ++ [evaluation 2 0 (mkControl 1800 101325 (1 / 20000) eig) (combined someVessel [] [])]) [r].
Proof.
  intros eig.
  assert (G : gasOnly N_LL) by (repeat split; discriminate).
  assert (GC : goodConfig P_MONO 2 N_LL C_FM T_NONE 2 100) by (split; [now left|split; [reflexivity|exact I]]).
  destruct (constructEnum (N:=XR) P_MONO 2 N_LL G_LL O_LL C_FM 0 T_NONE (Fin 2) 100) as [m| |] eqn:E; try discriminate E.
  destruct (goes_on P_MONO 2 0 N_LL G_LL O_LL C_FM T_NONE 2 100 m GC G E someVessel [] [] [] (mkControl 1800 101325 (1 / 20000) eig) (first _ _ _ _ _)) as (r & V).
  - cbn [combined]. assert (D : density someVessel = 11 / 50) by (unfold density, total, someVessel; cbn [vRest vGas]; lra).
    unfold evaluation. rewrite D. split; [|split; [reflexivity|split; [reflexivity|split; [|split; [intros y []|split; [intros [H|H]; discriminate H|exact I]]]]]].
    + split; [|split].
      * unfold okGas. cbn [spGas gT gP gRho gMu gCMin gY gPah cT cP cMu]. repeat (split; [lra|]). split; [intros sp; destruct sp; cbn [vGas someVessel]; lra|intros; lra].
      * cbn [spGas gY vGas someVessel]. intros sp. destruct sp; lra.
      * cbn. lra.
    + cbn [spSoot soot seq map vSoot someVessel]. intros y [<-|[<-|[]]]; apply pos_INR.
  - exists m, r. auto.
Qed.
