(** C66: the direction in which each process moves the soot. *)
From Coq Require Import ZArith List Bool Reals Lra Lia.
From Verif Require Import Num Defs State Coag Nucl Growth Oxid Tar SootModel Qmom Calls XR SpecConfig SpecValid SpecRates SpecGas SpecPah SpecPsd SpecSect SpecMomic SpecFinite SpecScale SpecSigns StateXR ValidProofs MonoMain MomicCases ScaleMain SignsMain.
Import ListNotations.
Local Open Scope R_scope.

(** after any history the sources are those of nucleation, growth, oxidation and coagulation, each
    pointing in its direction, whatever the amount of soot *)
Theorem C66_processes : forall p n nu gr ox co nt ta F c (m : model (N:=XR)) g soot tar eig,
  let k := mkMechs nu gr ox co 1 in let b := geometric c F n in
  goodConfig p n nu co ta F c -> nu <> N_PAH -> constructEnum p n nu gr ox co nt ta (Fin F) c = Ok m ->
  goodStep p k b n nt (mkStep g soot tar eig) -> someSoot p soot ->
  exists B O C GB GO, (offs k B O C GB GO /\ directions p b n (nuclSource p k g b) B O C) /\
  forall l a, 0 < a -> (forall x, In x l -> goodStep p k b n nt x) ->
    exists st' m' s', runActions (None, m, newState n nt) (actionsOf l ++ [setTo g (scaled a soot) tar; ASrc eig]) = Ok (st', m', s') /\
      parts k n (nuclSource p k g b) (nuclGasSource k g) B O C GB GO a m'.
Proof. exact C66_. Qed.
Print Assumptions C66_processes.
(** so the mechanisms in use tell the signs of the sources a call returns *)
Theorem C66_signs : forall p n nu gr ox co nt ta F c (m : model (N:=XR)) g soot tar eig,
  let k := mkMechs nu gr ox co 1 in let b := geometric c F n in
  goodConfig p n nu co ta F c -> nu <> N_PAH -> constructEnum p n nu gr ox co nt ta (Fin F) c = Ok m ->
  goodStep p k b n nt (mkStep g soot tar eig) -> someSoot p soot ->
  forall l, (forall x, In x l -> goodStep p k b n nt x) ->
    exists st' m' s' y, runActions (None, m, newState n nt) (actionsOf l ++ [setTo g soot tar; ASrc eig]) = Ok (st', m', s') /\
      soots m' = map (fun j => Fin (y j)) (seq 0 n) /\ directed p b n k y.
Proof. exact C66_directed_. Qed.
Print Assumptions C66_signs.

(** a sectional model that coagulates and burns; moments that coagulate *)
Example C66_case : forall eig, exists (m : model (N:=XR)),
  goodConfig P_SECT 3 N_NONE C_FUCHS T_NONE 2 100 /\ constructEnum P_SECT 3 N_NONE G_NONE O_NSC_NEOH C_FUCHS 0 T_NONE (Fin 2) 100 = Ok m /\
  goodStep P_SECT (mkMechs N_NONE G_NONE O_NSC_NEOH C_FUCHS 1) (geometric 100 2 3) 3 0 (mkStep demoGas [1; 2; 3] [] eig) /\ someSoot P_SECT [1; 2; 3].
Proof.
  intro eig. eexists. split; [split; [left; repeat split; discriminate|split; [reflexivity|]]|split; [reflexivity|]].
  - split; [unfold doubleAbove1; assert (0 < / 2 ^ 52 <= 1) by (split; [apply Rinv_0_lt_compat, pow_lt; lra|rewrite <- Rinv_1; apply Rinv_le_contravar; [lra|apply pow_R1_Rle; lra]]); lra|]. split; [lia|]. split; [lia|]. discriminate.
  - split; [|exact I]. split; [exact demo_physical|]. split; [reflexivity|]. split; [reflexivity|]. split; [intros y [<-|[<-|[<-|[]]]]; lra|]. split; [intros y []|].
    split; [|exact I]. intros [H|H]; discriminate H.
Qed.
Example C66_qmom_case : forall eig, exists (m : model (N:=XR)),
  goodConfig P_QMOM 4 N_NONE C_HM T_NONE 2 100 /\ constructEnum P_QMOM 4 N_NONE G_NONE O_NONE C_HM 0 T_NONE (Fin 2) 100 = Ok m /\
  goodStep P_QMOM (mkMechs N_NONE G_NONE O_NONE C_HM 1) (geometric 100 2 4) 4 0 (mkStep demoGas [2; 3; 7; 50] [] eig) /\ someSoot P_QMOM [2; 3; 7; 50].
Proof.
  intro eig. eexists. split; [split; [left; repeat split; discriminate|split; [reflexivity|]]|split; [reflexivity|]].
  - right. lia.
  - split; [|exact I]. split; [exact demo_physical|]. split; [reflexivity|]. split; [reflexivity|]. split; [intros y [<-|[<-|[<-|[<-|[]]]]]; lra|]. split; [intros y []|].
    split; [|exact I]. intros [H|H]; discriminate H.
Qed.
