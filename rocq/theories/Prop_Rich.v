(** C70: what one gas species does to the soot sources. *)
From Coq Require Import ZArith List Reals Lra Lia.
From Verif Require Import Num Defs State Growth Nucl Oxid Coag Tar SootModel Calls XR SpecConfig SpecChem SpecValid SpecRates SpecPsd SpecSect SpecBinomial SpecMomic SpecFrame SpecFinite SpecScale SpecSigns SpecRich
  ValidProofs MonoMain MomicFinal RichMain RichCases.
Import ListNotations.
Local Open Scope R_scope.

(** more acetylene or benzene lowers no moment of the soot sources, whatever the histories before
    the two calls *)
Theorem C70_fuel : forall p n nu gr ox co nt ta F c (m : model (N:=XR)) g g' soot tar eig sp l l',
  let k := mkMechs nu gr ox co 1 in let b := geometric c F n in
  goodConfig p n nu co ta F c -> constructEnum p n nu gr ox co nt ta (Fin F) c = Ok m -> someSoot p soot ->
  goodStep p k b n nt (mkStep g soot tar eig) -> goodStep p k b n nt (mkStep g' soot tar eig) ->
  (forall x, In x l -> goodStep p k b n nt x) -> (forall x, In x l' -> goodStep p k b n nt x) ->
  richer sp g g' -> sp = C2H2 \/ sp = C6H6 ->
  exists st1 m1 s1 q1 st2 m2 s2 q2,
    runActions (None, m, newState n nt) (actionsOf l ++ [setTo g soot tar; ASrc eig]) = Ok (st1, m1, s1) /\ sourcesAre n m1 q1 /\
    runActions (None, m, newState n nt) (actionsOf l' ++ [setTo g' soot tar; ASrc eig]) = Ok (st2, m2, s2) /\ sourcesAre n m2 q2 /\
    momentsLe p b n q1 q2.
Proof. exact C70_fuel_. Qed.
Print Assumptions C70_fuel.

(** more oxygen raises none; nor does more OH, unless growth is by HACA *)
Theorem C70_oxidiser : forall p n nu gr ox co nt ta F c (m : model (N:=XR)) g g' soot tar eig sp l l',
  let k := mkMechs nu gr ox co 1 in let b := geometric c F n in
  goodConfig p n nu co ta F c -> constructEnum p n nu gr ox co nt ta (Fin F) c = Ok m -> someSoot p soot ->
  goodStep p k b n nt (mkStep g soot tar eig) -> goodStep p k b n nt (mkStep g' soot tar eig) ->
  (forall x, In x l -> goodStep p k b n nt x) -> (forall x, In x l' -> goodStep p k b n nt x) ->
  richer sp g g' -> sp = O2 \/ sp = OH /\ gr <> G_HACA ->
  exists st1 m1 s1 q1 st2 m2 s2 q2,
    runActions (None, m, newState n nt) (actionsOf l ++ [setTo g soot tar; ASrc eig]) = Ok (st1, m1, s1) /\ sourcesAre n m1 q1 /\
    runActions (None, m, newState n nt) (actionsOf l' ++ [setTo g' soot tar; ASrc eig]) = Ok (st2, m2, s2) /\ sourcesAre n m2 q2 /\
    momentsLe p b n q2 q1.
Proof. exact C70_oxidiser_. Qed.
Print Assumptions C70_oxidiser.

(** with HACA growth OH, which also makes surface radicals, can start growth *)
Theorem C70_oh_refuted : forall eig, exists (m : model (N:=XR)) g g' st1 m1 s1 q1 st2 m2 s2 q2, physical g /\ physical g' /\ richer OH g g' /\
  constructEnum P_MONO 2 N_NONE G_HACA O_NONE C_NONE 0 T_NONE (Fin 2) 100 = Ok m /\
  runActions (None, m, newState 2 0) [setTo g [1; 1] []; ASrc eig] = Ok (st1, m1, s1) /\ sourcesAre 2 m1 q1 /\
  runActions (None, m, newState 2 0) [setTo g' [1; 1] []; ASrc eig] = Ok (st2, m2, s2) /\ sourcesAre 2 m2 q2 /\ q1 1%nat = 0 /\ 0 < q2 1%nat.
Proof. exact C70_oh_refuted_. Qed.
Print Assumptions C70_oh_refuted.

(** cases: twice the acetylene, or the oxygen, of a gas; interpolated moments, and sections with PAH nucleation *)
Example C70_case : forall eig sp, exists (m : model (N:=XR)),
  let k := mkMechs N_LL G_LL O_NSC_NEOH C_HM 1 in let b := geometric 100 2 4 in let soot := [2; 3; 7; 50] in
  goodConfig P_MOMIC 4 N_LL C_HM T_NONE 2 100 /\ constructEnum P_MOMIC 4 N_LL G_LL O_NSC_NEOH C_HM 0 T_NONE (Fin 2) 100 = Ok m /\ someSoot P_MOMIC soot /\
  goodStep P_MOMIC k b 4 0 (mkStep demoGas soot [] eig) /\ goodStep P_MOMIC k b 4 0 (mkStep (more sp) soot [] eig) /\ richer sp demoGas (more sp).
Proof.
  intros eig sp. eexists. intros k b soot. assert (AP : forall x, In x soot -> 0 < x) by (intros y [<-|[<-|[<-|[<-|[]]]]]; lra).
  assert (GS : forall g, physical g -> goodStep P_MOMIC k b 4 0 (mkStep g soot [] eig)).
  { intros g PG. split; [exact PG|]. split; [reflexivity|]. split; [reflexivity|]. split; [intros y Hy; apply Rlt_le; auto|]. split; [intros y []|].
    split; [intros [H|H]; discriminate H|]. split; [discriminate|]. intros _. right. exact AP. }
  split; [split; [left; repeat split; discriminate|split; [reflexivity|cbn; lia]]|]. split; [reflexivity|]. split; [exact AP|].
  split; [apply GS, demo_physical|]. split; [apply GS, more_physical|apply more_richer].
Qed.
Example C70_sect_case : forall eig sp, exists (m : model (N:=XR)),
  let k := mkMechs N_PAH G_HACA O_HACA C_HM 1 in let b := geometric 100 2 3 in let soot := [1; 2; 3] in
  goodConfig P_SECT 3 N_PAH C_HM T_NONE 2 100 /\ constructEnum P_SECT 3 N_PAH G_HACA O_HACA C_HM 0 T_NONE (Fin 2) 100 = Ok m /\ someSoot P_SECT soot /\
  goodStep P_SECT k b 3 0 (mkStep demoGas soot [] eig) /\ goodStep P_SECT k b 3 0 (mkStep (more sp) soot [] eig) /\ richer sp demoGas (more sp).
Proof.
  intros eig sp. eexists. intros k b soot.
  assert (GS : forall g, physical g -> gT g = 1800 -> goodStep P_SECT k b 3 0 (mkStep g soot [] eig)).
  { intros g PG ET. split; [exact PG|]. split; [reflexivity|]. split; [reflexivity|]. split; [intros y [<-|[<-|[<-|[]]]]; lra|]. split; [intros y []|].
    split; [|exact I]. cbn [spGas spSoot]. intros _ (_ & _ & A). unfold hacaA in A. rewrite ET in A. lra. }
  split; [split; [right; reflexivity|split; [reflexivity|]]|split; [reflexivity|]].
  - split; [unfold doubleAbove1; assert (0 < / 2 ^ 52 <= 1) by (split; [apply Rinv_0_lt_compat, pow_lt; lra|rewrite <- Rinv_1; apply Rinv_le_contravar; [lra|apply pow_R1_Rle; lra]]); lra|]. split; [lia|]. split; [lia|]. discriminate.
  - split; [exact I|]. split; [apply GS; [apply demo_physical|reflexivity]|]. split; [apply GS; [apply more_physical|reflexivity]|apply more_richer].
Qed.
