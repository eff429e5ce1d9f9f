(** C63: finite source terms. *)
From Coq Require Import ZArith List Bool Reals Lra Lia.
From Verif Require Import Num Defs State Coag Nucl Growth Oxid Tar SootModel Qmom Calls XR SpecConfig SpecValid SpecRates SpecPah SpecPsd SpecSect SpecMomic SpecFinite StateXR ValidProofs MonoMain MomicCases FiniteMain.
Import ListNotations.
Local Open Scope R_scope.

(** every source is finite after any number of good time steps, whatever the eigenvalue solver returns *)
Theorem C63_history : forall p n nu gr ox co nt ta F c (m : model (N:=XR)) l,
  goodConfig p n nu co ta F c -> constructEnum p n nu gr ox co nt ta (Fin F) c = Ok m ->
  (forall x, In x l -> goodStep p (mkMechs nu gr ox co 1) (geometric c F n) n nt x) ->
  exists st' m' s', runActions (None, m, newState n nt) (actionsOf l) = Ok (st', m', s') /\ finiteSources m'.
Proof. exact C63_history_. Qed.
Print Assumptions C63_history.
(** MOMIC with free-molecular or harmonic-mean coagulation: soot with one vanished moment gives NaN *)
Theorem C63_momic_refuted : forall n nu gr ox co nt ta F c (m : model (N:=XR)) l g soot tar eig,
  let k := mkMechs nu gr ox co 1 in
  goodConfig P_MOMIC n nu co ta F c -> nu <> N_PAH -> co <> C_CONTINUUM -> constructEnum P_MOMIC n nu gr ox co nt ta (Fin F) c = Ok m ->
  (forall x, In x l -> goodStep P_MOMIC k (geometric c F n) n nt x) ->
  physical g -> length soot = n -> length tar = nt -> (forall y, In y soot -> 0 <= y) -> (forall y, In y tar -> 0 <= y) ->
  regular k g (el soot 0) (el soot 1) -> 0 < el soot 0 -> In 0 soot ->
  exists st' m' s', runActions (None, m, newState n nt) (actionsOf l ++ [setTo g soot tar; ASrc eig]) = Ok (st', m', s') /\ nth_error (soots m') 0 = Some NaN.
Proof. exact C63_spoilt. Qed.
Print Assumptions C63_momic_refuted.

(** cases: MOMIC in the free-molecular regime, soot that appears, vanishes, and loses one moment *)
Example C63_case : forall eig, exists (m : model (N:=XR)),
  let k := mkMechs N_LL G_LL O_LL C_FM 1 in let b := geometric 100 2 4 in
  goodConfig P_MOMIC 4 N_LL C_FM T_NONE 2 100 /\ constructEnum P_MOMIC 4 N_LL G_LL O_LL C_FM 0 T_NONE (Fin 2) 100 = Ok m /\
  (forall x, In x [mkStep demoGas [2; 3; 7; 50] [] eig; mkStep demoGas [0; 0; 0; 0] [] eig] -> goodStep P_MOMIC k b 4 0 x) /\
  (let soot := [2; 3; 0; 50] in (forall y, In y soot -> 0 <= y) /\ regular k demoGas (el soot 0) (el soot 1) /\ 0 < el soot 0 /\ In 0 soot).
Proof.
  intro eig. destruct (momic_case N_LL C_FM [2; 3; 7; 50]) as (m & s & E & _); auto; [cbn; split; repeat constructor|intros y [<-|[<-|[<-|[<-|[]]]]]; lra|].
  exists m. intros k b.
  assert (RG : forall a d, regular k demoGas a d) by (intros a d [H|H]; discriminate H).
  split; [split; [left; repeat split; discriminate|split; [reflexivity|cbn; lia]]|]. split; [exact E|]. split.
  - intros x [<-|[<-|[]]]; (split; [exact demo_physical|]); (split; [reflexivity|]); (split; [reflexivity|]);
      (split; [cbn [spSoot]; intros y [<-|[<-|[<-|[<-|[]]]]]; lra|]); (split; [intros y []|]); (split; [apply RG|]); (split; [discriminate|]); intros _;
      [right; intros y [<-|[<-|[<-|[<-|[]]]]]; lra|left; reflexivity].
  - intros soot. split; [intros y [<-|[<-|[<-|[<-|[]]]]]; lra|]. split; [apply RG|]. split; [cbn; lra|]. right; right; left; reflexivity.
Qed.
(** PAH nucleation with sections *)
Example C63_sect_case : forall eig, exists (m : model (N:=XR)),
  goodConfig P_SECT 3 N_PAH C_HM T_NONE 2 100 /\ constructEnum P_SECT 3 N_PAH G_HACA O_LL C_HM 0 T_NONE (Fin 2) 100 = Ok m /\
  goodStep P_SECT (mkMechs N_PAH G_HACA O_LL C_HM 1) (geometric 100 2 3) 3 0 (mkStep demoGas [0; 0; 0] [] eig).
Proof.
  intro eig. eexists. split; [split; [right; reflexivity|split; [reflexivity|]]|split; [reflexivity|]].
  - split; [unfold doubleAbove1; assert (0 < / 2 ^ 52 <= 1) by (split; [apply Rinv_0_lt_compat, pow_lt; lra|rewrite <- Rinv_1; apply Rinv_le_contravar; [lra|apply pow_R1_Rle; lra]]); lra|]. split; [lia|]. split; [lia|]. discriminate.
  - split; [exact demo_physical|]. split; [reflexivity|]. split; [reflexivity|]. split; [intros y [<-|[<-|[<-|[]]]]; lra|]. split; [intros y []|].
    split; [|exact I]. intros _ (H & _). cbn [soot0 spSoot] in H. unfold number in H. cbn in H. lra.
Qed.
