(** C65: the sources as a function of the amount of soot. *)
From Coq Require Import ZArith List Bool Reals Lra Lia.
From Verif Require Import Num Defs State Coag Nucl Growth Oxid Tar SootModel Qmom Calls XR SpecConfig SpecValid SpecRates SpecGas SpecPah SpecPsd SpecSect SpecMomic SpecFinite SpecScale StateXR ValidProofs MonoMain MomicCases ScaleMain.
Import ListNotations.
Local Open Scope R_scope.

(** after any history: nucleation does not depend on the soot, growth and oxidation are
    proportional to its amount (growth LL to the square root), coagulation to the square *)
Theorem C65_orders : forall p n nu gr ox co nt ta F c (m : model (N:=XR)) g soot tar eig,
  let k := mkMechs nu gr ox co 1 in let b := geometric c F n in
  goodConfig p n nu co ta F c -> nu <> N_PAH -> constructEnum p n nu gr ox co nt ta (Fin F) c = Ok m ->
  goodStep p k b n nt (mkStep g soot tar eig) -> someSoot p soot ->
  exists B O C GB GO, offs k B O C GB GO /\
  forall l a, 0 < a -> (forall x, In x l -> goodStep p k b n nt x) ->
    exists st' m' s', runActions (None, m, newState n nt) (actionsOf l ++ [setTo g (scaled a soot) tar; ASrc eig]) = Ok (st', m', s') /\
      parts k n (nuclSource p k g b) (nuclGasSource k g) B O C GB GO a m'.
Proof. exact C65_. Qed.
Print Assumptions C65_orders.
(** coagulation alone: [a] times the soot, [a]^2 times every source, and no gas source *)
Theorem C65_coagulation : forall p n co nt ta F c (m : model (N:=XR)) g soot tar eig,
  let k := mkMechs N_NONE G_NONE O_NONE co 1 in let b := geometric c F n in
  goodConfig p n N_NONE co ta F c -> constructEnum p n N_NONE G_NONE O_NONE co nt ta (Fin F) c = Ok m ->
  goodStep p k b n nt (mkStep g soot tar eig) -> someSoot p soot ->
  exists src, forall l a, 0 < a -> (forall x, In x l -> goodStep p k b n nt x) ->
    exists st' m' s', runActions (None, m, newState n nt) (actionsOf l ++ [setTo g (scaled a soot) tar; ASrc eig]) = Ok (st', m', s') /\
      soots m' = map (fun j => Fin (a ^ 2 * src j)) (seq 0 n) /\ holdsGas (gases m') (fun _ => 0).
Proof. exact C65_pure. Qed.
Print Assumptions C65_coagulation.

(** cases: interpolated moments after an earlier step; sections *)
Example C65_case : forall eig, exists (m : model (N:=XR)),
  let k := mkMechs N_LL G_LL O_LL C_FM 1 in let b := geometric 100 2 4 in let soot := [2; 3; 7; 50] in
  goodConfig P_MOMIC 4 N_LL C_FM T_NONE 2 100 /\ constructEnum P_MOMIC 4 N_LL G_LL O_LL C_FM 0 T_NONE (Fin 2) 100 = Ok m /\
  goodStep P_MOMIC k b 4 0 (mkStep demoGas soot [] eig) /\ someSoot P_MOMIC soot.
Proof.
  intro eig. destruct (momic_case N_LL C_FM [2; 3; 7; 50]) as (m & s & E & _); auto; [cbn; split; repeat constructor|intros y [<-|[<-|[<-|[<-|[]]]]]; lra|].
  exists m. intros k b soot. assert (AP : forall x, In x soot -> 0 < x) by (intros y [<-|[<-|[<-|[<-|[]]]]]; lra).
  split; [split; [left; repeat split; discriminate|split; [reflexivity|cbn; lia]]|]. split; [exact E|]. split; [|exact AP].
  split; [exact demo_physical|]. split; [reflexivity|]. split; [reflexivity|]. split; [intros y Hy; apply Rlt_le; auto|]. split; [intros y []|].
  split; [intros [H|H]; discriminate H|]. split; [discriminate|]. intros _. right. exact AP.
Qed.
Example C65_sect_case : forall eig, exists (m : model (N:=XR)),
  goodConfig P_SECT 3 N_NONE C_HM T_NONE 2 100 /\ constructEnum P_SECT 3 N_NONE G_NONE O_NONE C_HM 0 T_NONE (Fin 2) 100 = Ok m /\
  goodStep P_SECT (mkMechs N_NONE G_NONE O_NONE C_HM 1) (geometric 100 2 3) 3 0 (mkStep demoGas [1; 2; 3] [] eig) /\ someSoot P_SECT [1; 2; 3].
Proof.
  intro eig. eexists. split; [split; [left; repeat split; discriminate|split; [reflexivity|]]|split; [reflexivity|]].
  - split; [unfold doubleAbove1; assert (0 < / 2 ^ 52 <= 1) by (split; [apply Rinv_0_lt_compat, pow_lt; lra|rewrite <- Rinv_1; apply Rinv_le_contravar; [lra|apply pow_R1_Rle; lra]]); lra|]. split; [lia|]. split; [lia|]. discriminate.
  - split; [|exact I]. split; [exact demo_physical|]. split; [reflexivity|]. split; [reflexivity|]. split; [intros y [<-|[<-|[<-|[]]]]; lra|]. split; [intros y []|].
    split; [|exact I]. intros [H|H]; discriminate H.
Qed.
