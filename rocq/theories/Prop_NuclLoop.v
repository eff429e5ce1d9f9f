(** C97: nucleation and coagulation integrated in time. *)
From Coq Require Import ZArith List Bool Reals Lra Lia.
From Verif Require Import Num Defs State Coag Nucl Growth Oxid Tar SootModel Qmom Calls XR SpecChem SpecValid SpecRates SpecPsd SpecSect SpecStep SpecFinite SpecNuclLoop ValidProofs MonoMain CoagProofs RateProofs MonoCases NuclLoopMain.
Import ListNotations.
Local Open Scope R_scope.

(** every start (of any sign), every sequence of gas states and step lengths, every eigen-solver: the loop runs for ever, and its soot
    mass is the initial mass plus that of the nuclei formed *)
Theorem C97_mass : forall p n nu co F c (m : model (N:=XR)),
  goodConfig p n nu co T_NONE F c -> gasOnly nu -> (p = P_MOMIC -> co = C_CONTINUUM) ->
  constructEnum p n nu G_NONE O_NONE co 0 T_NONE (Fin F) c = Ok m ->
  forall (g : nat -> gas) (dt : nat -> R) eig, (forall i, physical (g i)) ->
  let b := geometric c F n in forall y0, length y0 = n ->
  (exists y, y 0%nat = y0 /\ integrates m n g dt eig y) /\
  forall y, y 0%nat = y0 -> integrates m n g dt eig y -> forall i, soot1 p b (y i) = soot1 p b y0 + nucleated nu g dt i.
Proof. exact C97_. Qed.
Print Assumptions C97_mass.

(** a case: quadrature with nucleation and free-molecular coagulation, where nuclei do form *)
Example C97_case : exists m : model (N:=XR),
  goodConfig P_QMOM 4 N_LL C_FM T_NONE 2 100 /\ gasOnly N_LL /\ constructEnum P_QMOM 4 N_LL G_NONE O_NONE C_FM 0 T_NONE (Fin 2) 100 = Ok m /\
  physical demoGas /\ 0 < nucleated N_LL (fun _ => demoGas) (fun _ => 1) 1.
Proof.
  eexists. assert (G : gasOnly N_LL) by (repeat split; discriminate). split; [split; [now left|split; [reflexivity|right; lia]]|]. split; [exact G|]. split; [reflexivity|]. split; [exact demo_physical|].
  unfold nucleated, Sum. cbn [seq map sumR fold_right]. pose proof massC_pos. pose proof avo_pos.
  assert (0 < molarMass C2H2) by (unfold molarMass, massC, massH; cbn; lra).
  assert (P : 0 < nuclFormula N_LL demoGas) by (unfold nuclFormula, perParticle, conc; cbn [gT gRho gY gCMin demoGas]; mpos).
  assert (0 < gCMin demoGas * massC / avogadro) by (cbn [gCMin demoGas]; mpos).
  assert (0 < nuclFormula N_LL demoGas * (gCMin demoGas * massC / avogadro)) by now apply Rmult_lt_0_compat. lra.
Qed.
