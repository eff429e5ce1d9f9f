(** C99: the number of particles under nucleation and coagulation integrated in time. *)
From Coq Require Import ZArith List Bool Reals Lra Lia.
From Verif Require Import Num Defs State Coag Nucl Growth Oxid Tar SootModel Qmom Calls XR SpecChem SpecCoag SpecValid SpecRates SpecPsd SpecSect SpecStep SpecFinite SpecNuclLoop SpecNumLoop ValidProofs MonoMain CoagProofs RateProofs MonoCases NumLoopMain NumCont.
Import ListNotations.
Local Open Scope R_scope.

(** steps of any length and particles larger on average than the smallest that collide: the loop runs for ever, the number stays below a
    bound, which after some steps does not depend on the start, while the mass grows linearly, so the mean mass exceeds every bound *)
Theorem C99_number : forall nu co F c (m : model (N:=XR)) g dt eig,
  constructEnum P_MONO 2 nu G_NONE O_NONE co 0 T_NONE (Fin F) c = Ok m -> gasOnly nu -> co <> C_NONE -> physical g -> 0 < dt -> massCutoff <= nucMass g ->
  let J := nuclFormula nu g in let U := numberCap J (slowestCollision co g) dt in
  forall N0 M1, massCutoff * N0 < M1 ->
  (exists y, y 0%nat = [N0; M1] /\ integrates m 2 (fun _ => g) (fun _ => dt) eig y) /\
  forall y, y 0%nat = [N0; M1] -> integrates m 2 (fun _ => g) (fun _ => dt) eig y ->
    (forall i, el (y i) 0 <= Rmax N0 U /\ el (y i) 1 = M1 + INR i * (dt * (J * nucMass g))) /\
    (0 < J -> (exists i0, forall i, (i0 <= i)%nat -> el (y i) 0 <= U) /\
              forall x, 0 <= x -> exists i0, forall i, (i0 <= i)%nat -> x * el (y i) 0 <= el (y i) 1).
Proof. exact C99_. Qed.
Print Assumptions C99_number.

(** a case: nucleation by LL and the kernel of Fuchs, where nuclei do form and collide *)
Example C99_case : exists m : model (N:=XR),
  constructEnum P_MONO 2 N_LL G_NONE O_NONE C_FUCHS 0 T_NONE (Fin 2) 100 = Ok m /\ gasOnly N_LL /\ physical demoGas /\
  massCutoff < nucMass demoGas /\ massCutoff * 10 < 1 /\ 0 < nuclFormula N_LL demoGas /\ 0 < slowestCollision C_FUCHS demoGas.
Proof.
  eexists. split; [reflexivity|]. assert (G : gasOnly N_LL) by (repeat split; discriminate). split; [exact G|]. split; [exact demo_physical|].
  split; [exact nucleus_collides|]. split; [exact cut_small|]. split.
  - pose proof massC_pos. pose proof avo_pos. assert (0 < molarMass C2H2) by (unfold molarMass, massC, massH; cbn; lra).
    unfold nuclFormula, perParticle, conc; cbn [gT gRho gY gCMin demoGas]; mpos.
  - exact fuchs_collides.
Qed.

(** the kernel of the continuum regime, the harmonic mean or the kernel of Fuchs, steps that do not overshoot: the number stays positive and tends to the number at which the nuclei
    replace the particles lost by collisions of large particles, which is the same for the three kernels *)
Theorem C99_limit : forall nu co F c (m : model (N:=XR)) g dt eig, co = C_CONTINUUM \/ co = C_HM \/ co = C_FUCHS ->
  constructEnum P_MONO 2 nu G_NONE O_NONE co 0 T_NONE (Fin F) c = Ok m -> gasOnly nu -> physical g -> 0 < dt -> massCutoff <= nucMass g ->
  let J := nuclFormula nu g in 0 < J ->
  forall N0 M1, 0 < N0 -> massCutoff * N0 < M1 -> shortStep J (slowestCollision co g) (fastestCollision co g) dt N0 ->
  forall y, y 0%nat = [N0; M1] -> integrates m 2 (fun _ => g) (fun _ => dt) eig y ->
    (forall i, 0 < el (y i) 0) /\ Un_cv (fun i => el (y i) 0) (sqrt (2 * J / (8 * boltzmann * gT g / (3 * gMu g)))).
Proof. exact C99_limit_. Qed.
Print Assumptions C99_limit.

(** a case: nucleation by LL and the kernel of Fuchs in the same gas, from ten particles *)
Example C99_limit_case : exists (m : model (N:=XR)) dt,
  constructEnum P_MONO 2 N_LL G_NONE O_NONE C_FUCHS 0 T_NONE (Fin 2) 100 = Ok m /\ 0 < dt /\ massCutoff * 10 < 1 /\
  shortStep (nuclFormula N_LL demoGas) (slowestCollision C_FUCHS demoGas) (fastestCollision C_FUCHS demoGas) dt 10 /\
  forall eig, exists y, y 0%nat = [10; 1] /\ integrates m 2 (fun _ => demoGas) (fun _ => dt) eig y.
Proof. exact limit_case. Qed.
