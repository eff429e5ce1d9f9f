(** C94: coagulation integrated in time. *)
From Coq Require Import ZArith List Bool Reals.
From Verif Require Import Num Defs State Coag Nucl Growth Oxid Tar SootModel Qmom Calls XR SpecChem SpecCoag SpecValid SpecRates SpecPsd SpecSect SpecStep SpecFinite SpecMarch ValidProofs MarchMain MarchSect MarchCases.
Import ListNotations.
Local Open Scope R_scope.

(** one size: with steps short enough at the start, for ever the mass stays, the number stays positive and falls at every
    step, at least as fast as 1 over the time, and so tends to zero; such a time loop exists *)
Theorem C94_mono : forall co F c (m : model (N:=XR)) g dt N0 M1 eig,
  constructEnum P_MONO 2 N_NONE G_NONE O_NONE co 0 T_NONE (Fin F) c = Ok m -> co <> C_NONE -> physical g ->
  0 < dt -> 0 < N0 -> massCutoff < M1 / N0 -> dt * quickest co g N0 M1 < 1 ->
  (exists y, y 0%nat = [N0; M1] /\ marches m 2 g dt eig y) /\
  forall y, y 0%nat = [N0; M1] -> marches m 2 g dt eig y ->
    (forall i, el (y i) 1 = M1 /\ 0 < el (y (S i)) 0 < el (y i) 0) /\
    (exists a, 0 < a /\ forall i, / N0 + INR i * a <= / el (y i) 0) /\ Un_cv (fun i => el (y i) 0) 0.
Proof. exact C94_mono_. Qed.
Print Assumptions C94_mono.
(** sections: with steps short enough at the start, for ever no number is negative, the mass stays and the number never rises;
    but it never falls below what the largest section can hold of the mass *)
Theorem C94_sect : forall n co F c (m : model (N:=XR)) g dt y0 eig,
  constructEnum P_SECT n N_NONE G_NONE O_NONE co 0 T_NONE (Fin F) c = Ok m -> doubleAbove1 F -> (0 < c)%Z -> SpecSect.sane n -> physical g ->
  let b := geometric c F n in 0 < dt -> length y0 = n -> (forall x, In x y0 -> 0 <= x) ->
  (forall i j, (i < n)%nat -> (j < n)%nat -> dt * (kernel (coagulate co) g (el b i) (el b j) * number y0) <= 1) ->
  (exists y, y 0%nat = y0 /\ marches m n g dt eig y) /\
  forall y, y 0%nat = y0 -> marches m n g dt eig y -> forall i,
    (forall x, In x (y i) -> 0 <= x) /\ mass b (y i) = mass b y0 /\ number (y (S i)) <= number (y i) /\ mass b y0 <= el b (n - 1) * number (y i).
Proof. exact C94_sect_. Qed.
Print Assumptions C94_sect.

(** particles of mass 1, and two occupied sections out of four, for each of the four kernels *)
Example C94_mono_case : forall co, co = C_FM \/ co = C_CONTINUUM \/ co = C_HM \/ co = C_FUCHS -> exists (m : model (N:=XR)) dt,
  constructEnum P_MONO 2 N_NONE G_NONE O_NONE co 0 T_NONE (Fin 2) 100 = Ok m /\ physical demoGas /\ massCutoff < 1 / 1 /\ 0 < dt /\ dt * quickest co demoGas 1 1 < 1.
Proof. exact mono_case. Qed.
Example C94_sect_case : forall co, co = C_FM \/ co = C_CONTINUUM \/ co = C_HM \/ co = C_FUCHS -> exists (m : model (N:=XR)) dt, let b := geometric 100 2 4 in
  constructEnum P_SECT 4 N_NONE G_NONE O_NONE co 0 T_NONE (Fin 2) 100 = Ok m /\ doubleAbove1 2 /\ SpecSect.sane 4 /\ physical demoGas /\ 0 < dt /\
  0 < mass b [1; 0; 1; 0] /\ forall i j, (i < 4)%nat -> (j < 4)%nat -> dt * (kernel (coagulate co) demoGas (el b i) (el b j) * number [1; 0; 1; 0]) <= 1.
Proof. exact sect_case. Qed.
