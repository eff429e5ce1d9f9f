(** C95: oxidation integrated in time. *)
From Coq Require Import ZArith List Bool Reals.
From Verif Require Import Num Defs State Coag Nucl Growth Oxid Tar SootModel Qmom Calls XR SpecChem SpecCoag SpecValid SpecRates SpecPsd SpecSect SpecQmom SpecStep SpecFinite SpecMarch SpecBurn ValidProofs BurnMain BurnCases.
Import ListNotations.
Local Open Scope R_scope.

(** one size, steps of any length: the number never changes; the mass falls at every step until, after at most
    [M1/h^3 + 1] steps, it is zero or negative, by no more than [4/27 h^3]; from then on nothing changes, so that
    the particles of no mass stay; such a time loop exists *)
Theorem C95_mono : forall ox F c (m : model (N:=XR)) g dt N0 M1 eig,
  constructEnum P_MONO 2 N_NONE G_NONE ox C_NONE 0 T_NONE (Fin F) c = Ok m -> ox <> O_HACA -> physical g ->
  0 < dt -> 0 < N0 -> 0 < M1 -> 0 < oxidFormula ox g N0 M1 ->
  let h := burnStep dt (oxidFormula ox g N0 M1) N0 in
  (exists y, y 0%nat = [N0; M1] /\ marches m 2 g dt eig y) /\
  forall y, y 0%nat = [N0; M1] -> marches m 2 g dt eig y ->
    (forall i, el (y i) 0 = N0) /\
    exists e, INR e * h ^ 3 < M1 + h ^ 3 /\ (forall i, (i < e)%nat -> 0 < el (y i) 1 /\ el (y (S i)) 1 < el (y i) 1) /\
      - (4 / 27) * h ^ 3 <= el (y e) 1 <= 0 /\ forall i, (e <= i)%nat -> y i = y e.
Proof. exact C95_mono_. Qed.
Print Assumptions C95_mono.
(** sections: with steps short enough, no number is ever negative, the number never rises, the mass falls at least
    geometrically, and both tend to zero *)
Theorem C95_sect : forall n ox F c (m : model (N:=XR)) g dt y0 eig,
  constructEnum P_SECT n N_NONE G_NONE ox C_NONE 0 T_NONE (Fin F) c = Ok m -> doubleAbove1 F -> (0 < c)%Z -> SpecSect.sane n -> ox <> O_HACA -> physical g ->
  let b := geometric c F n in 0 < dt -> length y0 = n -> (forall x, In x y0 -> 0 <= x) ->
  let K := oxidFormula ox g 1 1 in 0 < K -> (forall j, (j < n)%nat -> dt * (K * sphere (el b j) / gap b j) <= 1) ->
  (exists y, y 0%nat = y0 /\ marches m n g dt eig y) /\
  forall y, y 0%nat = y0 -> marches m n g dt eig y ->
    (forall i, (forall x, In x (y i) -> 0 <= x) /\ number (y (S i)) <= number (y i) /\ mass b (y i) <= (1 - dt * (K * sphere (el b (n - 1)) / el b (n - 1))) ^ i * mass b y0) /\
    Un_cv (fun i => mass b (y i)) 0 /\ Un_cv (fun i => number (y i)) 0.
Proof. exact C95_sect_. Qed.
Print Assumptions C95_sect.

(** oxidation by OH in the example gas *)
Example C95_mono_case : exists m : model (N:=XR), constructEnum P_MONO 2 N_NONE G_NONE O_MB C_NONE 0 T_NONE (Fin 2) 100 = Ok m /\ physical demoGas /\ 0 < oxidFormula O_MB demoGas 1 1.
Proof. exact mono_burns. Qed.
Example C95_sect_case : exists (m : model (N:=XR)) dt, let b := geometric 100 2 4 in
  constructEnum P_SECT 4 N_NONE G_NONE O_MB C_NONE 0 T_NONE (Fin 2) 100 = Ok m /\ doubleAbove1 2 /\ SpecSect.sane 4 /\ physical demoGas /\ 0 < oxidFormula O_MB demoGas 1 1 /\ 0 < dt /\
  0 < mass b [1; 0; 1; 0] /\ forall j, (j < 4)%nat -> dt * (oxidFormula O_MB demoGas 1 1 * sphere (el b j) / gap b j) <= 1.
Proof. exact sect_burns. Qed.
