(** C96: surface growth integrated in time. *)
From Coq Require Import ZArith List Bool Reals.
From Verif Require Import Num Defs State Coag Nucl Growth Oxid Tar SootModel Qmom Calls XR SpecChem SpecCoag SpecValid SpecRates SpecPsd SpecSect SpecQmom SpecStep SpecFinite SpecMarch SpecGrow ValidProofs GrowMain GrowCases.
Import ListNotations.
Local Open Scope R_scope.

(** one size, steps of any length: the number never changes and the cube root of the mass grows by [h/3] a step, less
    an error of at most [h^2/(9 M1^(1/3))] a step; such a time loop exists *)
Theorem C96_mono : forall gr F c (m : model (N:=XR)) g dt N0 M1 eig,
  constructEnum P_MONO 2 N_NONE gr O_NONE C_NONE 0 T_NONE (Fin F) c = Ok m -> ageless gr -> physical g ->
  0 < dt -> 0 < N0 -> 0 < M1 ->
  let h := growStep dt (growFormula gr g N0 M1) N0 in
  (exists y, y 0%nat = [N0; M1] /\ marches m 2 g dt eig y) /\
  forall y, y 0%nat = [N0; M1] -> marches m 2 g dt eig y -> forall i,
    el (y i) 0 = N0 /\ 0 < el (y i) 1 /\ Rpower M1 (1 / 3) + INR i * (h / 3) - INR i * (h ^ 2 / (9 * Rpower M1 (1 / 3))) <= Rpower (el (y i) 1) (1 / 3) <= Rpower M1 (1 / 3) + INR i * (h / 3).
Proof. exact C96_mono_. Qed.
Print Assumptions C96_mono.
(** as the steps get shorter, the mass reached at time [t] tends to the exact solution of the growth law *)
Theorem C96_exact : forall gr F c (m : model (N:=XR)) g t N0 M1 (eig : nat -> nat -> eigSolver (N:=XR)),
  constructEnum P_MONO 2 N_NONE gr O_NONE C_NONE 0 T_NONE (Fin F) c = Ok m -> ageless gr -> physical g ->
  0 < t -> 0 < N0 -> 0 < M1 ->
  exists f, f 0 = M1 /\ growthLaw (growFormula gr g N0 M1) N0 f /\
    forall y, (forall n, y n 0%nat = [N0; M1] /\ marches m 2 g (t / INR (S n)) (eig n) (y n)) -> Un_cv (fun n => el (y n (S n)) 1) (f t).
Proof. exact C96_exact_. Qed.
Print Assumptions C96_exact.
(** sections: with steps short enough no number is ever negative, but the mass grows at least geometrically and the number
    without bound, although growth makes no particles *)
Theorem C96_sect : forall n gr F c (m : model (N:=XR)) g dt y0 eig,
  constructEnum P_SECT n N_NONE gr O_NONE C_NONE 0 T_NONE (Fin F) c = Ok m -> doubleAbove1 F -> (0 < c)%Z -> SpecSect.sane n -> ageless gr -> physical g ->
  let b := geometric c F n in let K := growFormula gr g 1 1 in 0 < dt -> length y0 = n -> (forall x, In x y0 -> 0 <= x) -> 0 < mass b y0 ->
  0 < K -> (forall j, (S j < n)%nat -> dt * (K * sphere (el b j) / (el b (S j) - el b j)) <= 1) ->
  (exists y, y 0%nat = y0 /\ marches m n g dt eig y) /\
  forall y, y 0%nat = y0 -> marches m n g dt eig y ->
    (forall i, (forall x, In x (y i) -> 0 <= x) /\ (1 + dt * (K * sphere (el b (n - 1)) / el b (n - 1))) ^ i * mass b y0 <= mass b (y i)) /\
    forall B, exists i0, forall i, (i0 <= i)%nat -> B <= number (y i).
Proof. exact C96_sect_. Qed.
Print Assumptions C96_sect.

(** the LIN model in the example gas *)
Example C96_mono_case : exists m : model (N:=XR), constructEnum P_MONO 2 N_NONE G_LIN O_NONE C_NONE 0 T_NONE (Fin 2) 100 = Ok m /\ ageless G_LIN /\ physical demoGas /\ 0 < growFormula G_LIN demoGas 1 1.
Proof. exact mono_grows. Qed.
Example C96_sect_case : exists (m : model (N:=XR)) dt, let b := geometric 100 2 4 in
  constructEnum P_SECT 4 N_NONE G_LIN O_NONE C_NONE 0 T_NONE (Fin 2) 100 = Ok m /\ doubleAbove1 2 /\ SpecSect.sane 4 /\ ageless G_LIN /\ physical demoGas /\ 0 < growFormula G_LIN demoGas 1 1 /\ 0 < dt /\
  0 < mass b [1; 0; 1; 0] /\ forall j, (S j < 4)%nat -> dt * (growFormula G_LIN demoGas 1 1 * sphere (el b j) / (el b (S j) - el b j)) <= 1.
Proof. exact sect_grows. Qed.
