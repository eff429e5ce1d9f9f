(** C96: growth by Leung and Lindstedt integrated in time. *)
From Coq Require Import ZArith List Bool Reals.
From Verif Require Import Num Defs State Coag Nucl Growth Oxid Tar SootModel Qmom Calls XR SpecChem SpecCoag SpecValid SpecRates SpecPsd SpecSect SpecQmom SpecStep SpecFinite SpecMarch SpecGrow SpecGrowLL ValidProofs GrowLL.
Import ListNotations.
Local Open Scope R_scope.

(** one size, steps of any length: the number never changes and the 2/3 power of the mass grows by [2h/3] a step, less
    an error of at most [h^2/(9 M1^(2/3))] a step; such a time loop exists *)
Theorem C96_ll : forall F c (m : model (N:=XR)) g dt N0 M1 eig,
  constructEnum P_MONO 2 N_NONE G_LL O_NONE C_NONE 0 T_NONE (Fin F) c = Ok m -> physical g ->
  0 < dt -> 0 < N0 -> 0 < M1 ->
  let h := llStep dt g N0 in
  (exists y, y 0%nat = [N0; M1] /\ marches m 2 g dt eig y) /\
  forall y, y 0%nat = [N0; M1] -> marches m 2 g dt eig y -> forall i,
    el (y i) 0 = N0 /\ 0 < el (y i) 1 /\
    Rpower M1 (2 / 3) + INR i * (2 * h / 3) - INR i * (h ^ 2 / (9 * Rpower M1 (2 / 3))) <= Rpower (el (y i) 1) (2 / 3) <= Rpower M1 (2 / 3) + INR i * (2 * h / 3).
Proof. exact C96_ll_. Qed.
Print Assumptions C96_ll.
(** as the steps get shorter, the mass reached at time [t] tends to the exact solution of the growth law *)
Theorem C96_ll_exact : forall F c (m : model (N:=XR)) g t N0 M1 (eig : nat -> nat -> eigSolver (N:=XR)),
  constructEnum P_MONO 2 N_NONE G_LL O_NONE C_NONE 0 T_NONE (Fin F) c = Ok m -> physical g ->
  0 < t -> 0 < N0 -> 0 < M1 ->
  exists f, f 0 = M1 /\ llLaw g N0 f /\
    forall y, (forall n, y n 0%nat = [N0; M1] /\ marches m 2 g (t / INR (S n)) (eig n) (y n)) -> Un_cv (fun n => el (y n (S n)) 1) (f t).
Proof. exact C96_ll_exact_. Qed.
Print Assumptions C96_ll_exact.

(** the example gas, in which particles do grow *)
Example C96_ll_case : exists m : model (N:=XR), constructEnum P_MONO 2 N_NONE G_LL O_NONE C_NONE 0 T_NONE (Fin 2) 100 = Ok m /\ physical demoGas /\ 0 < llStep 1 demoGas 1.
Proof. exact ll_grows. Qed.
