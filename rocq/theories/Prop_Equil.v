(** C100: growth against oxidation integrated in time. *)
From Coq Require Import ZArith List Bool Reals.
From Verif Require Import Num Defs State Coag Nucl Growth Oxid Tar SootModel Qmom Calls XR SpecChem SpecCoag SpecValid SpecRates SpecPsd SpecSect SpecQmom SpecStep SpecFinite SpecMarch SpecGrow SpecGrowLL SpecEquil ValidProofs EquilLL EquilSurf.
Import ListNotations.
Local Open Scope R_scope.

(** one size, growth by LL and any oxidation but HACA, steps in which oxidation at the mass [Ms] burns at most three times [Ms]: at [Ms] growth and oxidation
    are equal; the loop exists; the number never changes, the mass stays positive, lies between its initial value and [Ms],
    is never farther from [Ms] than a step before, and tends to [Ms] whatever the initial mass *)
Theorem C100_equilibrium : forall ox F c (m : model (N:=XR)) g dt N0 M1 eig,
  constructEnum P_MONO 2 N_NONE G_LL ox C_NONE 0 T_NONE (Fin F) c = Ok m -> ox <> O_HACA -> physical g -> 0 < dt -> 0 < N0 -> 0 < M1 ->
  let K := oxidFormula ox g N0 M1 in let Ms := balanceMass g K N0 in
  0 < llRate g -> 0 < K -> dt * (K * surface N0 Ms) <= 3 * Ms ->
  growFormula G_LL g N0 Ms = oxidFormula ox g N0 Ms /\ (exists y, y 0%nat = [N0; M1] /\ marches m 2 g dt eig y) /\
  forall y, y 0%nat = [N0; M1] -> marches m 2 g dt eig y ->
    (forall i, el (y i) 0 = N0 /\ 0 < el (y i) 1 /\ Rabs (el (y (S i)) 1 - Ms) <= Rabs (el (y i) 1 - Ms) /\ exists r, 0 <= r <= 1 /\ el (y i) 1 = r * M1 + (1 - r) * Ms) /\
    Un_cv (fun i => el (y i) 1) Ms.
Proof. exact C100_. Qed.
Print Assumptions C100_equilibrium.

(** the example gas, in which particles do grow and burn *)
Example C100_case : exists (m : model (N:=XR)) dt, constructEnum P_MONO 2 N_NONE G_LL O_MB C_NONE 0 T_NONE (Fin 2) 100 = Ok m /\ physical demoGas /\
  let K := oxidFormula O_MB demoGas 1 1 in let Ms := balanceMass demoGas K 1 in 0 < llRate demoGas /\ 0 < K /\ 0 < Ms /\ 0 < dt /\ dt * (K * surface 1 Ms) <= 3 * Ms.
Proof. exact balance_case. Qed.

(** one size, growth by LIN, FAIR or MB, any oxidation but HACA, steps of any length: the number never changes, and the difference [D] of the rates
    per surface decides: the mass rises beyond every bound, or never changes, or falls at every step until it is zero or negative and then stays *)
Theorem C100_surface : forall gr ox F c (m : model (N:=XR)) g dt N0 M1 eig,
  constructEnum P_MONO 2 N_NONE gr ox C_NONE 0 T_NONE (Fin F) c = Ok m -> ageless gr -> ox <> O_HACA -> physical g -> 0 < dt -> 0 < N0 -> 0 < M1 ->
  let D := growFormula gr g N0 M1 - oxidFormula ox g N0 M1 in
  (exists y, y 0%nat = [N0; M1] /\ marches m 2 g dt eig y) /\
  forall y, y 0%nat = [N0; M1] -> marches m 2 g dt eig y ->
    (forall i, el (y i) 0 = N0) /\
    (0 < D -> (forall i, el (y i) 1 < el (y (S i)) 1) /\ forall x, exists i0, forall i, (i0 <= i)%nat -> x < el (y i) 1) /\
    (D = 0 -> forall i, el (y i) 1 = M1) /\
    (D < 0 -> exists e, (forall i, (i < e)%nat -> 0 < el (y i) 1 /\ el (y (S i)) 1 < el (y i) 1) /\ el (y e) 1 <= 0 /\ forall i, (e <= i)%nat -> y i = y e).
Proof. exact C100_surface_. Qed.
Print Assumptions C100_surface.

(** the example gas, in which particles grow by LIN and burn by MB, which is faster *)
Example C100_surface_case : exists m : model (N:=XR), constructEnum P_MONO 2 N_NONE G_LIN O_MB C_NONE 0 T_NONE (Fin 2) 100 = Ok m /\ ageless G_LIN /\ physical demoGas /\
  0 < growFormula G_LIN demoGas 1 1 /\ growFormula G_LIN demoGas 1 1 - oxidFormula O_MB demoGas 1 1 < 0.
Proof. exact decide_case. Qed.
