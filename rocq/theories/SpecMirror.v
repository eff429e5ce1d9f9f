(** Specification vocabulary for moments that belong to no population (C90). *)
From Coq Require Import List Reals.
From Verif Require Import Defs Coag Nucl Growth Oxid SootModel SpecValid SpecCoag SpecRates SpecPsd SpecSect SpecQmom.
Import ListNotations.
Local Open Scope R_scope.

(** the variance that the moments [M] would have is negative *)
Definition impossible (M : list R) : Prop := el M 0 * el M 2 < el M 1 ^ 2.
(** number, mass, and the moments of orders 2 and 3 reflected at those of equal particles *)
Definition mirror (M : list R) : list R :=
  map (fun r => 2 * (el M 0 * (el M 1 / el M 0) ^ r) - el M r) (seq 0 4).
(** only surface growth *)
Definition growthOnly (k : mechs) : Prop := mN k = N_NONE /\ mO k = O_NONE /\ mC k = C_NONE.
(** sum of the sizes to the power 2/3, times the sizes to the power [j] *)
Definition surf (w x : list R) (j : R) : R := Sum 2 (fun i => el w i * Rpower (el x i) (j + 2 / 3)).
(** longest explicit step from the moments [M], represented by two nodes, at rate [K] *)
Definition longest (K : R) (M w x : list R) : R :=
  let c := el M 0 * surf w x 1 - el M 1 * surf w x 0 in
  (c + sqrt (c ^ 2 + surf w x 0 ^ 2 * (el M 0 * el M 2 - el M 1 ^ 2))) / (K * surf w x 0 ^ 2).
