(** Specification vocabulary for solvers that hold negative soot variables (C63). *)
From Coq Require Import ZArith List Reals.
From Verif Require Import Num Defs State Coag Nucl Growth Oxid Tar SootModel XR SpecValid SpecRates SpecPah SpecPsd SpecSect SpecFinite.
Import ListNotations.
Local Open Scope R_scope.

(** the soot variables with the negative ones replaced by zero *)
Definition nonNegative (y : list R) : list R := map (Rmax 0) y.
(** physical gas, soot variables of any sign, away from the hole of the HACA fit (C18) *)
Definition anySign (p : psdMech) (k : mechs) (b : list R) (n nt : nat) (x : step) : Prop :=
  physical (spGas x) /\ length (spSoot x) = n /\ length (spTar x) = nt /\ (forall y, In y (spTar x) -> 0 <= y) /\
  regular k (spGas x) (soot0 p (nonNegative (spSoot x))) (soot1 p b (nonNegative (spSoot x))).
