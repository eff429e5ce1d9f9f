(** Specification vocabulary for free-molecular collisions of a population (C64). *)
From Coq Require Import ZArith List Reals.
From Verif Require Import SpecValid SpecSect SpecLogn.
Import ListNotations.
Local Open Scope R_scope.

(** sum over all ordered pairs of particles *)
Definition pairs (w x : list R) (h : R -> R -> R) : R :=
  Sum (length w) (fun i => Sum (length w) (fun j => el w i * el w j * h (el x i) (el x j))).
(** the free-molecular kernel without its factor sqrt (a+b) *)
Definition pairWeight (a b : R) : R := (Rpower a (1 / 3) + Rpower b (1 / 3)) ^ 2 * Rpower a (- (1 / 2)) * Rpower b (- (1 / 2)).
(** collisions weighted with a^p b^q and the power s of a+b; s = 1/2 for the true kernel *)
Definition collisions (w x : list R) (p q : nat) (s : R) : R :=
  pairs w x (fun a b => a ^ p * b ^ q * Rpower (a + b) s * pairWeight a b).
(** some particles, all of positive mass *)
Definition somePopulation (w x : list R) : Prop :=
  (1 <= length w)%nat /\ forall i, (i < length w)%nat -> 0 < el w i /\ 0 < el x i.
