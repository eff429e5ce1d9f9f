(** Specification vocabulary for the linear interpolator (C53). *)
From Coq Require Import List Reals.
Local Open Scope R_scope.

Definition increasing (X : list R) : Prop :=
  forall i j, (i < j < length X)%nat -> nth i X 0 < nth j X 0.
Definition decreasing (X : list R) : Prop :=
  forall i j, (i < j < length X)%nat -> nth j X 0 < nth i X 0.

(** the straight line through points i and i+1, at x *)
Definition chord (X Y : list R) (i : nat) (x : R) : R :=
  nth i Y 0 + (x - nth i X 0) * (nth (S i) Y 0 - nth i Y 0) / (nth (S i) X 0 - nth i X 0).

(** segment i is the one to use for x: x lies in it, or it is the first (last)
    one and x lies before (after) the table *)
Definition segment (X : list R) (x : R) (i : nat) : Prop :=
  (S i < length X)%nat /\ (i = 0%nat \/ nth i X 0 <= x) /\ (S (S i) = length X \/ x <= nth (S i) X 0).
