(** Specification vocabulary for binomial coefficients (property C07). *)
From Coq Require Import ZArith List Reals.
From Coq.Floats Require Import SpecFloat.
Local Open Scope Z_scope.

(** number of k-element subsets of an n-element set: Pascal's triangle *)
Fixpoint choose (n k : nat) : Z :=
  match n, k with
  | _, O => 1
  | O, S _ => 0
  | S n', S k' => choose n' k' + choose n' k
  end.

(** real value of a finite binary floating-point number *)
Definition sfVal (x : spec_float) : R :=
  match x with
  | S754_finite s m e => (IZR (cond_Zopp s (Zpos m)) * powerRZ 2 e)%R
  | _ => 0%R
  end.
