(** Linear_interp: examples/burner_flame/interp_linear.h *)
From Coq Require Import ZArith List Bool.
From Verif Require Import Num.
Import ListNotations.
Local Open Scope num_scope.

Section Interp.
Context {N : Num}.

(** the object: the two tables it points to (nxy = X->size()) *)
Record interpObj := mkInterpObj { ip_X : list num; ip_Y : list num }.

(** the constructor's monotonicity test at one interior point, 70-73 *)
Definition badPoint (a b c : num) : bool :=
  neqb b a || neqb b c || (nltb b a && nltb b c) || (ngtb b a && ngtb b c).
Fixpoint badTable (l : list num) : bool :=
  match l with
  | a :: ((b :: c :: _) as t) => badPoint a b c || badTable t
  | _ => false
  end.

(** constructor, 59-77; exit(0) is represented by the exception EInterp *)
Definition newInterp (X Y : list num) : res interpObj :=
  if negb (Nat.eqb (length X) (length Y)) then Throw EInterp
  else if badTable X then Throw EInterp
  else Ok (mkInterpObj X Y).

(** std::lower_bound, the binary search of libstdc++ (stl_algobase.h
    __lower_bound): [first] and [len] are the current range; the range shrinks in
    every step, so [length l] steps are enough.  The accesses are inside the table. *)
Fixpoint lbSearch (fuel : nat) (l : list num) (x : num) (first len : nat) : nat :=
  match fuel with
  | O => first
  | S f =>
      if Nat.eqb len 0 then first else
      let half := Nat.div2 len in
      let middle := (first + half)%nat in
      if nltb (nth middle l (nZ 0)) x then lbSearch f l x (middle + 1)%nat (len - half - 1)%nat
      else lbSearch f l x first half
  end.
Definition lowerBound (l : list num) (x : num) : nat := lbSearch (length l) l x 0 (length l).

(** set_bounding_indicies, 39-49: ihi.  An empty table is read out of bounds. *)
Definition boundingHi (X : list num) (x : num) : res Z :=
  a <- vget X 0 ;;
  if nleb x a then Ok 1%Z else
  b <- vget X (length X - 1) ;;
  if ngeb x b then Ok (Z.of_nat (length X) - 1)%Z
  else Ok (Z.of_nat (lowerBound X x)).

(** interp and operator(), 28-35 *)
Definition interp (o : interpObj) (x : num) : res num :=
  ihi <- boundingHi (ip_X o) x ;;
  let ilo := (ihi - 1)%Z in
  ylo <- vgetZ (ip_Y o) ilo ;; xlo <- vgetZ (ip_X o) ilo ;;
  yhi <- vgetZ (ip_Y o) ihi ;; xhi <- vgetZ (ip_X o) ihi ;;
  Ok (ylo + (x - xlo) * (yhi - ylo) / (xhi - xlo)).

End Interp.
