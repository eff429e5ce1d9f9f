(** Specification vocabulary for sections in IEEE arithmetic (C78). *)
From Coq Require Import ZArith List Bool Reals.
From Coq.Floats Require Import SpecFloat.
From Verif Require Import Num F64 SpecBinomial SpecRound.
Import ListNotations.
Local Open Scope R_scope.

Definition binF (b : list spec_float) (k : nat) : spec_float := nth k b (S754_zero false).
(** the masses of the sections are finite doubles, positive and strictly increasing *)
Definition ladder (b : list spec_float) : Prop :=
  (forall k, (k < length b)%nat -> isDouble (binF b k) /\ 0 < sfVal (binF b k)) /\
  (forall k, (S k < length b)%nat -> sfVal (binF b k) < sfVal (binF b (S k))).
(** the constant of the search: 1 / log F of the first sectional model that coagulated in the process *)
Definition searchConst (lm : libm) (g : option spec_float) (F : spec_float) : spec_float :=
  match g with Some x => x | None => SFdiv prec64 emax64 (f64lit 1 0) (lm_log lm F) end.
(** the section that the code computes for a collision product of sections i and j, from the
    constant q and the logarithm: it is the last one, or its mass and the next one enclose the product *)
Definition encloses (lm : libm) (b : list spec_float) (q : spec_float) (i j : nat) : Prop :=
  let s := SFadd prec64 emax64 (binF b i) (binF b j) in
  forall t, f64trunc (SFmul prec64 emax64 q (lm_log lm (SFdiv prec64 emax64 s (binF b 0)))) = Some t ->
    (length b - 1 <= t)%nat \/ (SFleb (binF b t) s = true /\ SFleb s (binF b (S t)) = true).
Definition placed (lm : libm) (b : list spec_float) (q : spec_float) : Prop :=
  forall i j, (i <= j)%nat -> (j < length b)%nat -> encloses lm b q i j.
(** zero, of either sign *)
Definition isZero (x : spec_float) : Prop := exists s, x = S754_zero s.

(** the double nearest to a real number, and functions that return it *)
Definition nearestTo (x : spec_float) (r : R) : Prop :=
  isDouble x /\ forall y, isDouble y -> Rabs (sfVal x - r) <= Rabs (sfVal y - r).
Definition correctLog (lm : libm) : Prop :=
  forall x, between (/ 2 ^ 1000) (2 ^ 1000) x -> nearestTo (lm_log lm x) (ln (sfVal x)).
Definition correctPow (lm : libm) : Prop :=
  forall x k, between 1 2 x -> (k <= 20)%nat -> nearestTo (lm_pow lm x (f64lit (Z.of_nat k) 0)) (sfVal x ^ k).
(** the double nearest to the square root of two *)
Definition rootTwo : spec_float := S754_finite false 6369051672525773 (-52).
