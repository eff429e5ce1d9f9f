(** Specification vocabulary for signs in IEEE arithmetic (C72). *)
From Coq Require Import ZArith List Bool.
From Coq.Floats Require Import SpecFloat.
From Verif Require Import Num Defs State F64 SpecState.
Import ListNotations.

(** [x < 0] of C++; false for NaN and for both zeros *)
Definition negative (x : spec_float) : Prop := SFltb x (S754_zero false) = true.
Definition aboveZero (x : spec_float) : Prop := SFltb (S754_zero false) x = true.
(** NaN, or the sign bit is clear *)
Definition unsigned (x : spec_float) : Prop :=
  match x with S754_nan => True | S754_zero b | S754_infinity b | S754_finite b _ _ => b = false end.
(** a bit pattern of a double *)
Definition double (x : spec_float) : Prop := valid_binary prec64 emax64 x = true.

(** what every <cmath> satisfies, however inaccurate: exp has no sign, pow of a number without sign has
    none, and pow (0, y) with y > 0 is a zero *)
Record sane (lm : libm) : Prop := {
  sane_exp : forall x, double (lm_exp lm x) /\ unsigned (lm_exp lm x);
  sane_pow : forall x y, unsigned x -> unsigned (lm_pow lm x y);
  sane_zero : forall b y, aboveZero y -> exists b', lm_pow lm (S754_zero b) y = S754_zero b' }.

(** any doubles at all, infinities and NaNs included, but no negative gas fraction (setState lets them pass: C02) *)
Definition anyDoubles {lm} (a : args (F64 lm)) : Prop :=
  double (aT a) /\ double (aP a) /\ double (arho a) /\ (forall y, In y (ayGas a) -> double y /\ ~ negative y).
