(** Specification vocabulary for evaluation in double precision (C71). *)
From Coq Require Import ZArith List Bool Reals.
From Coq.Floats Require Import SpecFloat.
From Verif Require Import Num Defs State Growth XR F64 SpecBinomial SpecState SpecChem SpecCoag SpecValid SpecRates SpecPsd.
Import ListNotations.
Local Open Scope R_scope.

(** a finite double: the real it stands for is [sfVal] (SpecBinomial) *)
Definition isDouble (x : spec_float) : Prop := valid_binary prec64 emax64 x = true /\ f64fin x = true.
(** [x] is a double within [k] roundings of [r]: relative error at most k * 2^-52 *)
Definition within (k : Z) (x : spec_float) (r : R) : Prop :=
  isDouble x /\ Rabs (sfVal x - r) <= IZR k * / 2 ^ 52 * Rabs r.
(** twelve correct significant digits *)
Definition agrees (x : spec_float) (r : R) : Prop := isDouble x /\ Rabs (sfVal x - r) <= / 10 ^ 12 * Rabs r.
(** a sum of terms of either sign: correct up to 10^-12 of the sum of their magnitudes *)
Definition agreesSum (x : spec_float) (l : list R) : Prop :=
  isDouble x /\ Rabs (sfVal x - fold_right Rplus 0 l) <= / 10 ^ 12 * fold_right (fun r a => Rabs r + a) 0 l.

(** mathematical library: exp and pow with an error below 2^-52, far from overflow and underflow, exp of
    very negative numbers tiny, and pow (0, y) = 0 for positive y *)
Record accurate (lm : libm) : Prop := {
  exp_acc : forall x, isDouble x -> -700 <= sfVal x <= 700 ->
    within 1 (lm_exp lm x) (exp (sfVal x));
  exp_tiny : forall x, isDouble x -> sfVal x < -700 -> isDouble (lm_exp lm x) /\ 0 <= sfVal (lm_exp lm x) <= / 2 ^ 900;
  pow_acc : forall x y, isDouble x -> isDouble y -> 0 < sfVal x -> -600 <= sfVal y * ln (sfVal x) <= 600 ->
    within 1 (lm_pow lm x y) (Rpower (sfVal x) (sfVal y));
  pow_zero : forall b y, isDouble y -> 0 < sfVal y -> lm_pow lm (S754_zero b) y = S754_zero false }.

(** doubles in a range; zero or in a range *)
Definition between (lo hi : R) (x : spec_float) : Prop := isDouble x /\ lo <= sfVal x <= hi.
Definition zeroOr (lo hi : R) (x : spec_float) : Prop := isDouble x /\ (sfVal x = 0 \/ lo <= sfVal x <= hi).

(** the exact gas data that the double arguments of a setState call stand for *)
Definition gasOf {lm} (a : args (F64 lm)) : gas :=
  mkGas (sfVal (aT a)) (sfVal (aP a)) (sfVal (arho a)) (sfVal (amu a)) (sfVal (acMin a))
    (fun sp => sfVal (nth (gasIdx sp) (ayGas a) (S754_zero false))) (fun sp => sfVal (nth (pahIdx sp) (ayPah a) (S754_zero false))).

(** arguments of the size met in flames, with a wide margin *)
Definition usual {lm} (a : args (F64 lm)) : Prop :=
  between 300 6000 (aT a) /\ between 100 (10 ^ 9) (aP a) /\ between (/ 10 ^ 6) 1000 (arho a) /\ between (/ 10 ^ 8) 1 (amu a) /\
  between 1 (10 ^ 6) (acMin a) /\
  length (ayGas a) = 11%nat /\ (forall y, In y (ayGas a) -> zeroOr (/ 10 ^ 30) 1 y) /\
  length (ayPah a) = 6%nat /\ (forall y, In y (ayPah a) -> zeroOr (/ 10 ^ 30) 1 y) /\
  (2 <= length (asoot a))%nat /\ (forall x, In x (asoot a) -> zeroOr (/ 10 ^ 30) (10 ^ 30) x).
(** the number and mass of soot they pass *)
Definition soot0 {lm} (a : args (F64 lm)) : R := sfVal (nth 0 (asoot a) (S754_zero false)).
Definition soot1 {lm} (a : args (F64 lm)) : R := sfVal (nth 1 (asoot a) (S754_zero false)).

(** mechanisms whose rates are products and quotients: not PAH or tar nucleation, HACA (C18), NSC_NEOH
    oxidation and FUCHS coagulation (differences of nearly equal numbers); BROWN oxidation leaves the range at low temperature *)
Definition smoothMechs (k : mechs) : Prop :=
  gasOnly (mN k) /\ mN k <> N_size /\ mG k <> G_HACA /\ mG k <> G_size /\
  mO k <> O_NSC_NEOH /\ mO k <> O_HACA /\ mO k <> O_BROWN /\ mO k <> O_size /\ mC k <> C_FUCHS /\ mC k <> C_size.
