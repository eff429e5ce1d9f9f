(** Specification vocabulary for soot variables that are not numbers (C91). *)
From Coq Require Import ZArith List Bool Reals.
From Verif Require Import Num Defs State SootModel Calls XR F64.
Import ListNotations.

(** the two arithmetics of the model: exact with exceptional values, and double precision with any libm *)
Definition ieee (N : Num) : Prop := N = XR \/ exists lm, N = F64 lm.
(** NaN is the only value that differs from itself *)
Definition notNumber {N : Num} (x : num) : Prop := neqb x x = false.
(** the same outcome, with a state that holds the soot variables [l] *)
Definition sameBut {N : Num} (l : list num) (r r' : res (option num * model * state)) : Prop :=
  match r, r' with
  | Ok (g, m, s), Ok (g', m', s') => g' = g /\ m' = m /\ s' = with_sootVar s l
  | Throw e, Throw e' => e' = e
  | UB u, UB u' => u' = u
  | _, _ => False
  end.
(** positive or not a number *)
Definition posOrNaN (x : xr) : Prop := x = NaN \/ exists r, (0 < r)%R /\ x = Fin r.
