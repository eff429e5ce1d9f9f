(** Specification vocabulary for the closure of the interpolative moment model (C88). *)
From Coq Require Import List Reals.
From Verif Require Import SpecValid SpecCoag SpecPsd SpecSect SpecQmom.
Import ListNotations.
Local Open Scope R_scope.

(** value at x of the polynomial with coefficients c, constant term first *)
Fixpoint poly (c : list R) (x : R) : R := match c with [] => 0 | a :: c' => a + x * poly c' x end.
(** total surface of the spheres of a population: concentrations w of the sizes x *)
Definition surfaceOf (w x : list R) : R := Sum (length w) (fun i => el w i * sphere (el x i)).
(** total surface of M0 equal spheres of total mass M1 *)
Definition equalSurface (M0 M1 : R) : R := M0 * sphere (M1 / M0).
