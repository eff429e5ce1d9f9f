(** Specification vocabulary for AJ_RED tar cracking (C51). *)
From Coq Require Import Reals.
From Verif Require Import SpecChem.
Local Open Scope R_scope.

(** Arrhenius rate constant with activation energy in J/kmol *)
Definition arrhenius (A E t : R) : R := A * exp (- E / (avogadro * boltzmann * t)).

(** log10 of the tar number density (0 if there is none) *)
Definition tarLog (n0 : R) : R := if Rlt_dec 0 n0 then ln n0 / ln 10 else 0.

(** surrogate mole fractions with the hyperbolic tangent terms of phenol and toluene left out *)
Definition phenol0 (cl : R) : R := 277 / 10000 * cl - 218 / 1000.
Definition naphthalene (t cl : R) : R :=
  1 / 2 * tanh (- (198 / 100) + 618 / 1000000 * t + 124 / 1000 * cl - 285 / 100000 * cl * cl
                + 414 / 1000000000 * t * t - 497 / 10000000 * t * cl)
  - 576 / 1000 + 233 / 1000000 * t - 169 / 1000000000 * t * t.
Definition toluene0 (t cl : R) : R :=
  265 / 1000000 * t - cl * (111 / 1000000 * cl + 932 / 100000000 * t).
Definition benzene0 (t cl : R) : R := 1 - phenol0 cl - naphthalene t cl - toluene0 t cl.

(** the cracking rate without the two hydrogen reactions *)
Definition crackingReduced (t n0 : R) : R :=
  let cl := tarLog n0 in
  n0 * ((311 / 10 / 94 * arrhenius (IZR (10 ^ 7)) (IZR (10 ^ 8)) t + arrhenius (IZR (10 ^ 8)) (IZR (10 ^ 8)) t) * phenol0 cl
        + arrhenius (IZR (44 * 10 ^ 7)) (IZR (22 * 10 ^ 7)) t * benzene0 t cl).
