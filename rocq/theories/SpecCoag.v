(** Specification vocabulary for the coagulation kernels (C12-C15): physical
    formulas over real numbers, following docs/models/1_chemistry.md 197-277. *)
From Coq Require Import ZArith List Reals.
From Verif Require Import Num Defs State Coag XR SpecChem.
Local Open Scope R_scope.

(** the decimal constant M_PI, the soot density, the collision enhancement, the smallest mass *)
Definition piC : R := IZR 314159265358979323846 / IZR (10 ^ 20).
Definition sootDensity : R := 1850.
Definition enhancement : R := 22 / 10.
Definition massCutoff : R := IZR 2 / IZR (10 ^ 26).

(** a state whose gas fields are what setState stores for positive real T, P, rho, mu *)
Definition gasState (s : state (N:=XR)) (t p rho mu : R) : Prop :=
  0 < t /\ 0 < p /\ 0 < rho /\ 0 < mu /\
  T s = Fin t /\ P s = Fin p /\ rhoGas s = Fin rho /\ muGas s = Fin mu /\
  MWGas s = Fin (rho * (avogadro * boltzmann) * t / p).

(** diameter of a sphere of mass m; gas mean free path; Knudsen number *)
Definition diam (m : R) : R := Rpower (6 * m / (piC * sootDensity)) (1 / 3).
Definition meanFreePath (p rho mu : R) : R := mu / rho * sqrt (piC * rho / (2 * p)).
Definition knudsen (p rho mu m : R) : R := 2 * meanFreePath p rho mu / diam m.

(** free-molecular kernel with multiplier f *)
Definition betaFM (f t m1 m2 : R) : R :=
  enhancement * f * sqrt (piC * boltzmann * t / 2 * (1 / m1 + 1 / m2)) * (diam m1 + diam m2) ^ 2.

(** continuum kernel for a slip correction C(m) *)
Definition betaC (C : R -> R) (t mu m1 m2 : R) : R :=
  2 * boltzmann * t / (3 * mu) * (C m1 / diam m1 + C m2 / diam m2) * (diam m1 + diam m2).
Definition slipLinear (p rho mu m : R) : R := 1 + 1657 / 1000 * knudsen p rho mu m.
Definition slipExp (p rho mu m : R) : R :=
  let kn := knudsen p rho mu m in 1 + kn * (1257 / 1000 + 4 / 10 * exp (- (11 / 10) / kn)).

(** harmonic mean *)
Definition betaHM (f t p rho mu m1 m2 : R) : R :=
  / (/ betaFM f t m1 m2 + / betaC (slipExp p rho mu) t mu m1 m2).

(** Fuchs kernel *)
Definition diffusivity (t p rho mu m : R) : R := boltzmann * t / (3 * piC * mu) * slipExp p rho mu m / diam m.
Definition thermalSpeed (t m : R) : R := sqrt (8 * boltzmann * t / (piC * m)).
Definition fuchsG (t p rho mu m : R) : R :=
  let d := diam m in let l := 8 * diffusivity t p rho mu m / (piC * thermalSpeed t m) in
  sqrt 2 / (3 * d * l) * ((d + l) ^ 3 - Rpower (d ^ 2 + l ^ 2) (3 / 2)) - sqrt 2 * d.
Definition betaFuchs (f t p rho mu m1 m2 : R) : R :=
  let d12 := diam m1 + diam m2 in
  let D12 := diffusivity t p rho mu m1 + diffusivity t p rho mu m2 in
  let g12 := sqrt (fuchsG t p rho mu m1 ^ 2 + fuchsG t p rho mu m2 ^ 2) in
  let c12 := sqrt (thermalSpeed t m1 ^ 2 + thermalSpeed t m2 ^ 2) in
  2 * piC * D12 * d12 / (d12 / (d12 + 2 * g12) + 8 * D12 / (enhancement * f * c12 * d12)).

(** a coagulation object of the given kind on which set_FM_multiplier(f) was called *)
Definition with_f (k : coagulationMech) (f : R) : coagObj (N:=XR) := set_FM_multiplier (newCoag k) (Fin f).
