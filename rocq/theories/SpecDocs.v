(** Specification vocabulary for C83: further formulas as docs/models/1_chemistry.md
    prints them.  (C54 has the nucleation rates and most oxidation rates.) *)
From Coq Require Import ZArith List Reals.
From Verif Require Import Num Defs State XR SpecChem SpecCoag SpecValid SpecRates.
Import ListNotations.
Local Open Scope R_scope.

(** Leung and Lindstedt growth, lines 88-92: kmol of C2H2 per m3 and s.  [M0] and [M1]
    are the number and the mass of soot per volume *)
Definition docSurfaceFactor (M0 M1 : R) : R :=
  sqrt (piC * Rpower (6 * massC / (piC * sootDensity)) (2 / 3)) * Rpower (M1 / massC) (1 / 3) * Rpower M0 (1 / 6).
Definition docGrowLL (g : gas) (M0 M1 : R) : R :=
  6 / 10 * 10 ^ 4 * exp (- 21100 / gT g) * docSurfaceFactor M0 M1 * conc g C2H2.
(** Lindstedt growth, lines 95-97: kg per m3 and s *)
Definition docGrowLIN (g : gas) (M0 : R) : R := 750 * exp (- 12100 / gT g) * conc g C2H2 * (2 * M0 * massC).
(** HACA, lines 113-119: reactions per cm2 and s ([haca4] is k4 [C2H2]) *)
Definition docRadicals (g : gas) : R := hacaUp g / hacaDown g * (23 * 10 ^ 14).
Definition docGrowHACA (g : gas) : R := haca4 g * docRadicals g.
(** Lee et al. oxidation by O2, lines 133-135, [p] in the units of the expression *)
Definition docLee (t p : R) : R := 1085 / 1000 * 10 ^ 4 * p * Rpower t (- (1 / 2)) * exp (- (1977 / 1000 * 10 ^ 4) / t).

(** sticking coefficients and dimerisation rate of PAH, lines 39-55 *)
Definition docSticking (sp : pahSp) : R :=
  match sp with C10H8 => 10 / 10000 | C12H8 => 30 / 10000 | C12H10 => 85 / 10000
              | C14H10 => 150 / 10000 | C16H10 => 250 / 10000 | C18H10 => 390 / 10000 end.
Definition docDimers (g : gas) : R :=
  pahSum (fun sp => docSticking sp * (1 / 2) * betaSelf (gT g) (pahMass sp) * pahDensity g sp ^ 2).

(** coagulation, lines 200-239 *)
Definition docFM (t m1 m2 : R) : R :=
  22 / 10 * (piC * boltzmann * t / 2) * Rpower (6 / (piC * sootDensity)) (2 / 3) * Rpower (1 / m1 + 1 / m2) (1 / 2)
  * (Rpower m1 (1 / 3) + Rpower m2 (1 / 3)) ^ 2.
Definition docC (t p rho mu m1 m2 : R) : R :=
  2 * boltzmann * t / (3 * mu) * (slipLinear p rho mu m1 / Rpower m1 (1 / 3) * (slipLinear p rho mu m2 / Rpower m2 (1 / 3)))
  * (Rpower m1 (1 / 3) + Rpower m2 (1 / 3)).
(** the same with a sum of the two slip terms *)
Definition docSumC (t p rho mu m1 m2 : R) : R :=
  2 * boltzmann * t / (3 * mu) * (slipLinear p rho mu m1 / Rpower m1 (1 / 3) + slipLinear p rho mu m2 / Rpower m2 (1 / 3))
  * (Rpower m1 (1 / 3) + Rpower m2 (1 / 3)).
