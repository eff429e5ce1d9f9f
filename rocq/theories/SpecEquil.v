(** Specification vocabulary for growth against oxidation in time (C100). *)
From Coq Require Import Reals.
From Verif Require Import Defs SpecChem SpecValid SpecRates SpecQmom SpecGrowLL.
Local Open Scope R_scope.

(** mass of [N] particles of one size that gain by Leung-Lindstedt growth what they lose by oxidation at [K] per surface *)
Definition balanceMass (g : gas) (K N : R) : R := (llRate g / (K * sqrt (areaCoef * Rpower N (1 / 3)))) ^ 3.
