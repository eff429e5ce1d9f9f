(** Specification vocabulary for Leung-Lindstedt growth integrated in time (C96). *)
From Coq Require Import Reals.
From Verif Require Import Defs SpecChem SpecValid SpecRates SpecGrow SpecQmom SpecPsd.
Local Open Scope R_scope.

(** Leung and Lindstedt: mass gained by growth per time and square root of the surface *)
Definition llRate (g : gas) : R := 600 * exp (- 12100 / gT g) * conc g C2H2 * (2 * massC).
(** a step of length [dt] adds [llStep dt g N * M^(1/3)] to the mass [M] of [N] particles of one size *)
Definition llStep (dt : R) (g : gas) (N : R) : R := dt * llRate g * sqrt (areaCoef * Rpower N (1 / 3)).
(** [f] is the mass over time of [N] particles of one size: dM/dt = [llRate] times the square root of their surface *)
Definition llLaw (g : gas) (N : R) (f : R -> R) : Prop := forall t, 0 <= t -> 0 < f t /\ derivable_pt_lim f t (llRate g * sqrt (surface N (f t))).
