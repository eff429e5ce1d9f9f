(** Specification vocabulary for surface growth integrated in time (C96). *)
From Coq Require Import ZArith List Reals.
From Verif Require Import Num Defs State Coag Nucl Growth Oxid Tar SootModel XR SpecValid SpecRates SpecPsd SpecSect SpecQmom.
Import ListNotations.
Local Open Scope R_scope.

(** growth and nothing else; models whose rate per surface does not depend on the soot *)
Definition grow (gr : growthMech) : mechs := mkMechs N_NONE gr O_NONE C_NONE 1.
Definition ageless (gr : growthMech) : Prop := gr = G_LIN \/ gr = G_FAIR \/ gr = G_MB.
(** a step of length [dt] adds [growStep dt K N * M^(2/3)] to the mass [M] of [N] particles of one size that grow at [K] per surface *)
Definition growStep (dt K N : R) : R := dt * K * areaCoef * Rpower N (1 / 3).
(** [f] is the mass over time of [N] particles of one size that grow at [K] per surface: dM/dt = K times their surface *)
Definition growthLaw (K N : R) (f : R -> R) : Prop := forall t, 0 <= t -> 0 < f t /\ derivable_pt_lim f t (K * surface N (f t)).
