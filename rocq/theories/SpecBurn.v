(** Specification vocabulary for oxidation integrated in time (C95). *)
From Coq Require Import ZArith List Reals.
From Verif Require Import Num Defs State Coag Nucl Growth Oxid Tar SootModel XR SpecValid SpecRates SpecPsd SpecSect SpecQmom.
Import ListNotations.
Local Open Scope R_scope.

(** oxidation and nothing else *)
Definition burn (ox : oxidationMech) : mechs := mkMechs N_NONE G_NONE ox C_NONE 1.
(** a step of length [dt] burns [burnStep dt K N * M^(2/3)] of the mass [M] of [N] particles of one size that burn at [K] per surface *)
Definition burnStep (dt K N : R) : R := dt * K * areaCoef * Rpower N (1 / 3).
(** mass by which the particles of section [j] differ from those of the section below, or from nothing *)
Definition gap (b : list R) (j : nat) : R := if Nat.eqb j 0 then el b 0 else el b j - el b (j - 1).
