(** Specification vocabulary for C86: the equations of docs/models/2_mono.md, 3_logn.md,
    4_qmom.md and 6_sect.md as printed. *)
From Coq Require Import ZArith List Reals.
From Verif Require Import Num Defs State Coag SootModel XR SpecChem SpecCoag SpecValid SpecRates SpecPsd SpecSect.
Import ListNotations.
Local Open Scope R_scope.

(** the only process switched on is coagulation by [c]; are growth and oxidation *)
Definition onlyCoag (k : mechs) (c : coagulationMech) : Prop := mN k = N_NONE /\ mG k = G_NONE /\ mO k = O_NONE /\ mC k = c.
Definition onlySurface (k : mechs) : Prop := mN k = N_NONE /\ mC k = C_NONE.

(** 2_mono.md, line 23: fractional moments *)
Definition docMonoMoment (M0 M1 r : R) : R := Rpower M0 (1 - r) * Rpower M1 r.
(** 3_logn.md, line 25 *)
Definition docLognMoment (M0 M1 M2 r : R) : R :=
  Rpower M0 (1 - 3 * r / 2 + r ^ 2 / 2) * Rpower M1 (2 * r - r ^ 2) * Rpower M2 (r ^ 2 / 2 - r / 2).
(** lines 22-23: median and variance, line 20: the moment they give *)
Definition docMedian (M0 M1 M2 : R) : R := M1 ^ 2 / (Rpower M0 (3 / 2) * Rpower M2 (1 / 2)).
Definition docVariance (M0 M1 M2 : R) : R := ln (M0 * M2 / M1 ^ 2).

(** 3_logn.md, lines 31-35: continuum coagulation, [a] is the factor printed as 1.675 *)
Section Logn.
Context (g : gas) (M0 M1 M2 : R).
Let M (r : R) : R := docLognMoment M0 M1 M2 r.
Definition docKC : R := 2 * boltzmann * gT g / (3 * gMu g).
Definition docKCslip (a : R) : R := 2 * a * meanFreePath (gP g) (gRho g) (gMu g) * Rpower (piC * sootDensity / 6) (1 / 3).
Definition docLognC0 (a : R) : R := - docKC * (M0 ^ 2 + M (2 / 6) * M (- (2 / 6)) + docKCslip a * (M0 * M (- (2 / 6)) + M (2 / 6) * M (- (4 / 6)))).
Definition docLognC2 (a : R) : R := 2 * docKC * (M1 ^ 2 + M (4 / 6) * M (8 / 6) + docKCslip a * (M1 * M (4 / 6) + M (2 / 6) * M (8 / 6))).
(** lines 42-45: free-molecular coagulation *)
Definition docKFM : R := 22 / 10 * Rpower (piC * boltzmann * gT g / 2) (1 / 2) * Rpower (6 / (piC * sootDensity)) (2 / 3).
Definition docLognFM0 (b : R) : R := - docKFM * b * (M0 * M (1 / 6) + 2 * M (2 / 6) * M (- (1 / 6)) + M (4 / 6) * M (- (3 / 6))).
Definition docLognFM2 (b : R) : R := 2 * docKFM * b * (M1 * M (7 / 6) + 2 * M (8 / 6) * M (5 / 6) + M (10 / 6) * M (3 / 6)).
End Logn.
(** line 40: the average of the two bounds of b *)
Definition docB : R := (1 / sqrt 2 + 1) / 2.
(** relative error of the approximated factor (1/m + 1/mu)^(1/2) *)
Definition docError (b m mu : R) : R :=
  Rabs (b * (1 / Rpower m (1 / 2) + 1 / Rpower mu (1 / 2)) / Rpower (1 / m + 1 / mu) (1 / 2) - 1).

(** 6_sect.md, lines 18-20: growth of bin [j] (from 0), [a j] is the area per particle *)
Section Bins.
Context (b n : list R) (a : nat -> R).
Definition docGrowBin (kg : R) (j : nat) : R :=
  if Nat.eqb j 0 then - (kg * a 0%nat * el n 0 / (el b 1 - el b 0))
  else if Nat.eqb (S j) (length b)
  then kg * a (j - 1)%nat * el n (j - 1) / (el b j - el b (j - 1)) + kg * a j * el n j / el b j
  else kg * a (j - 1)%nat * el n (j - 1) / (el b j - el b (j - 1)) - kg * a j * el n j / (el b (S j) - el b j).
(** lines 30-32: oxidation; the page prints k_g in the last term of the first bin, [k1] here *)
Definition docOxidBin (ko k1 : R) (j : nat) : R :=
  if Nat.eqb (S j) (length b) then - (ko * a j * el n j / (el b j - el b (j - 1)))
  else if Nat.eqb j 0 then ko * a 1%nat * el n 1 / (el b 1 - el b 0) - k1 * a 0%nat * el n 0 / el b 0
  else ko * a (S j) * el n (S j) / (el b (S j) - el b j) - ko * a j * el n j / (el b j - el b (j - 1)).
(** line 40: coagulation, bins counted from 1 on the page: bins j and i-j give bin i *)
Definition docCoagBin (beta : R -> R -> R) (i : nat) : R :=
  1 / 2 * Sum i (fun j => beta (el b j) (el b (i - 1 - j)) * el n j * el n (i - 1 - j))
  - el n i * Sum (length b) (fun j => beta (el b i) (el b j) * el n j).
End Bins.
