(** Specification vocabulary for C81: the fraction of surface sites that take part in
    the HACA reactions. *)
From Coq Require Import ZArith List Reals.
From Verif Require Import Num Defs State XR SpecChem SpecCoag SpecValid SpecRates.
Import ListNotations.
Local Open Scope R_scope.

Definition log10R (x : R) : R := ln x / ln 10.
(** carbon atoms of the mean particle *)
Definition meanAtoms (M0 M1 : R) : R := M1 / M0 / (massC / avogadro).
(** the fit of the papers that growthModel_HACA.cc 26-29 cites, a function of the number
    [n] of carbon atoms of the mean particle; no sites where the fit is negative *)
Definition fitted (t n : R) : R :=
  Rmax 0 (tanh ((33167 / 1000 - 154 / 10000 * t) / log10R n + (112 / 100000 * t - 25786 / 10000))).

(** carbon mass added by acetylene, or removed by oxygen, if the fraction [f] of the sites is active *)
Definition addedBy (g : gas) (f : R) : R := hacaMass (haca4 g * hacaRadicals g * f).
Definition removedBy (g : gas) (f : R) : R := hacaMass (haca5 g * hacaRadicals g * f).

(** the temperature at which the code stops replacing the fit by 1; [m] is the mean mass in kg *)
Definition switchT (m : R) : R :=
  (33167 / 1000 - 25786 / 10000 * log10R m) / (154 / 10000 - 112 / 100000 * log10R m).

(** the gas of the examples: 1/20 of every species, 1/1000 of every PAH *)
Definition hotGas (t : R) : gas := mkGas t 101325 (1 / 5) (1 / 20000) 100 (fun _ => 1 / 20) (fun _ => 1 / 1000).
