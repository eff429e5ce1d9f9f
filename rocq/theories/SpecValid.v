(** Specification vocabulary: states holding physically meaningful real values. *)
From Coq Require Import ZArith List Reals.
From Verif Require Import Num Defs State XR SpecChem SpecCoag.
Import ListNotations.
Local Open Scope R_scope.

(** gas-phase data: temperature, pressure, density, viscosity, cMin, mass fractions *)
Record gas := mkGas {
  gT : R; gP : R; gRho : R; gMu : R; gCMin : R;
  gY : gasSp -> R; gPah : pahSp -> R }.
Definition okGas (g : gas) : Prop :=
  0 < gT g /\ 0 < gP g /\ 0 < gRho g /\ 0 < gMu g /\ 0 < gCMin g /\
  (forall sp, 0 <= gY g sp) /\ (forall sp, 0 <= gPah g sp).

(** the state object holds the gas data [g] and the soot variables [soot], all
    physical (what setState stores for such arguments, see [valid_reached]) *)
Definition valid (s : state (N:=XR)) (g : gas) (soot : list R) : Prop :=
  okGas g /\ gasState s (gT g) (gP g) (gRho g) (gMu g) /\ cMin s = Fin (gCMin g) /\
  length (yGas s) = 11%nat /\ (forall sp, nth_error (yGas s) (gasIdx sp) = Some (Fin (gY g sp))) /\
  length (yPah s) = 6%nat /\ (forall sp, nth_error (yPah s) (pahIdx sp) = Some (Fin (gPah g sp))) /\
  sootVar s = map Fin soot /\ st_nsoot s = Z.of_nat (length soot) /\ (forall x, In x soot -> 0 <= x).

(** concentration (kmol/m3) and partial pressure (Pa) of a gas species *)
Definition conc (g : gas) (sp : gasSp) : R := gRho g * gY g sp / molarMass sp.
Definition partialP (g : gas) (sp : gasSp) : R := conc g sp * (avogadro * boltzmann * gT g).

(** list versions used to build examples *)
Definition gasVec (y : gasSp -> R) : list R := map y allGas.
Definition pahVec (y : pahSp -> R) : list R := map y allPah.
(** gas data that setState accepts *)
Definition physical (g : gas) : Prop :=
  okGas g /\ (forall sp, gY g sp <= 1) /\ fold_left Rplus (pahVec (gPah g)) 0 <= 1.
