(** Specification vocabulary for the effect of temperature on the rates (C77). *)
From Coq Require Import Reals.
From Verif Require Import Defs SpecValid.
Local Open Scope R_scope.

(** [g'] is the gas [g] heated at constant composition and density; pressure and viscosity may be anything *)
Definition hotter (g g' : gas) : Prop :=
  gT g <= gT g' /\ gRho g' = gRho g /\ gCMin g' = gCMin g /\ forall sp, gY g' sp = gY g sp.
(** oxidation mechanisms that heat accelerates *)
Definition activated (c : oxidationMech) : Prop := c <> O_FAIR /\ c <> O_NSC_NEOH /\ c <> O_HACA.
