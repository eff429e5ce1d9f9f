(** Specification vocabulary for PAH nucleation and condensation (C42-C45). *)
From Coq Require Import ZArith List Reals.
From Verif Require Import Num Defs State XR SpecChem SpecCoag SpecValid SpecRates.
Import ListNotations.
Local Open Scope R_scope.

(** some PAH is present *)
Definition somePah (g : gas) : Prop := exists sp, gPah g sp <> 0.
Definition noPah (g : gas) : Prop := forall sp, gPah g sp = 0.
(** PAH molecules consumed per volume and time *)
Definition pahTotal (g : gas) : R := pahSum (pahLoss g).
(** numbers of atoms of a consumed PAH molecule, on average *)
Definition meanC (g : gas) : R := pahSum (fun sp => pahLoss g sp * IZR (pahAtomsC sp)) / pahTotal g.
Definition meanH (g : gas) : R := pahSum (fun sp => pahLoss g sp * IZR (pahAtomsH sp)) / pahTotal g.
(** carbon mass removed from the PAH species per volume and time *)
Definition pahCarbon (g : gas) : R := pahSum (fun sp => pahLoss g sp * IZR (pahAtomsC sp) * (massC / avogadro)).

(** [n] is the positive steady state of production [p], self collision [b n^2] and loss [i n] *)
Definition steady (b i p n : R) : Prop :=
  0 < n /\ b * n ^ 2 + i * n = p /\ forall x, 0 < x -> b * x ^ 2 + i * x = p -> x = n.
Definition steadyVal (b i p : R) : R := 2 * p / (i + sqrt (i ^ 2 + 4 * b * p)).

(** gas data with another cMin *)
Definition gasCMin (g : gas) (c : R) : gas := mkGas (gT g) (gP g) (gRho g) (gMu g) c (gY g) (gPah g).
(** the cMin, dimer mass and H2/C ratio the code computes *)
Definition pahCMin (g : gas) : R := if Rlt_dec 0 (pahTotal g) then 2 * meanC g + gCMin g / pahTotal g else gCMin g.
Definition pahHMin (g : gas) : R := if Rlt_dec 0 (pahTotal g) then 2 * meanH g else 0.
Definition dimerMass (g : gas) : R := if Rlt_dec 0 (pahTotal g) then meanC g * (massC / avogadro) else 0.
(** dimer concentration and nucleation rate when dimers hit soot at rate [i] per dimer *)
Definition dimerConc (g : gas) (i : R) : R :=
  if Rlt_dec 0 (pahTotal g) then steadyVal (betaSelf (gT g) (dimerMass g)) i (pahTotal g / 2) else 0.
Definition pahNuclRate (g : gas) (i : R) : R := 1 / 2 * betaSelf (gT g) (dimerMass g) * dimerConc g i ^ 2.
