(** Specification vocabulary: chemical compositions and atomic masses (kg/kmol),
    independent of the library's molecular weight tables. *)
From Coq Require Import ZArith List Reals.
From Verif Require Import Defs.
Local Open Scope R_scope.

Definition massC : R := 12011 / 1000.
Definition massH : R := 1008 / 1000.
Definition massO : R := 15999 / 1000.

(** atoms of C, H, O in one molecule, read off the chemical formula *)
Definition atomsC (s : gasSp) : Z :=
  match s with CO | C_ | CO2 => 1 | C2H2 => 2 | C6H6 => 6 | _ => 0 end.
Definition atomsH (s : gasSp) : Z :=
  match s with H_ | OH => 1 | H2 | H2O | C2H2 => 2 | C6H6 => 6 | _ => 0 end.
Definition atomsO (s : gasSp) : Z :=
  match s with O_ | OH | H2O | CO => 1 | O2 | CO2 => 2 | _ => 0 end.
Definition molarMass (s : gasSp) : R :=
  IZR (atomsC s) * massC + IZR (atomsH s) * massH + IZR (atomsO s) * massO.

Definition pahAtomsC (s : pahSp) : Z :=
  match s with C10H8 => 10 | C12H8 => 12 | C12H10 => 12 | C14H10 => 14 | C16H10 => 16 | C18H10 => 18 end.
Definition pahAtomsH (s : pahSp) : Z :=
  match s with C10H8 => 8 | C12H8 => 8 | C12H10 => 10 | C14H10 => 10 | C16H10 => 10 | C18H10 => 10 end.
Definition pahMolarMass (s : pahSp) : R :=
  IZR (pahAtomsC s) * massC + IZR (pahAtomsH s) * massH.

(** physical constants (per kmol) *)
Definition avogadro : R := IZR (602214076 * 10 ^ 18).
Definition boltzmann : R := IZR 1380649 / IZR (10 ^ 29).
