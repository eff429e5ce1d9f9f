(** Specification vocabulary for gas source balances (C19, C20). *)
From Coq Require Import ZArith List Reals.
From Verif Require Import Num Defs XR SpecChem.
Local Open Scope R_scope.

(** the vector [v] holds exactly the finite per-species values [g] *)
Definition holdsGas (v : list xr) (g : gasSp -> R) : Prop :=
  length v = 11%nat /\ forall sp, nth_error v (gasIdx sp) = Some (Fin (g sp)).

(** sum over the eleven species *)
Definition total (g : gasSp -> R) : R :=
  g O2 + g O_ + g H2 + g H_ + g OH + g H2O + g CO + g C2H2 + g C6H6 + g C_ + g CO2.
(** kmol of an element carried by the mass rates [g] *)
Definition element (atoms : gasSp -> Z) (g : gasSp -> R) : R :=
  total (fun s => g s / molarMass s * IZR (atoms s)).

(** *** the reactions *)
(** a reaction turning [nu sp] molecules of each species (consumed: negative) while
    [n] carbon atoms enter or leave soot; mass rates when the soot mass changes by [x] *)
Definition reacts (nu : gasSp -> R) (n x : R) (sp : gasSp) : R := x / (n * massC) * nu sp * molarMass sp.
(** C2H2 -> 2 C + H2 *)
Definition viaAcetylene : R -> gasSp -> R := reacts (fun sp => match sp with C2H2 => -1 | H2 => 1 | _ => 0 end) 2.
(** gas sources when nucleation forms [x] of soot; LINA1: C6H6 -> 6 C + 3 H2 *)
Definition nuclGas (c : nucleationMech) (x : R) : gasSp -> R :=
  match c with
  | N_NONE | N_PAH | N_size => fun _ => 0
  | N_LINA1 => reacts (fun sp => match sp with C6H6 => -1 | H2 => 3 | _ => 0 end) 6 x
  | N_LL | N_LIN | N_MB | N_FAIR | N_AJ_RED | N_BROWN => viaAcetylene x
  end.
(** gas sources when growth adds [x]; HACA: C2H2 + H + OH -> 2 C + H2 + H2O *)
Definition growGas (c : growthMech) (x : R) : gasSp -> R :=
  match c with
  | G_NONE | G_size => fun _ => 0
  | G_HACA => reacts (fun sp => match sp with C2H2 => -1 | H_ => -1 | OH => -1 | H2 => 1 | H2O => 1 | _ => 0 end) 2 x
  | G_LL | G_LIN | G_MB | G_FAIR => viaAcetylene x
  end.
(** gas sources when oxidation removes [x]: C + 1/2 O2 -> CO; 2 C + OH + 1/2 O2 -> 2 CO + H
    (O2 and OH paths together); C + OH -> CO + H; HACA: 3 C + O2 + OH -> 3 CO + H *)
Definition oxidGas (c : oxidationMech) (x : R) : gasSp -> R :=
  match c with
  | O_NONE | O_size => fun _ => 0
  | O_LL | O_FAIR | O_AJ_RED | O_BROWN => reacts (fun sp => match sp with O2 => -1 / 2 | CO => 1 | _ => 0 end) 1 x
  | O_LEE_NEOH | O_NSC_NEOH | O_OPTJ | O_OPTG =>
      reacts (fun sp => match sp with O2 => -1 / 2 | OH => -1 | CO => 2 | H_ => 1 | _ => 0 end) 2 x
  | O_MB => reacts (fun sp => match sp with OH => -1 | CO => 1 | H_ => 1 | _ => 0 end) 1 x
  | O_HACA => reacts (fun sp => match sp with O2 => -1 | OH => -1 | CO => 3 | H_ => 1 | _ => 0 end) 3 x
  end.
