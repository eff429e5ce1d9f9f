(** Properties C19, C20: gas rates of the mechanisms balance the soot mass rate.
    [mdot] is the rate at which the mechanism adds (negative: removes) soot mass;
    soot is carbon. *)
From Coq Require Import ZArith List Reals.
From Verif Require Import Num Defs State Nucl Growth Oxid XR SpecChem SpecGas GasProofs.
Local Open Scope R_scope.

(** ** C19 *)
Theorem C19_nucleation_mass : forall c mdot, c <> N_PAH -> c <> N_size ->
  exists g, holdsGas (getNucleationGasRates (@newNucl XR c) (Fin mdot) (zeros gasSize)) g /\
    total g = match c with N_NONE => 0 | _ => - mdot end /\ g C_ = 0.
Proof. exact C19_nucl. Qed.
Print Assumptions C19_nucleation_mass.

Theorem C19_growth_mass : forall c mdot, c <> G_size ->
  exists g, holdsGas (getGrowthGasRates (@newGrow XR c) (Fin mdot) (zeros gasSize)) g /\
    total g = match c with G_NONE => 0 | _ => - mdot end /\ g C_ = 0.
Proof. exact C19_grow. Qed.
Print Assumptions C19_growth_mass.

Theorem C19_oxidation_mass : forall c mdot, c <> O_size ->
  exists g, holdsGas (getOxidationGasRates (@newOxid XR c) (Fin mdot) (zeros gasSize)) g /\
    total g = match c with O_NONE => 0 | _ => - mdot end /\ g C_ = 0.
Proof. exact C19_oxid. Qed.
Print Assumptions C19_oxidation_mass.

(** ** C20 *)
Theorem C20_nucleation_elements : forall c mdot, c <> N_PAH -> c <> N_size -> c <> N_NONE ->
  exists g, holdsGas (getNucleationGasRates (@newNucl XR c) (Fin mdot) (zeros gasSize)) g /\
    element atomsC g + mdot / massC = 0 /\ element atomsH g = 0 /\ element atomsO g = 0.
Proof. exact C20_nucl. Qed.
Print Assumptions C20_nucleation_elements.

Theorem C20_growth_elements : forall c mdot, c <> G_size -> c <> G_NONE ->
  exists g, holdsGas (getGrowthGasRates (@newGrow XR c) (Fin mdot) (zeros gasSize)) g /\
    element atomsC g + mdot / massC = 0 /\ element atomsH g = 0 /\ element atomsO g = 0.
Proof. exact C20_grow. Qed.
Print Assumptions C20_growth_elements.

Theorem C20_oxidation_elements : forall c mdot, c <> O_size -> c <> O_NONE ->
  exists g, holdsGas (getOxidationGasRates (@newOxid XR c) (Fin mdot) (zeros gasSize)) g /\
    element atomsC g + mdot / massC = 0 /\ element atomsH g = 0 /\ element atomsO g = 0.
Proof. exact C20_oxid. Qed.
Print Assumptions C20_oxidation_elements.

(** NONE produces no gas rates at all *)
Theorem C20_none_zero : forall mdot,
  holdsGas (getNucleationGasRates (@newNucl XR N_NONE) (Fin mdot) (zeros gasSize)) (fun _ => 0) /\
  holdsGas (getGrowthGasRates (@newGrow XR G_NONE) (Fin mdot) (zeros gasSize)) (fun _ => 0) /\
  holdsGas (getOxidationGasRates (@newOxid XR O_NONE) (Fin mdot) (zeros gasSize)) (fun _ => 0).
Proof. exact C20_none. Qed.
Print Assumptions C20_none_zero.

Example C19_hyps : N_LINA1 <> N_PAH /\ N_LINA1 <> N_size /\ N_LINA1 <> N_NONE /\ G_HACA <> G_size /\ G_HACA <> G_NONE
  /\ O_HACA <> O_size /\ O_HACA <> O_NONE.
Proof. repeat split; discriminate. Qed.

(** ** C59: each species' source is that of the mechanism's reaction *)
Theorem C59_nucleation : forall c mdot, c <> N_PAH -> c <> N_size ->
  holdsGas (getNucleationGasRates (@newNucl XR c) (Fin mdot) (zeros gasSize)) (nuclGas c mdot).
Proof. exact nucl_each. Qed.
Print Assumptions C59_nucleation.
Theorem C59_growth : forall c mdot, c <> G_size ->
  holdsGas (getGrowthGasRates (@newGrow XR c) (Fin mdot) (zeros gasSize)) (growGas c mdot).
Proof. exact grow_each. Qed.
Print Assumptions C59_growth.
(** [mdot] is what oxidation adds to soot: minus what it burns *)
Theorem C59_oxidation : forall c mdot, c <> O_size ->
  holdsGas (getOxidationGasRates (@newOxid XR c) (Fin mdot) (zeros gasSize)) (oxidGas c (- mdot)).
Proof. exact oxid_each. Qed.
Print Assumptions C59_oxidation.
Example C59_case : N_LINA1 <> N_PAH /\ N_LINA1 <> N_size /\ G_HACA <> G_size /\ O_HACA <> O_size /\
  nuclGas N_LINA1 (6 * massC) C6H6 = - molarMass C6H6 /\ oxidGas O_HACA (3 * massC) CO = 3 * molarMass CO.
Proof. unfold nuclGas, oxidGas, reacts. repeat split; try discriminate; unfold massC; field. Qed.
