(** Specification vocabulary for one size in a sectional model (C73) and for the
    length of an explicit time step (C74), over real numbers. *)
From Coq Require Import ZArith List Reals.
From Verif Require Import Num Defs State Coag Nucl SootModel XR SpecChem SpecCoag SpecValid SpecRates SpecPah SpecPsd SpecSect.
Import ListNotations.
Local Open Scope R_scope.

(** [N0] particles, all in bin [p] *)
Definition oneSize (n : list R) (p : nat) (N0 : R) : Prop :=
  (p < length n)%nat /\ forall j, (j < length n)%nat -> el n j = if Nat.eqb j p then N0 else 0.

(** share of the particles of bin [j] that leaves the bin, per unit time: by growth and
    condensation (not from the last bin), by oxidation, by collisions *)
Definition sectLoss (k : mechs) (g : gas) (b n : list R) (o : nucOut) (j : nat) : R :=
  let M0 := number n in let M1 := mass b n in
  (if Nat.eqb (S j) (length b) then 0
   else (kgrow k g M0 M1 * sphere (el b j) + kernel k g (oMass o) (el b j) * oConc o * oMass o) / (el b (S j) - el b j))
  + koxid k g M0 M1 * sphere (el b j) / (if Nat.eqb j 0 then el b 0 else el b j - el b (j - 1))
  + Sum (length b) (fun l => kernel k g (el b j) (el b l) * el n l).
(** share of the particles of one size [M1/M0] lost by collisions, share of their mass burnt *)
Definition monoLoss0 (k : mechs) (g : gas) (M0 M1 : R) : R := 1 / 2 * kernel k g (M1 / M0) (M1 / M0) * M0.
Definition monoLoss1 (k : mechs) (g : gas) (M0 M1 : R) : R :=
  if Rlt_dec 0 M1 then koxid k g M0 M1 * (M0 * sphere (M1 / M0)) / M1 else 0.
(** one explicit step of length [dt] *)
Definition euler (dt : R) (y q : list R) : list R := map (fun p => fst p + dt * snd p) (combine y q).
