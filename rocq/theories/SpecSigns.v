(** Specification vocabulary for the direction in which each process moves the soot (C66). *)
From Coq Require Import ZArith List Reals.
From Verif Require Import Num Defs State Growth Nucl Oxid Coag SootModel XR SpecChem SpecValid SpecRates SpecGas SpecPsd SpecSect.
Import ListNotations.
Local Open Scope R_scope.

(** source of the [r]-th moment of the mass of the particles: the [r]-th variable, or the sum over the bins *)
Definition momentOf (p : psdMech) (b : list R) (n : nat) (f : nat -> R) (r : nat) : R :=
  match p with P_SECT => Sum n (fun j => el b j ^ r * f j) | _ => f r end.
(** the moments a model carries *)
Definition carries (p : psdMech) (n r : nat) : Prop := p = P_SECT \/ (r < n)%nat.
(** nucleation [A] and growth [B] lower no moment, oxidation [O] raises none, coagulation [C] makes
    no particles, keeps their mass and lowers no higher moment; in the methods of moments surface
    reactions leave the number of particles alone *)
Definition directions (p : psdMech) (b : list R) (n : nat) (A B O C : nat -> R) : Prop :=
  forall r, carries p n r -> let M f := momentOf p b n f r in
  0 <= M A /\ 0 <= M B /\ M O <= 0 /\
  (r = 0%nat -> M C <= 0) /\ (r = 1%nat -> M C = 0) /\ ((2 <= r)%nat -> 0 <= M C) /\
  (r = 0%nat -> p <> P_SECT -> M B = 0 /\ M O = 0).
(** what the mechanisms in use allow *)
Definition directed (p : psdMech) (b : list R) (n : nat) (k : mechs) (y : nat -> R) : Prop :=
  forall r, carries p n r -> let D := momentOf p b n y r in
  (mN k = N_NONE -> mG k = G_NONE -> mO k = O_NONE ->
     (r = 0%nat -> D <= 0) /\ (r = 1%nat -> D = 0) /\ ((2 <= r)%nat -> 0 <= D)) /\
  (mO k = O_NONE -> r = 1%nat -> 0 <= D) /\
  (mN k = N_NONE -> mG k = G_NONE -> (r <= 1)%nat -> D <= 0) /\
  (mN k = N_NONE -> p <> P_SECT -> r = 0%nat -> D <= 0) /\
  (mO k = O_NONE -> mC k = C_NONE \/ (2 <= r)%nat -> 0 <= D) /\
  (mN k = N_NONE -> mG k = G_NONE -> mC k = C_NONE -> D <= 0).
