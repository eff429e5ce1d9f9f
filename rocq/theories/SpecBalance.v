(** Specification vocabulary for the overall mass balance (C21). *)
From Coq Require Import List Reals.
From Verif Require Import Num Defs State SootModel XR SpecChem SpecGas SpecPsd.
Local Open Scope R_scope.

(** the soot source of index [r] is the number [y] *)
Definition sourceIs (m : model (N:=XR)) (r : nat) (y : R) : Prop := nth_error (soots m) r = Some (Fin y).
(** the gas sources are finite and, together with the soot mass source [y] (carbon), sum
    to 0: in mass, and in atoms of carbon, hydrogen and oxygen *)
Definition massBalanced (m : model (N:=XR)) (y : R) : Prop :=
  exists q, holdsGas (gases m) q /\ total q + y = 0 /\
    element atomsC q + y / massC = 0 /\ element atomsH q = 0 /\ element atomsO q = 0.

(** *** C45: PAH nucleation without PAH *)
(** the same mechanisms without nucleation *)
Definition noNucl (k : mechs) : mechs := mkMechs N_NONE (mG k) (mO k) (mC k) (mF k).
(** [m] holds the soot sources of [m0] and its gas sources, and no PAH source *)
Definition likeWithout (m m0 : model (N:=XR)) : Prop :=
  soots m = soots m0 /\ gases m = gases m0 /\ pahs m = map (fun _ => Fin 0) allPah.
