(** Specification vocabulary for nucleation and coagulation integrated in time (C97). *)
From Coq Require Import ZArith List Reals.
From Verif Require Import Num Defs State Coag Nucl Growth Oxid Tar SootModel Qmom Calls XR SpecChem SpecValid SpecRates SpecPsd SpecSect SpecStep SpecFinite.
Import ListNotations.
Local Open Scope R_scope.

(** a time loop with one model and one state object: setState with the gas [g i] and the soot variables [y i], setSourceTerms,
    and [y (i+1)] from the sources by an explicit step of length [dt i] *)
Definition integrates (m : model (N:=XR)) (n : nat) (g : nat -> gas) (dt : nat -> R) (eig : nat -> eigSolver (N:=XR)) (y : nat -> list R) : Prop :=
  forall i, exists st' m' s' q,
    runActions (None, m, newState n 0) (actionsOf (map (fun j => mkStep (g j) (y j) [] (eig j)) (seq 0 (S i)))) = Ok (st', m', s') /\
    soots m' = map Fin q /\ length q = n /\ y (S i) = euler (dt i) (y i) q.
(** the mass of the nuclei formed in the first [i] steps; a nucleus has cMin carbon atoms *)
Definition nucleated (nu : nucleationMech) (g : nat -> gas) (dt : nat -> R) (i : nat) : R :=
  Sum i (fun j => dt j * (nuclFormula nu (g j) * (gCMin (g j) * massC / avogadro))).
