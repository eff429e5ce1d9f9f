(** Specification vocabulary for coagulation integrated in time (C94). *)
From Coq Require Import ZArith List Reals.
From Verif Require Import Num Defs State Coag Nucl Growth Oxid Tar SootModel Qmom Calls XR SpecValid SpecRates SpecPsd SpecSect SpecStep SpecFinite.
Import ListNotations.
Local Open Scope R_scope.

(** a time loop with one model and one state object: setState with the soot variables [y i], setSourceTerms,
    and [y (i+1)] from the sources by an explicit step of length [dt]; the gas does not change *)
Definition marches (m : model (N:=XR)) (n : nat) (g : gas) (dt : R) (eig : nat -> eigSolver (N:=XR)) (y : nat -> list R) : Prop :=
  forall i, exists st' m' s' q,
    runActions (None, m, newState n 0) (actionsOf (map (fun j => mkStep g (y j) [] (eig j)) (seq 0 (S i)))) = Ok (st', m', s') /\
    soots m' = map Fin q /\ length q = n /\ y (S i) = euler dt (y i) q.

(** coagulation and nothing else *)
Definition coagulate (co : coagulationMech) : mechs := mkMechs N_NONE G_NONE O_NONE co 1.
(** a bound of the share of the particles lost per unit time; the Fuchs kernel is below the free-molecular one (C14) *)
Definition quickest (co : coagulationMech) (g : gas) (N M : R) : R :=
  monoLoss0 (coagulate (match co with C_FUCHS => C_FM | _ => co end)) g N M.
