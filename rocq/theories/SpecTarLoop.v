(** Specification vocabulary for BROWN tar integrated in time (C98). *)
From Coq Require Import ZArith List Reals.
From Verif Require Import Num Defs State Coag Nucl Growth Oxid Tar SootModel Qmom Calls XR SpecChem SpecValid SpecRates SpecTar SpecPsd SpecStep SpecFinite.
Import ListNotations.
Local Open Scope R_scope.

(** a time loop with one model and one state object: setState with the soot variables [y i] and the tar [t i], setSourceTerms, and the
    next ones from the sources by an explicit step of length [dt]; the gas does not change *)
Definition tarLoop (m : model (N:=XR)) (s0 : state (N:=XR)) (g : gas) (dt : R) (eig : nat -> eigSolver (N:=XR)) (y : nat -> list R) (t : nat -> R) : Prop :=
  forall i, exists st' m' s' q r,
    runActions (None, m, s0) (actionsOf (map (fun j => mkStep g (y j) [t j] (eig j)) (seq 0 (S i)))) = Ok (st', m', s') /\
    soots m' = map Fin q /\ length q = 2%nat /\ nth_error (tarSources (sm_sources m')) 0 = Some (Fin r) /\
    y (S i) = euler dt (y i) q /\ t (S i) = t i + dt * r.
(** rate constants of Brown and Fletcher (1998): tar to soot, gasification and oxidation of tar *)
Definition tarToSoot (g : gas) : R := arrhenius 502000000 198900000 (gT g).
Definition tarGone (g : gas) : R := arrhenius 97700000000 286900000 (gT g) + conc g O2 * molarMass O2 * arrhenius 677000 52300000 (gT g).
