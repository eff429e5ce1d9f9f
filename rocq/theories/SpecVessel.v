(** Specification vocabulary for closed vessels integrated in time (C89). *)
From Coq Require Import ZArith List Bool Reals.
From Verif Require Import Num Defs State Coag Nucl Growth Oxid Tar SootModel Qmom Calls XR SpecChem SpecValid SpecRates SpecGas SpecPsd SpecSect SpecFinite.
Import ListNotations.
Local Open Scope R_scope.

(** content of a closed vessel: density of each gas species, of the gases the library does not know, and
    the soot variables *)
Record vessel := mkVessel { vGas : gasSp -> R; vRest : R; vSoot : nat -> R }.
(** rates of change of the gas densities and soot variables *)
Record rates := mkRates { rGas : gasSp -> R; rSoot : nat -> R }.
(** the vessel changed by c times the rates *)
Definition moved (v : vessel) (c : R) (r : rates) : vessel :=
  mkVessel (fun sp => vGas v sp + c * rGas r sp) (vRest v) (fun i => vSoot v i + c * rSoot r i).
(** the start changed by a linear combination of rates, as any explicit method forms it *)
Fixpoint combined (v : vessel) (cs : list R) (rs : list rates) : vessel :=
  match cs, rs with c :: cs', r :: rs' => moved (combined v cs' rs') c r | _, _ => v end.

(** what the solver chooses for an evaluation *)
Record control := mkControl { cT : R; cP : R; cMu : R; cEig : eigSolver (N:=XR) }.
Definition density (v : vessel) : R := vRest v + total (vGas v).
Definition soot (n : nat) (v : vessel) : list R := map (vSoot v) (seq 0 n).
(** the evaluation: setState with the content of the vessel, then setSourceTerms *)
Definition evaluation (n nt : nat) (c : control) (v : vessel) : step :=
  mkStep (mkGas (cT c) (cP c) (density v) (cMu c) 100 (fun sp => vGas v sp / density v) (fun _ => 0))
    (soot n v) (repeat 0 nt) (cEig c).
(** the model holds these rates *)
Definition holds (n : nat) (m : model (N:=XR)) (r : rates) : Prop :=
  holdsGas (gases m) (rGas r) /\ soots m = map (fun i => Fin (rSoot r i)) (seq 0 n).

(** [hist] is a history of evaluations with one soot model and one state object, [rs] the rates
    they gave, latest first; each at the start changed by any combination of earlier rates *)
Inductive visited (ok : step -> Prop) (n nt : nat) (m : model (N:=XR)) (v : vessel) : list step -> list rates -> Prop :=
| first : visited ok n nt m v [] []
| next hist rs cs c st' m' s' r : visited ok n nt m v hist rs -> ok (evaluation n nt c (combined v cs rs)) ->
    runActions (None, m, newState n nt) (actionsOf (hist ++ [evaluation n nt c (combined v cs rs)])) = Ok (st', m', s') ->
    holds n m' r -> visited ok n nt m v (hist ++ [evaluation n nt c (combined v cs rs)]) (r :: rs).

(** the same mass and the same atoms of carbon, hydrogen and oxygen; soot is carbon *)
Definition sootMass (p : psdMech) (b : list R) (n : nat) (v : vessel) : R := soot1 p b (soot n v).
Definition sameContent (p : psdMech) (b : list R) (n : nat) (v w : vessel) : Prop :=
  density v + sootMass p b n v = density w + sootMass p b n w /\
  element atomsC (vGas v) + sootMass p b n v / massC = element atomsC (vGas w) + sootMass p b n w / massC /\
  element atomsH (vGas v) = element atomsH (vGas w) /\ element atomsO (vGas v) = element atomsO (vGas w).
(** an example: soot, acetylene and oxygen *)
Definition someVessel : vessel := mkVessel (fun sp => match sp with C2H2 | O2 => 1 / 100 | _ => 0 end) (1 / 5) (fun i => INR (S i)).
