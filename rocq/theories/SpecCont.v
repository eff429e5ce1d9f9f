(** Specification vocabulary for C82: sequences of gas and soot data that converge. *)
From Coq Require Import ZArith List Reals.
From Verif Require Import Num Defs State XR SootModel SpecChem SpecCoag SpecValid SpecRates SpecGas SpecState SpecPsd SpecSites ValidProofs.
Import ListNotations.
Local Open Scope R_scope.

Definition gasTo (G : nat -> gas) (g : gas) : Prop :=
  Un_cv (fun n => gT (G n)) (gT g) /\ Un_cv (fun n => gP (G n)) (gP g) /\ Un_cv (fun n => gRho (G n)) (gRho g) /\
  Un_cv (fun n => gMu (G n)) (gMu g) /\ Un_cv (fun n => gCMin (G n)) (gCMin g) /\
  forall sp, Un_cv (fun n => gY (G n) sp) (gY g sp).

(** a monodisperse model holds the number source [a], the mass source [b] and the gas sources [c] *)
Definition holdsAll (m : model (N:=XR)) (a b : R) (c : gasSp -> R) : Prop :=
  soots m = [Fin a; Fin b] /\ holdsGas (gases m) c.

(** the state a new state object holds after setState with [hotGas t] and [soot] *)
Definition hotOf (t : R) (soot : list R) : state (N:=XR) :=
  match call (newState (length soot) 0) (argsOf (hotGas t) soot []) with SetOk s => s | SetThrow _ s => s | SetUB => newState 0 0 end.
