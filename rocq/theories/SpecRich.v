(** Specification vocabulary for the effect of one gas species on the soot sources (C70). *)
From Coq Require Import List Reals.
From Verif Require Import Num Defs State SootModel XR SpecValid SpecPsd SpecSigns.
Local Open Scope R_scope.

(** gas [g'] is gas [g] with at least as much of the species [sp] *)
Definition richer (sp : gasSp) (g g' : gas) : Prop :=
  gT g' = gT g /\ gP g' = gP g /\ gRho g' = gRho g /\ gMu g' = gMu g /\ gCMin g' = gCMin g /\ gPah g' = gPah g /\
  gY g sp <= gY g' sp /\ forall x, x <> sp -> gY g' x = gY g x.
(** the soot sources of a call, as numbers *)
Definition sourcesAre (n : nat) (a : model (N:=XR)) (q : nat -> R) : Prop := soots a = map (fun j => Fin (q j)) (seq 0 n).
(** no moment of the sources [q] exceeds that of [q'] *)
Definition momentsLe (p : psdMech) (b : list R) (n : nat) (q q' : nat -> R) : Prop :=
  forall r, carries p n r -> momentOf p b n q r <= momentOf p b n q' r.
