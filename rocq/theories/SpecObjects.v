(** Specification vocabulary for object lifetimes (C10, C11). *)
From Coq Require Import List Arith.
From Verif Require Import Num Defs SootModel Objects.
Import ListNotations.

Definition live (h : heap) (a : addr) : Prop := exists m, In (a, m) (h_live h).
Definition liveAs (h : heap) (a : addr) (m : mech) : Prop := In (a, m) (h_live h).
Definition hasModel (h : heap) (id : nat) (o : smObj) : Prop := In (id, o) (h_models h).
(** the five mechanisms of a model *)
Definition parts (o : smObj) : list addr := [so_nucl o; so_grow o; so_oxid o; so_coag o; so_tar o].

(** what a careful caller may do: pass its own, not yet deleted mechanisms of the
    right kind to a pointer constructor, destroy existing models, and delete its own mechanisms *)
Inductive allowed (h : heap) : op -> Prop :=
| al_new m : allowed h (OpNew m)
| al_ptr p ns nu gr ox co c tar :
    (forall a, In a [nu; gr; ox; co] -> In a (h_user h)) ->
    liveAs h nu MNucl -> liveAs h gr MGrow -> liveAs h ox MOxid -> liveAs h co (MCoag c) ->
    (forall a, tar = Some a -> In a (h_user h) /\ exists t, liveAs h a (MTar t)) ->
    allowed h (OpPtr p ns nu gr ox co tar)
| al_enum p ns n g o c t : allowed h (OpEnum p ns n g o c t)
| al_delModel id o : hasModel h id o -> allowed h (OpDelModel id)
| al_delMech a : In a (h_user h) -> allowed h (OpDelMech a).

(** histories: from the empty heap, each operation allowed when it is performed *)
Inductive history : list op -> heap -> Prop :=
| hi_nil : history [] heap0
| hi_snoc l h o h' : history l h -> allowed h o -> doOp h o = Ok h' -> history (l ++ [o]) h'.

(** a mechanism nobody will ever release: not the caller's, and not part of a model that owns its parts *)
Definition lost (h : heap) (a : addr) : Prop :=
  live h a /\ ~ In a (h_user h) /\ (forall id o, hasModel h id o -> so_newed o = true -> ~ In a (parts o)).

(** number of mechanisms an operation loses: those allocated before an enumerator
    that names no mechanism is met, and the default tar object *)
Definition losses (o : op) : nat :=
  match o with
  | OpPtr _ _ _ _ _ _ None => 1
  | OpEnum _ _ n g o c t =>
      match n with N_size => 0 | _ =>
      match g with G_size => 1 | _ =>
      match o with O_size => 2 | _ =>
      match c with C_size => 3 | _ =>
      match t with T_size => 4 | _ => 0 end end end end end
  | _ => 0
  end.

(** the operation hands mechanism [a] to a soot model *)
Inductive receives (h : heap) : op -> addr -> Prop :=
| rc_ptr p ns nu gr ox co tar a : In a [nu; gr; ox; co] -> receives h (OpPtr p ns nu gr ox co tar) a
| rc_enum p ns n g o c t a : n <> N_size -> g <> G_size -> o <> O_size -> c <> C_size -> t <> T_size ->
    h_next h <= a < h_next h + 5 -> receives h (OpEnum p ns n g o c t) a.

(** continuing a history without handing out [a] again *)
Inductive quietFor (a : addr) : heap -> heap -> Prop :=
| qu_nil h : quietFor a h h
| qu_cons h o h1 h2 : allowed h o -> ~ receives h o a -> doOp h o = Ok h1 -> quietFor a h1 h2 -> quietFor a h h2.

(** histories in which no mechanism is handed to two models *)
Inductive unshared : list op -> heap -> Prop :=
| un_nil : unshared [] heap0
| un_snoc l h o h' : unshared l h -> allowed h o -> doOp h o = Ok h' ->
    (forall a, receives h o a -> backRef h a = None) -> unshared (l ++ [o]) h'.
