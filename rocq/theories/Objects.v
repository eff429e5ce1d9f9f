(** Object identity: who allocates, who releases and which soot model a mechanism
    refers back to.  src/sootModel.h 78-103, src/sootModel.cc 60-180.

    Only allocation, release and the back pointers [SM] are represented; the
    contents of the objects are in SootModel.v.  Addresses are never reused.
    A soot model is named by the number of constructor calls that preceded its own. *)
From Coq Require Import ZArith List Bool.
From Verif Require Import Num Defs SootModel Growth.
Import ListNotations.

Definition addr := nat.

(** a mechanism object: its kind and (where a constructor looks at it) its type *)
Inductive mech :=
| MNucl | MGrow | MOxid | MCoag (e : coagulationMech) | MTar (e : tarMech).

(** the members of class sootModel that matter here, sootModel.h 34-43 *)
Record smObj := mkSM {
  so_nucl : addr; so_grow : addr; so_oxid : addr; so_coag : addr; so_tar : addr;
  so_newed : bool }.

Record heap := mkHeap {
  h_next : addr;                       (** next fresh mechanism address *)
  h_live : list (addr * mech);         (** allocated and not yet released mechanisms *)
  h_freed : list addr;                 (** releases performed, latest first *)
  h_SM : list (addr * nat);            (** assignments [mech->SM = this], latest first *)
  h_models : list (nat * smObj);       (** live soot models *)
  h_count : nat;                       (** constructor calls so far *)
  h_user : list addr }.                (** mechanisms the caller allocated and has not deleted *)

Definition heap0 : heap := mkHeap 0 [] [] [] [] 0 [].

Definition find_ {A} (k : nat) (l : list (nat * A)) : option A :=
  match find (fun p => Nat.eqb (fst p) k) l with Some p => Some (snd p) | None => None end.
Definition remove_ {A} (k : nat) (l : list (nat * A)) : list (nat * A) :=
  filter (fun p => negb (Nat.eqb (fst p) k)) l.

(** new *)
Definition alloc (h : heap) (m : mech) : addr * heap :=
  (h_next h, mkHeap (S (h_next h)) ((h_next h, m) :: h_live h) (h_freed h) (h_SM h) (h_models h) (h_count h) (h_user h)).

(** delete of a mechanism; releasing an object that is not live is undefined *)
Definition release (h : heap) (a : addr) : res heap :=
  match find_ a (h_live h) with
  | Some _ => Ok (mkHeap (h_next h) (remove_ a (h_live h)) (a :: h_freed h) (h_SM h) (h_models h) (h_count h) (h_user h))
  | None => UB Dangling
  end.

Definition setSM (h : heap) (l : list addr) (id : nat) : heap :=
  mkHeap (h_next h) (h_live h) (h_freed h) (rev (map (fun a => (a, id)) l) ++ h_SM h) (h_models h) (h_count h) (h_user h).
Definition addModel (h : heap) (id : nat) (o : smObj) : heap :=
  mkHeap (h_next h) (h_live h) (h_freed h) (h_SM h) ((id, o) :: h_models h) (h_count h) (h_user h).
Definition bump (h : heap) : heap :=
  mkHeap (h_next h) (h_live h) (h_freed h) (h_SM h) (h_models h) (S (h_count h)) (h_user h).
Definition setUser (h : heap) (u : list addr) : heap :=
  mkHeap (h_next h) (h_live h) (h_freed h) (h_SM h) (h_models h) (h_count h) u.
Definition dropModel (h : heap) (id : nat) : heap :=
  mkHeap (h_next h) (h_live h) (h_freed h) (h_SM h) (remove_ id (h_models h)) (h_count h) (h_user h).

(** ~sootModel, sootModel.h 95-103 *)
Definition destroy (h : heap) (o : smObj) : res heap :=
  if so_newed o then
    h <- release h (so_nucl o) ;; h <- release h (so_grow o) ;; h <- release h (so_oxid o) ;;
    h <- release h (so_coag o) ;; release h (so_tar o)
  else Ok h.

(** What the caller does. *)
Inductive op :=
| OpNew (m : mech)                                  (** new nucleationModel_X and so on *)
| OpPtr (p : psdMech) (nsoot : nat) (nu gr ox co : addr) (tar : option addr)
                                                    (** pointer constructor; None = the default argument *)
| OpEnum (p : psdMech) (nsoot : nat) (n : nucleationMech) (g : growthMech) (o : oxidationMech)
         (c : coagulationMech) (t : tarMech)        (** enumerator constructor *)
| OpDelModel (id : nat)                             (** delete / end of life of a soot model *)
| OpDelMech (a : addr).                             (** the caller deletes a mechanism *)

Definition ok {A} (r : res A) : bool := match r with Ok _ => true | _ => false end.

(** Pointer constructor.  The base constructor stores the four back pointers
    (sootModel.cc 66-74), then the derived constructor's check may throw; then the
    base destructor runs (nothing to release).  The default argument
    [new tarModel_NONE] is evaluated before the call. *)
Definition doPtr (h : heap) (p : psdMech) (nsoot : nat) (nu gr ox co : addr) (tar : option addr) : res heap :=
  let id := h_count h in
  let h := bump h in
  let '(ta, h) := match tar with Some a => (a, h) | None => alloc h (MTar T_NONE) end in
  match find_ nu (h_live h), find_ gr (h_live h), find_ ox (h_live h), find_ co (h_live h), find_ ta (h_live h) with
  | Some MNucl, Some MGrow, Some MOxid, Some (MCoag c), Some (MTar t) =>
      let h := setSM h [nu; gr; ox; co] id in
      if ok (derivedCheck p nsoot c t) then Ok (addModel h id (mkSM nu gr ox co ta false))
      else destroy h (mkSM nu gr ox co ta false)
  | _, _, _, _, _ => UB Dangling
  end.

(** the enumerator has no case in the constructor's switch (sootModel.cc 99-170) *)
Definition sizeN (n : nucleationMech) : bool := match n with N_size => true | _ => false end.
Definition sizeG (g : growthMech) : bool := match g with G_size => true | _ => false end.
Definition sizeO (o : oxidationMech) : bool := match o with O_size => true | _ => false end.
Definition sizeC (c : coagulationMech) : bool := match c with C_size => true | _ => false end.
Definition sizeT (t : tarMech) : bool := match t with T_size => true | _ => false end.

(** Enumerator constructor.  Mechanisms are allocated in order; an invalid
    enumerator throws out of the base constructor (no destructor runs); a failing
    derived check runs the base destructor. *)
Definition doEnum (h : heap) (p : psdMech) (nsoot : nat) (n : nucleationMech) (g : growthMech) (o : oxidationMech)
    (c : coagulationMech) (t : tarMech) : res heap :=
  let id := h_count h in
  let h := bump h in
  if sizeN n then Ok h else
  let '(a1, h) := alloc h MNucl in
  if sizeG g then Ok h else
  let '(a2, h) := alloc h MGrow in
  if sizeO o then Ok h else
  let '(a3, h) := alloc h MOxid in
  if sizeC c then Ok h else
  let '(a4, h) := alloc h (MCoag c) in
  if sizeT t then Ok h else
  let '(a5, h) := alloc h (MTar t) in
  let h := setSM h [a1; a2; a3; a4; a5] id in
  if ok (derivedCheck p nsoot c t) then Ok (addModel h id (mkSM a1 a2 a3 a4 a5 true))
  else destroy h (mkSM a1 a2 a3 a4 a5 true).

Definition doOp (h : heap) (o : op) : res heap :=
  match o with
  | OpNew m => let '(a, h) := alloc h m in Ok (setUser h (a :: h_user h))
  | OpPtr p ns nu gr ox co tar => doPtr h p ns nu gr ox co tar
  | OpEnum p ns n g o c t => doEnum h p ns n g o c t
  | OpDelModel id =>
      match find_ id (h_models h) with
      | Some so => h <- destroy h so ;; Ok (dropModel h id)
      | None => UB Dangling
      end
  | OpDelMech a =>
      h <- release h a ;; Ok (setUser h (filter (fun b => negb (Nat.eqb b a)) (h_user h)))
  end.

Definition runOps (h : heap) (l : list op) : res heap := foldM doOp l h.

(** sootModel_delete_C_interface, c_interface.cc 227-235: deletes the model and
    then the five mechanisms it is given *)
Definition deleteAll_C (id : nat) (nu gr ox co ta : addr) : list op :=
  [OpDelModel id; OpDelMech nu; OpDelMech gr; OpDelMech ox; OpDelMech co; OpDelMech ta].

(** the soot model a mechanism refers to through [SM] *)
Definition backRef (h : heap) (a : addr) : option nat := find_ a (h_SM h).

(** What a mechanism sees when it reads [SM->...]: the members of the model it refers
    to, if that model is alive; [view] gives them for each model. *)
Definition seenThrough (h : heap) {N : Num} (view : nat -> smView) (a : addr) : res smView :=
  match backRef h a with
  | Some id => match find_ id (h_models h) with Some _ => Ok (view id) | None => UB Dangling end
  | None => UB Uninit
  end.
