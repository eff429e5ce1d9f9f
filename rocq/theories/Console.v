(** The warnings that the constructors write to std::cerr.  Nothing else in the
    library writes: state.cc, the mechanisms and the setSourceTerms functions have
    no output statement. *)
From Coq Require Import ZArith List Bool.
From Verif Require Import Num Defs State Coag Nucl Growth Oxid Tar SootModel.
Import ListNotations.

Section Console.
Context {N : Num}.

(** the two texts: sootModel.cc 192-195 and sootModel_QMOM.cc 41-42 (same text 77-78) *)
Inductive warning := WarnHACA | WarnQMOM.

(** a computation that writes warnings and then ends as [res] says *)
Definition logged (A : Type) : Type := list warning * res A.
Definition silent {A} (r : res A) : logged A := ([], r).
Definition say (w : list warning) : logged unit := (w, Ok tt).
Definition lbind {A B} (x : logged A) (f : A -> logged B) : logged B :=
  match snd x with
  | Ok a => (fst x ++ fst (f a), snd (f a))
  | Throw e => (fst x, Throw e)
  | UB u => (fst x, UB u)
  end.

(** sootModel::checkSpec, sootModel.cc 188-197 *)
Definition checkSpec (gr : growObj) (ox : oxidObj) : list warning :=
  let hg := match gr_mech gr with G_HACA => true | _ => false end in
  let ho := match ox_mech ox with O_HACA => true | _ => false end in
  if (hg && negb ho) || (ho && negb hg) then [WarnHACA] else [].

(** after the checks of the derived constructors, sootModel_QMOM.cc 40-42 and 76-78 *)
Definition warnQMOM (p : psdMech) (nsoot : nat) : list warning :=
  match p with P_QMOM => if Nat.ltb 6 nsoot then [WarnQMOM] else [] | _ => [] end.

(** both constructors end like this: checkSpec in the base class (sootModel.cc 69
    and 179), then the body of the derived one *)
Definition buildLogged (newed : bool) (p : psdMech) (nsoot : nat) (nu : nuclObj) (gr : growObj) (ox : oxidObj)
    (co : coagObj) (Ntar : nat) (ta : tarObj) (F : num) (cMin_ : Z) : logged model :=
  lbind (say (checkSpec gr ox)) (fun _ =>
  lbind (silent (derivedCheck p nsoot (co_mech co) (ta_mech ta))) (fun _ =>
  lbind (say (warnQMOM p nsoot)) (fun _ =>
  silent (Ok (mkModel p nsoot Ntar nu gr ox co ta newed (initBins p nsoot F cMin_) (newSources nsoot Ntar)
                      (initPriv p nsoot (nu_mech nu) F)))))).
Definition constructPtrLogged := buildLogged false.

(** sootModel.cc 90-180: the mechanisms are made first *)
Definition constructEnumLogged (p : psdMech) (nsoot : nat) (n : nucleationMech) (g : growthMech) (o : oxidationMech)
    (c : coagulationMech) (Ntar : nat) (t : tarMech) (F : num) (cMin_ : Z) : logged model :=
  lbind (silent (mkNuclEnum n)) (fun nu => lbind (silent (mkGrowEnum g)) (fun gr => lbind (silent (mkOxidEnum o)) (fun ox =>
  lbind (silent (mkCoagEnum c)) (fun co => lbind (silent (mkTarEnum t)) (fun ta =>
  buildLogged true p nsoot nu gr ox co Ntar ta F cMin_))))).

End Console.
