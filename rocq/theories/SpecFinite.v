(** Specification vocabulary for finite source terms (C63). *)
From Coq Require Import ZArith List Bool Reals.
From Verif Require Import Num Defs State Coag Nucl Growth Oxid Tar SootModel Qmom Calls XR SpecValid SpecRates SpecPah SpecPsd SpecSect SpecMomic.
Import ListNotations.
Local Open Scope R_scope.

(** every number of the list is a real number: no infinity, no NaN *)
Definition allFinite (l : list xr) : Prop := forall x, In x l -> exists r, x = Fin r.
Definition finiteSources (m : model (N:=XR)) : Prop :=
  allFinite (soots m) /\ allFinite (gases m) /\ allFinite (pahs m) /\
  allFinite (tarSources (sm_sources m)) /\ allFinite (tarGasSources (sm_sources m)).

(** one time step of a flow solver: setState with these data, then setSourceTerms *)
Record step := mkStep { spGas : gas; spSoot : list R; spTar : list R; spEig : eigSolver (N:=XR) }.
Definition actionsOf (l : list step) : list (action (N:=XR)) :=
  flat_map (fun x => [setTo (spGas x) (spSoot x) (spTar x); ASrc (spEig x)]) l.

(** number and mass density of soot, from the soot variables *)
Definition soot0 (p : psdMech) (soot : list R) : R := match p with P_SECT => number soot | _ => el soot 0 end.
Definition soot1 (p : psdMech) (b soot : list R) : R := match p with P_SECT => mass b soot | _ => el soot 1 end.

(** physical data of the right sizes, away from the hole of the HACA fit (C18); PAH with the two
    closures that take logarithms needs some PAH and positive moments; interpolated
    free-molecular coagulation needs no soot at all or positive moments *)
Definition goodStep (p : psdMech) (k : mechs) (b : list R) (n nt : nat) (x : step) : Prop :=
  physical (spGas x) /\ length (spSoot x) = n /\ length (spTar x) = nt /\
  (forall y, In y (spSoot x) -> 0 <= y) /\ (forall y, In y (spTar x) -> 0 <= y) /\
  regular k (spGas x) (soot0 p (spSoot x)) (soot1 p b (spSoot x)) /\
  match p with
  | P_LOGN => mN k = N_PAH -> somePah (spGas x) /\ 0 < el (spSoot x) 0 /\ 0 < el (spSoot x) 1
  | P_MOMIC => (mN k = N_PAH -> somePah (spGas x) /\ allPos (spSoot x)) /\
               (mC k <> C_CONTINUUM -> el (spSoot x) 0 = 0 \/ allPos (spSoot x))
  | _ => True
  end.

(** configurations: nucleation from the gas or from PAH, no tar, not HMOM (C41), and the sizes for
    which no call ends in an exception or undefined behaviour (C33, C38, C28) *)
Definition goodConfig (p : psdMech) (n : nat) (nu : nucleationMech) (co : coagulationMech) (ta : tarMech) (F : R) (c : Z) : Prop :=
  (gasOnly nu \/ nu = N_PAH) /\ ta = T_NONE /\
  match p with
  | P_MONO | P_LOGN => True
  | P_QMOM => co = C_NONE \/ (n <= 34)%nat
  | P_SECT => doubleAbove1 F /\ (0 < c)%Z /\ sane n
  | P_MOMIC => (n <= 7)%nat
  | _ => False
  end.
