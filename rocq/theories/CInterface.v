(** The C interface used by the Fortran module: src/fortran_wraps/c_interface.cc.
    A C pointer argument is represented by the list of the doubles that may be
    read through it. *)
From Coq Require Import ZArith List Bool.
From Verif Require Import Num Defs State Coag Nucl Growth Oxid Tar SootModel Qmom Calls.
Import ListNotations.
Local Open Scope num_scope.

Section CInterface.
Context {N : Num}.

(** [std::vector<double> v(p, p + n)]: reads p[0..n-1].  A negative count makes
    an invalid range (undefined behaviour). *)
Definition copyRange (p : list num) (n : Z) : res (list num) :=
  if (n <? 0)%Z then UB OutOfBounds
  else mapM (fun i => vget p i) (seq 0 (Z.to_nat n)).

(** setState_C_interface, 304-315.  [cMin_] is accepted and not passed on, so
    the default 100.0 of state.h 78 is used. *)
Definition setState_C (s : state) (T_ P_ rhoGas_ muGas_ : num) (yGas_ yPAH_ sootVar_ : list num) (nsoot_ : Z)
    (tarVar_ : list num) (Ntar_ : Z) (cMin_ : num) : setOutcome :=
  match copyRange yGas_ 10, copyRange yPAH_ 6, copyRange sootVar_ nsoot_, copyRange tarVar_ Ntar_ with
  | Ok yg, Ok yp, Ok sv, Ok tv =>
      setState s T_ P_ rhoGas_ muGas_ yg yp sv nsoot_ tv Ntar_ (nZ 100)
  | _, _, _, _ => SetUB
  end.

(** getters, 316-334, 357-363 and 369-375 (the enumerator is the index) *)
Definition getGasSpC_C := getGasSpC.
Definition getGasSpP_C := getGasSpP.
Definition get_pahSpC_C := get_pahSpC.
Definition get_pahSpP_C := get_pahSpP.
Definition get_yGas_C (s : state) (sp : gasSp) : res num := vget (yGas s) (gasIdx sp).
Definition get_yPAH_C (s : state) (sp : pahSp) : res num := vget (yPah s) (pahIdx sp).
Definition get_SootVar_C (s : state) (i : Z) : res num := vgetZ (sootVar s) i.
Definition get_TarVar_C (s : state) (i : Z) : res num := vgetZ (tarVar s) i.

(** getyBio_interface, 340-343 *)
Definition getyBio_C (s : state) (p : list num) : res state :=
  y <- copyRange p 5 ;; Ok (with_yBio s y).

(** getSootSources_interface 377-383, getGasSources_interface 384-387,
    getTarSources_interface 388-392: the loops write the sources one by one into
    the caller's buffer [buf]; a count below 1 writes nothing. *)
Definition copyOut (buf src : list num) (n : nat) : res (list num) :=
  foldM (fun b i => x <- vget src i ;; vset b i x) (seq 0 n) buf.
Definition getSootSources_C (buf : list num) (m : model) (n : Z) : res (list num) :=
  copyOut buf (sootSources (sm_sources m)) (Z.to_nat n).
Definition getGasSources_C (buf : list num) (m : model) : res (list num) :=
  copyOut buf (gasSources (sm_sources m)) gasSize.
Definition getTarSources_C (buf : list num) (m : model) (n : Z) : res (list num) :=
  copyOut buf (tarSources (sm_sources m)) (Z.to_nat n).

(** A program that calls setState_C_interface (304-315) and
    setSourceTerms_C_interface (287-289).  An exception leaves the C function; a C
    or Fortran caller cannot catch it, so the history ends. *)
Inductive cAction :=
| CSet (T_ P_ rhoGas_ muGas_ : num) (yGas_ yPAH_ sootVar_ : list num) (nsoot_ : Z) (tarVar_ : list num)
       (Ntar_ : Z) (cMin_ : num)
| CSrc (eig : eigSolver).

Definition doC (c : option num * model * state) (a : cAction) : res (option num * model * state) :=
  let '(g, m, s) := c in
  match a with
  | CSet t p rho mu yg yp sv ns tv nt cm =>
      match setState_C s t p rho mu yg yp sv ns tv nt cm with
      | SetOk s' => Ok (g, m, s')
      | SetThrow e _ => Throw e
      | SetUB => UB OutOfBounds
      end
  | CSrc eig => setSourceTerms g eig m s
  end.
Definition runC (c : option num * model * state) (l : list cAction) : res (option num * model * state) :=
  foldM doC l c.

End CInterface.
