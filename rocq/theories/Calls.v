(** The public virtual call [setSourceTerms] and sequences of calls. *)
From Coq Require Import ZArith List Bool.
From Verif Require Import Num Defs State Coag Nucl Growth Oxid Tar SootModel Mono Logn Qmom Momic Sect Hmom.
Import ListNotations.

Section Calls.
Context {N : Num}.

(** virtual dispatch on the class of the object, sootModel.h 50.  [g] is the
    process-wide static of the sectional model (None = not yet initialised),
    [eig] the LAPACK eigen-solver. *)
Definition setSourceTerms (g : option num) (eig : eigSolver) (m : model) (s : state)
    : res (option num * model * state) :=
  let keep r := ' (m', s') <- r ;; Ok (g, m', s') in
  match sm_psd m with
  | P_MONO => keep (setSourceTermsMONO m s)
  | P_LOGN => keep (setSourceTermsLOGN m s)
  | P_QMOM => keep (setSourceTermsQMOM eig m s)
  | P_MOMIC => keep (setSourceTermsMOMIC m s)
  | P_SECT => setSourceTermsSECT g m s
  | P_HMOM => keep (setSourceTermsHMOM m s)
  | P_NONE | P_size => UB Dangling     (* no object of such a class exists *)
  end.

(** One user action on a (static, model, state) triple.  A throwing setState
    leaves the state as SetThrow describes; a throwing setSourceTerms ends the
    history here; Catch.v goes on with what it leaves behind. *)
Inductive action :=
| ASet (T_ P_ rho_ mu_ : num) (yGas_ yPah_ sootVar_ : list num) (nsoot_ : Z) (tarVar_ : list num)
       (Ntar_ : Z) (cMin_ : num)
| ASrc (eig : eigSolver).

Definition doAction (c : option num * model * state) (a : action) : res (option num * model * state) :=
  let '(g, m, s) := c in
  match a with
  | ASet t p rho mu yg yp sv ns tv nt cm =>
      match setState s t p rho mu yg yp sv ns tv nt cm with
      | SetOk s' => Ok (g, m, s')
      | SetThrow _ s' => Ok (g, m, s')        (* the caller catches the exception *)
      | SetUB => UB OutOfBounds
      end
  | ASrc eig => setSourceTerms g eig m s
  end.

Definition runActions (c : option num * model * state) (l : list action) : res (option num * model * state) :=
  foldM doAction l c.

End Calls.
