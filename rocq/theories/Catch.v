(** Programs that catch the exceptions of [setSourceTerms].  [Calls.runActions] ends at
    the first of them; here the history goes on with what the objects hold by then. *)
From Coq Require Import ZArith List Bool.
From Verif Require Import Num Defs State Coag Nucl Growth Oxid Tar SootModel Qmom Calls.
Import ListNotations.

Section Catch.
Context {N : Num}.

(** QMOM.cc 95-105, all that has reached the objects when binomial_coefficient throws in
    164 or 172: the nodes (99) and what the three rate calls (103-105) change.  The terms
    of 109-178 are local vectors and the sources are written from 182 on only. *)
Definition leftQMOM (eig : eigSolver) (m : model) (s : state) : res (model * state) :=
  ' (w, a) <- getWtsAbs eig (sootVar s) (wts s) (absc s) ;;
  ' (_, _, _, m, s) <- chemRates (collSum (sm_coag m)) m (with_wa s w a) ;;
  Ok (m, s).

(** [try { sm.setSourceTerms(s); } catch (...) {}].  No other class throws there (C47),
    so for them an exception is passed on. *)
Definition tryCall (g : option num) (eig : eigSolver) (m : model) (s : state) : res (option num * model * state) :=
  match setSourceTerms g eig m s, sm_psd m with
  | Throw _, P_QMOM => ' (m', s') <- leftQMOM eig m s ;; Ok (g, m', s')
  | r, _ => r
  end.
Definition tryAction (c : option num * model * state) (a : action) : res (option num * model * state) :=
  let '(g, m, s) := c in
  match a with
  | ASet _ _ _ _ _ _ _ _ _ _ _ => doAction c a      (* setState is caught there already *)
  | ASrc eig => tryCall g eig m s
  end.
Definition runCatching (c : option num * model * state) (l : list action) : res (option num * model * state) :=
  foldM tryAction l c.

End Catch.
