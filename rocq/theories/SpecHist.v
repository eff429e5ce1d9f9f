(** Specification vocabulary for histories with PAH nucleation (C75). *)
From Coq Require Import ZArith List Bool.
From Verif Require Import Num Defs State Coag Nucl Growth Oxid Tar SootModel Calls SpecFrame.
Import ListNotations.

Section SpecHist.
Context {N : Num}.

(** two calls end the same way; if they return, with the same soot, gas, tar and, for PAH
    nucleation, PAH sources, the same cMin, and the same static of the sectional model *)
Definition sameAll (r r' : res (option num * model (N:=N) * state)) : Prop :=
  match r, r' with
  | Ok (g, m, s), Ok (g', m', s') => g = g' /\ sootSources (sm_sources m) = sootSources (sm_sources m') /\ gasSources (sm_sources m) = gasSources (sm_sources m') /\
      (nu_mech (sm_nucl m) = N_PAH -> pahSources (sm_sources m) = pahSources (sm_sources m')) /\ cMin s = cMin s' /\
      tarSources (sm_sources m) = tarSources (sm_sources m')
  | Throw e, Throw e' => e = e'
  | UB u, UB u' => u = u'
  | _, _ => False
  end.
(** the monodisperse model, with tar or not, for a positive number of particles (see C23); the
    other models except HMOM (C41) *)
Definition comparable (p : psdMech) (soot : list num) : Prop :=
  match p with
  | P_MONO => exists M0 l, soot = M0 :: l /\ nltb (nZ 0) M0 = true
  | P_LOGN | P_QMOM | P_MOMIC | P_SECT => True
  | _ => False
  end.

(** ** Several models on one state object *)
(** a model made by a constructor and used in any way since *)
Definition inUse (m : model (N:=N)) : Prop := exists m0 g s l g' s', constructed m0 /\ runActions (g, m0, s) l = Ok (g', m, s').
(** evaluations of any models without PAH nucleation: static and state before and after *)
Inductive evaluated : option num * state -> option num * state -> Prop :=
| ev_nil x : evaluated x x
| ev_cons g s m eig g1 m1 s1 x : inUse m -> nu_class (sm_nucl m) <> N_PAH -> setSourceTerms g eig m s = Ok (g1, m1, s1) -> evaluated (g1, s1) x -> evaluated (g, s) x.
(** [sameAll] without the static of the sectional model *)
Definition sameAnswer (r r' : res (option num * model (N:=N) * state)) : Prop :=
  match r, r' with
  | Ok (_, m, s), Ok (_, m', s') => sootSources (sm_sources m) = sootSources (sm_sources m') /\ gasSources (sm_sources m) = gasSources (sm_sources m') /\
      (nu_mech (sm_nucl m) = N_PAH -> pahSources (sm_sources m) = pahSources (sm_sources m')) /\ cMin s = cMin s' /\
      tarSources (sm_sources m) = tarSources (sm_sources m')
  | Throw e, Throw e' => e = e'
  | UB u, UB u' => u = u'
  | _, _ => False
  end.
End SpecHist.
