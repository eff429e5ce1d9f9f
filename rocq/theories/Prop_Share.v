(** Property C76: several soot models evaluated on one state object. *)
From Coq Require Import ZArith List Reals Lra.
From Verif Require Import Num Defs State Coag Nucl Growth Oxid Tar SootModel Qmom Calls XR SpecState SpecHist SpecFrame SpecChem SpecCoag SpecValid SpecRates SpecGas SpecPsd SpecPah
  ValidProofs PsdProofs MonoMain MonoCases ShareProofs ShareCases.
Import ListNotations.

(** evaluating any models without PAH nucleation on a state does not change what another model
    answers on it: their only trace is in weights and abscissas, which are computed again, and in
    the static of the sectional model, which matters only to a sectional model evaluated first (C30) *)
Theorem C76_shared_state : forall (N : Num) newed p n (nu : nuclObj (N:=N)) gr ox co nt ta F k m0 m ga sa l ga' sa' g s g' s' eig,
  build newed p n nu gr ox co nt ta F k = Ok m0 -> nu_class nu = nu_mech nu -> runActions (ga, m0, sa) l = Ok (ga', m, sa') ->
  comparable p (sootVar s) -> length (wts s) = Nat.div n 2 -> length (absc s) = Nat.div n 2 ->
  evaluated (g, s) (g', s') -> p <> P_SECT \/ co_mech co = C_NONE \/ g <> None ->
  sameAnswer (setSourceTerms g eig m s) (setSourceTerms g' eig m s').
Proof. exact @C76_. Qed.
Print Assumptions C76_shared_state.

(** a model with PAH nucleation leaves its cMin in the state: the next model's nucleation uses
    c1 atoms per particle, twice the mean PAH size plus the user's cMin over the dimer total *)
Theorem C76_pah_disturbs : forall (mA mB : model (N:=XR)) s g kA kB M0 M1 st eig,
  sm_psd mA = P_MONO -> hasAll mA kA -> okAll kA -> noTar mA -> mN kA = N_PAH -> somePah g -> regular kA g M0 M1 ->
  sm_psd mB = P_MONO -> hasAll mB kB -> okAll kB -> noTar mB -> mN kB <> N_PAH -> regular kB g M0 M1 ->
  valid s g [M0; M1] -> (0 < M0)%R -> length (wts s) = 1%nat -> length (absc s) = 1%nat ->
  let c1 := (2 * meanC g + gCMin g / pahTotal g)%R in
  exists mA' sA m1 s1 m2 s2 n1 f1 n2 f2,
    setSourceTerms st eig mB s = Ok (st, m1, s1) /\ soots m1 = [Fin n1; Fin f1] /\
    setSourceTerms st eig mA s = Ok (st, mA', sA) /\ setSourceTerms st eig mB sA = Ok (st, m2, s2) /\ soots m2 = [Fin n2; Fin f2] /\
    (n2 - n1 = nuclFormula (mN kB) (gasCMin g c1) - nuclFormula (mN kB) g)%R /\
    (f2 - f1 = (nuclFormula (mN kB) (gasCMin g c1) * c1 - nuclFormula (mN kB) g * gCMin g) * (massC / avogadro))%R.
Proof. exact C76_disturb_. Qed.
Print Assumptions C76_pah_disturbs.

(** so the restriction to models without PAH nucleation is needed *)
Theorem C76_pah_refuted : exists (mA mB : model (N:=XR)) s mA' sA m1 s1 m2 s2 st eig,
  constructed mA /\ constructed mB /\ call (newState 2 0) (argsOf shareGas [1; 1]%R []) = SetOk s /\
  setSourceTerms st eig mB s = Ok (st, m1, s1) /\ setSourceTerms st eig mA s = Ok (st, mA', sA) /\ setSourceTerms st eig mB sA = Ok (st, m2, s2) /\
  soots m2 <> soots m1.
Proof. exact C76_refute_. Qed.
Print Assumptions C76_pah_refuted.

(** the hypotheses of the second theorem *)
Example C76_models : exists (mA mB : model (N:=XR)) s,
  constructed mA /\ constructed mB /\ sm_psd mA = P_MONO /\ hasAll mA kPah /\ okAll kPah /\ noTar mA /\ sm_psd mB = P_MONO /\ hasAll mB kMB /\ okAll kMB /\ noTar mB /\
  call (newState 2 0) (argsOf shareGas [1; 1]%R []) = SetOk s /\ valid s shareGas [1; 1]%R /\ length (wts s) = 1%nat /\ length (absc s) = 1%nat /\ somePah shareGas /\
  regular kPah shareGas 1 1 /\ regular kMB shareGas 1 1.
Proof. exact share_models. Qed.

(** and of the first: a model with PAH nucleation, evaluated after another one that moved the state *)
Example C76_case : exists (m0 : model (N:=XR)) s s',
  build true P_MONO 2 (newNucl N_PAH) (newGrow G_LL) (newOxid O_LL) (newCoag C_FM) 0 (newTar T_NONE) (nZ 2) 100 = Ok m0 /\
  runActions (None, m0, s) [] = Ok (None, m0, s) /\ comparable P_MONO (sootVar s) /\ length (wts s) = Nat.div 2 2 /\ length (absc s) = Nat.div 2 2 /\
  evaluated (None, s) (None, s') /\ wts s' <> wts s.
Proof. exact share_case. Qed.
