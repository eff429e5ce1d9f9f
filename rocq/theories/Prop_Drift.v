(** Property C84: conservation of mass and atoms by the monodisperse model in binary64. *)
From Coq Require Import ZArith List Bool Reals.
From Coq.Floats Require Import SpecFloat.
From Verif Require Import Num Defs State Nucl Growth Oxid Coag Tar SootModel Mono Calls XR F64 SpecBinomial SpecState SpecChem SpecCoag SpecValid SpecRates SpecGas SpecPsd SpecRound SpecDrift
  RoundFinal RoundCases DriftProofs.
Import ListNotations.
Local Open Scope R_scope.

(** after any history, the computed gas sources and the computed soot mass source are finite and add up to zero,
    in mass and in atoms of carbon, hydrogen and oxygen, up to 10^-11 of the soot mass turned over *)
Theorem C84_mono : forall lm, accurate lm -> forall k (f : spec_float) ns nt F c (m : model (N:=F64 lm)) l g0 s0 g1 m1 s1 (a : args (F64 lm)) s eig,
  smoothMechs k -> mF k = sfVal f -> between (/ 10 ^ 6) (10 ^ 6) f ->
  constructPtr P_MONO ns (newNucl (mN k)) (newGrow (mG k)) (newOxid (mO k)) (set_FM_multiplier (newCoag (mC k)) (f : @num (F64 lm))) nt (newTar T_NONE) F c = Ok m ->
  runActions (g0, m, s0) l = Ok (g1, m1, s1) -> absc s1 <> [] -> wts s1 <> [] ->
  usual a -> 0 < soot0 a -> 3 / 10 ^ 26 <= soot1 a / soot0 a <= 1 -> call s1 a = SetOk s ->
  exists m2 s2 q0 q1 gs, setSourceTerms g1 eig m1 s = Ok (g1, m2, s2) /\ sootSources (sm_sources m2) = [q0; q1] /\ gasSources (sm_sources m2) = gs /\ length gs = 11%nat /\
    (forall x, In x (q0 :: q1 :: gs) -> isDouble x) /\
    Rabs (total (gasRates gs) + sfVal q1) <= / 10 ^ 11 * turnover k a /\
    Rabs (element atomsC (gasRates gs) + sfVal q1 / massC) <= / 10 ^ 11 * (turnover k a / massC) /\
    Rabs (element atomsH (gasRates gs)) <= / 10 ^ 11 * (turnover k a / massC) /\
    Rabs (element atomsO (gasRates gs)) <= / 10 ^ 11 * (turnover k a / massC).
Proof. exact C84_. Qed.
Print Assumptions C84_mono.
(** a correctly rounding library is accurate; mechanisms with all four processes; accepted arguments *)
Example C84_library : exists lm, accurate lm.
Proof. exists exactLibm. exact accurate_some. Qed.
Example C84_arguments : forall lm, exists (a : args (F64 lm)) s, usual a /\ 0 < soot0 a /\ 3 / 10 ^ 26 <= soot1 a / soot0 a <= 1 /\
  call (newState (N:=F64 lm) 2 0) a = SetOk s /\ absc s <> [] /\ wts s <> [].
Proof. exact C71_arguments_. Qed.
Example C84_mechanisms : exists k f, smoothMechs k /\ mF k = sfVal f /\ between (/ 10 ^ 6) (10 ^ 6) f /\
  mN k = N_LIN /\ mG k = G_LL /\ mO k = O_LEE_NEOH /\ mC k = C_HM /\
  forall lm, exists m : model (N:=F64 lm), constructPtr P_MONO 2 (newNucl (mN k)) (newGrow (mG k)) (newOxid (mO k)) (set_FM_multiplier (newCoag (mC k)) (f : @num (F64 lm))) 0 (newTar T_NONE) (nZ 2) 100 = Ok m.
Proof. exact C71_mechanisms_. Qed.
