(** Property C71: the rates, kernels and monodisperse source terms computed in binary64. *)
From Coq Require Import ZArith List Bool Reals.
From Coq.Floats Require Import SpecFloat.
From Verif Require Import Num Defs State Nucl Growth Oxid Coag Tar SootModel Mono Calls XR F64 SpecBinomial SpecState SpecChem SpecCoag SpecValid SpecRates SpecGas SpecPsd SpecRound
  RoundFinal RoundCases.
Import ListNotations.
Local Open Scope R_scope.

(** after an accepted setState with arguments of the usual size, each gas-phase nucleation rate has twelve correct digits *)
Theorem C71_nucleation : forall lm, accurate lm -> forall (a : args (F64 lm)) s0 s coll nu, usual a -> call s0 a = SetOk s -> gasOnly (nu_class nu) ->
  exists x, nuclRate coll nu s = Ok (x, nu, s, None) /\ agrees x (nuclFormula (nu_class nu) (gasOf a)).
Proof. exact C71_nucl_. Qed.
Print Assumptions C71_nucleation.
Theorem C71_growth : forall lm, accurate lm -> forall (a : args (F64 lm)) s0 s gr v, usual a -> call s0 a = SetOk s -> sv_psd v <> P_SECT -> gr_class gr <> G_HACA ->
  exists x, growRate gr v s = Ok x /\ agrees x (growFormula (gr_class gr) (gasOf a) (soot0 a) (soot1 a)).
Proof. exact C71_grow_. Qed.
Print Assumptions C71_growth.
Theorem C71_oxidation : forall lm, accurate lm -> forall (a : args (F64 lm)) s0 s o v, usual a -> call s0 a = SetOk s -> sv_psd v <> P_SECT ->
  ox_class o <> O_NSC_NEOH -> ox_class o <> O_HACA ->
  exists x, oxidRate o v s = Ok x /\ agrees x (oxidFormula (ox_class o) (gasOf a) (soot0 a) (soot1 a)).
Proof. exact C71_oxid_. Qed.
Print Assumptions C71_oxidation.
(** likewise the collision rate of two masses above the cutoff *)
Theorem C71_kernels : forall lm, accurate lm -> forall (a : args (F64 lm)) s0 s (c : coagObj (N:=F64 lm)) x y, usual a -> call s0 a = SetOk s ->
  co_class c <> C_FUCHS -> co_class c <> C_size -> between (/ 10 ^ 6) (10 ^ 6) (co_FM c) -> between (3 / 10 ^ 26) 1 x -> between (3 / 10 ^ 26) 1 y ->
  agrees (coagRate (N:=F64 lm) c s x y) (kernel (mkMechs N_NONE G_NONE O_NONE (co_class c) (sfVal (co_FM c))) (gasOf a) (sfVal x) (sfVal y)).
Proof. exact C71_kern_. Qed.
Print Assumptions C71_kernels.
(** a monodisperse model after any history: soot and gas sources are finite and off by at most 10^-12 of the sum of the magnitudes of their terms *)
Theorem C71_mono : forall lm, accurate lm -> forall k (f : spec_float) ns nt F c (m : model (N:=F64 lm)) l g0 s0 g1 m1 s1 (a : args (F64 lm)) s eig,
  smoothMechs k -> mF k = sfVal f -> between (/ 10 ^ 6) (10 ^ 6) f ->
  constructPtr P_MONO ns (newNucl (mN k)) (newGrow (mG k)) (newOxid (mO k)) (set_FM_multiplier (newCoag (mC k)) (f : @num (F64 lm))) nt (newTar T_NONE) F c = Ok m ->
  runActions (g0, m, s0) l = Ok (g1, m1, s1) -> absc s1 <> [] -> wts s1 <> [] ->
  usual a -> 0 < soot0 a -> 3 / 10 ^ 26 <= soot1 a / soot0 a <= 1 -> call s1 a = SetOk s ->
  let g := gasOf a in let area := soot0 a * sphere (soot1 a / soot0 a) in
  let J := Jnuc k g in let kg := kgrow k g (soot0 a) (soot1 a) in let ko := koxid k g (soot0 a) (soot1 a) in
  exists m2 s2 q0 q1 gs, setSourceTerms g1 eig m1 s = Ok (g1, m2, s2) /\ sootSources (sm_sources m2) = [q0; q1] /\ gasSources (sm_sources m2) = gs /\ length gs = 11%nat /\
    agreesSum q0 [J; - (1 / 2 * kernel k g (soot1 a / soot0 a) (soot1 a / soot0 a) * soot0 a ^ 2)] /\
    agreesSum q1 [J * nucMass g; kg * area; - (ko * area)] /\
    forall sp, agreesSum (nth (gasIdx sp) gs (S754_zero false)) [nuclGas (mN k) (J * nucMass g) sp; growGas (mG k) (kg * area) sp; oxidGas (mO k) (ko * area) sp].
Proof. exact C71_mono_. Qed.
Print Assumptions C71_mono.
(** a correctly rounding library is accurate *)
Example C71_library : exists lm, accurate lm.
Proof. exists exactLibm. exact accurate_some. Qed.
(** ten nonzero gas fractions, a particle number of 2^50 and a mass of 2^-10 per volume at 2048 K: accepted by setState *)
Example C71_arguments : forall lm, exists (a : args (F64 lm)) s, usual a /\ 0 < soot0 a /\ 3 / 10 ^ 26 <= soot1 a / soot0 a <= 1 /\
  call (newState (N:=F64 lm) 2 0) a = SetOk s /\ absc s <> [] /\ wts s <> [].
Proof. exact C71_arguments_. Qed.
Example C71_mechanisms : exists k f, smoothMechs k /\ mF k = sfVal f /\ between (/ 10 ^ 6) (10 ^ 6) f /\
  mN k = N_LIN /\ mG k = G_LL /\ mO k = O_LEE_NEOH /\ mC k = C_HM /\
  forall lm, exists m : model (N:=F64 lm), constructPtr P_MONO 2 (newNucl (mN k)) (newGrow (mG k)) (newOxid (mO k)) (set_FM_multiplier (newCoag (mC k)) (f : @num (F64 lm))) 0 (newTar T_NONE) (nZ 2) 100 = Ok m.
Proof. exact C71_mechanisms_. Qed.
