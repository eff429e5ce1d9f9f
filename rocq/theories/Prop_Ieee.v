(** Property C72: signs of rates and sources in IEEE arithmetic, overflow, underflow, infinities and NaN included. *)
From Coq Require Import ZArith List Bool.
From Coq.Floats Require Import SpecFloat.
From Verif Require Import Num Defs State Nucl Growth Oxid Coag Tar SootModel Mono Calls F64 SpecState SpecPsd SpecRound SpecIeee RoundCases IeeeFinal.
Import ListNotations.

(** after any accepted setState no rate that the code computes compares below zero: every nucleation mechanism
    (PAH with whatever collision function), every growth and every oxidation mechanism in every soot model *)
Theorem C72_nucleation : forall lm, sane lm -> forall (a : args (F64 lm)) s0 s coll nu x nu' s' e,
  anyDoubles a -> call s0 a = SetOk s -> nuclRate coll nu s = Ok (x, nu', s', e) -> ~ negative x.
Proof. exact C72_nucl_. Qed.
Print Assumptions C72_nucleation.
Theorem C72_growth : forall lm, sane lm -> forall (a : args (F64 lm)) s0 s gr v x,
  anyDoubles a -> call s0 a = SetOk s -> growRate gr v s = Ok x -> ~ negative x.
Proof. exact C72_grow_. Qed.
Print Assumptions C72_growth.
Theorem C72_oxidation : forall lm, sane lm -> forall (a : args (F64 lm)) s0 s o v x,
  anyDoubles a -> call s0 a = SetOk s -> oxidRate o v s = Ok x -> ~ negative x.
Proof. exact C72_oxid_. Qed.
Print Assumptions C72_oxidation.
(** nor the collision rate of any two masses, negative and NaN included *)
Theorem C72_kernels : forall lm, sane lm -> forall (a : args (F64 lm)) s0 s (c : coagObj (N:=F64 lm)) m1 m2,
  anyDoubles a -> call s0 a = SetOk s -> aboveZero (co_FM c) -> ~ negative (coagRate c s m1 m2).
Proof. exact C72_kern_. Qed.
Print Assumptions C72_kernels.
(** the monodisperse model after any history: without nucleation the number of particles does not rise, without
    coagulation it does not fall, the mass falls only by oxidation and rises only by nucleation or growth, and no
    mechanism makes O2, OH, C2H2 or C6H6 or consumes CO, H2 or H2O *)
Theorem C72_mono : forall lm, sane lm -> forall k (f : spec_float) ns nt F c (m : model (N:=F64 lm)) l g0 s0 g1 m1 s1 (a : args (F64 lm)) s eig g2 m2 s2,
  aboveZero f ->
  constructPtr P_MONO ns (newNucl (mN k)) (newGrow (mG k)) (newOxid (mO k)) (set_FM_multiplier (newCoag (mC k)) (f : @num (F64 lm))) nt (newTar T_NONE) F c = Ok m ->
  runActions (g0, m, s0) l = Ok (g1, m1, s1) -> anyDoubles a -> call s1 a = SetOk s -> (mN k = N_PAH -> aboveZero (nth 0 (asoot a) (S754_zero false))) ->
  setSourceTerms g1 eig m1 s = Ok (g2, m2, s2) ->
  exists q0 q1, sootSources (sm_sources m2) = [q0; q1] /\
    (mN k = N_NONE -> ~ aboveZero q0) /\ (mC k = C_NONE -> ~ negative q0) /\
    (mO k = O_NONE -> ~ negative q1) /\ (mN k = N_NONE -> mG k = G_NONE -> ~ aboveZero q1) /\
    (mN k <> N_PAH -> forall sp, let q := nth (gasIdx sp) (gasSources (sm_sources m2)) (S754_zero false) in
       (sp = O2 \/ sp = OH \/ sp = C2H2 \/ sp = C6H6 -> ~ aboveZero q) /\ (sp = CO \/ sp = H2 \/ sp = H2O -> ~ negative q)).
Proof. exact C72_mono_. Qed.
Print Assumptions C72_mono.
(** a correctly rounding library is sane *)
Example C72_library : exists lm, sane lm /\ accurate lm.
Proof. exists exactLibm. exact (conj sane_some accurate_some). Qed.
(** 1e300 K, an infinite density, a subnormal viscosity, a NaN and negative zeros among the fractions: accepted *)
Example C72_arguments : forall lm, exists a s, anyDoubles a /\ call (newState (N:=F64 lm) 2 0) a = SetOk s.
Proof. intro lm. exists (wildA lm). exact (C72_arguments_ lm). Qed.
(** a rate need not be a number: without O2 the NSC_NEOH rate at 60 K is 0/0 once exp underflows to zero *)
Theorem C72_number_refuted : forall lm, lm_exp lm (SFdiv prec64 emax64 (f64lit (-48817) 0) (f64lit 60 0)) = S754_zero false ->
  exists (a : args (F64 lm)) s, (forall x, In x (aT a :: aP a :: arho a :: amu a :: acMin a :: ayGas a ++ ayPah a ++ asoot a) -> isDouble x) /\
    call (newState (N:=F64 lm) 2 0) a = SetOk s /\ forall v, oxidRate (newOxid O_NSC_NEOH) v s = Ok S754_nan.
Proof. exact C72_nan_. Qed.
Print Assumptions C72_number_refuted.
