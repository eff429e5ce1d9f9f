(** C78: a section without particles in double precision. *)
From Coq Require Import ZArith List Bool Reals.
From Coq.Floats Require Import SpecFloat.
From Verif Require Import Num Defs State Coag Nucl Growth Oxid Tar SootModel Sect Calls F64 SpecBinomial SpecState SpecFrame SpecIeee SpecRound SpecSections
  SectionsMain SectionsCases SectionsTwo.
Import ListNotations.
Local Open Scope R_scope.

(** After any history, for any doubles passed to setState, any <cmath> with the right signs and any
    mechanisms other than PAH nucleation: when the section that the code computes from the logarithm encloses
    each collision product, a section whose particle number is zero does not get a negative source. *)
Theorem C78_empty_section : forall lm, sane lm -> forall (m : model (N:=F64 lm)) l g0 s0 g1 m1 s1 (a : args (F64 lm)) s eig g2 m2 s2 j z,
  constructed m -> sm_psd m = P_SECT -> nu_class (sm_nucl m) <> N_PAH -> nu_mech (sm_nucl m) <> N_PAH -> aboveZero (co_FM (sm_coag m)) -> ladder (sm_mBins m) ->
  runActions (g0, m, s0) l = Ok (g1, m1, s1) -> anyDoubles a -> call s1 a = SetOk s -> setSourceTerms g1 eig m1 s = Ok (g2, m2, s2) ->
  co_mech (sm_coag m) = C_NONE \/ placed lm (sm_mBins m) (searchConst lm g1 (binFactor m)) ->
  (j < sm_nsoot m)%nat -> nth_error (sootVar s) j = Some z -> isZero z ->
  exists x, nth_error (sootSources (sm_sources m2)) j = Some x /\ ~ negative x.
Proof. exact C78_empty_. Qed.
Print Assumptions C78_empty_section.

(** The condition can fail even with a <cmath> that rounds correctly: with the growth factor sqrt 2, the
    computed section of the collisions of section 1 lies above them, and section 4, which is empty, loses particles. *)
Theorem C78_refuted : forall lm, accurate lm -> correctLog lm -> correctPow lm ->
  exists (m : model (N:=F64 lm)) (a : args (F64 lm)) s g2 m2 s2 x,
    constructEnum P_SECT 5 N_NONE G_NONE O_NONE C_FM 0 T_NONE (rootTwo : @num (F64 lm)) 100 = Ok m /\ ladder (sm_mBins m) /\
    usual a /\ call (newState 5 0) a = SetOk s /\ nth_error (sootVar s) 4 = Some (S754_zero false) /\
    (forall eig, setSourceTerms None eig m s = Ok (g2, m2, s2)) /\ nth_error (sootSources (sm_sources m2)) 4 = Some x /\ negative x.
Proof. exact C78_refuted_. Qed.
Print Assumptions C78_refuted.

(** a library that rounds correctly exists, so the refutation is not vacuous *)
Example C78_library : exists lm, sane lm /\ accurate lm /\ correctLog lm /\ correctPow lm.
Proof. exists rightLibm. exact (conj right_sane (conj right_accurate (conj right_log right_pow))). Qed.
(** three sections that double in mass, the last one empty: all hypotheses of the first theorem hold *)
Example C78_case : exists lm (m : model (N:=F64 lm)) (a : args (F64 lm)) s eig g2 m2 s2, sane lm /\ accurate lm /\ correctLog lm /\ correctPow lm /\
  constructEnum P_SECT 3 N_LL G_LIN O_NSC_NEOH C_FM 0 T_NONE (f64lit 2 0 : @num (F64 lm)) 100 = Ok m /\ ladder (sm_mBins m) /\
  placed lm (sm_mBins m) (searchConst lm None (binFactor m)) /\ anyDoubles a /\ call (newState 3 0) a = SetOk s /\
  nth_error (sootVar s) 2 = Some (S754_zero false) /\ setSourceTerms None eig m s = Ok (g2, m2, s2).
Proof. exact C78_case_. Qed.
