(** C92: the warnings of the constructors. *)
From Coq Require Import ZArith List Bool Arith Lia.
From Verif Require Import Num Defs State Coag Nucl Growth Oxid Tar SootModel Calls Console XR SpecConfig SpecChem SpecConsole ConsoleProofs.
Import ListNotations.

(** warnings do not change what is constructed *)
Theorem C92_same : forall (N : Num),
  (forall p ns n g o c nt t F k, snd (constructEnumLogged (N:=N) p ns n g o c nt t F k) = constructEnum p ns n g o c nt t F k) /\
  (forall p ns nu gr ox co nt ta F k, snd (constructPtrLogged (N:=N) p ns nu gr ox co nt ta F k) = constructPtr p ns nu gr ox co nt ta F k).
Proof. intros N. exact (conj enum_same (build_same false)). Qed.
Print Assumptions C92_same.
(** from enumerators: what is written, also when the construction fails afterwards *)
Theorem C92_enum : forall (N : Num) p ns n g o c nt t F k,
  says (realMechs n g o c t /\ mispaired g o) (realMechs n g o c t /\ documented p ns c t /\ manyMoments p ns) (fst (constructEnumLogged (N:=N) p ns n g o c nt t F k)).
Proof. intros N. exact enum_l. Qed.
Print Assumptions C92_enum.
(** from pointers: by the types that the objects state *)
Theorem C92_pointers : forall (N : Num) p ns nu gr ox co nt ta F k,
  says (mispaired (gr_mech gr) (ox_mech ox)) (documented p ns (co_mech co) (ta_mech ta) /\ manyMoments p ns) (fst (constructPtrLogged (N:=N) p ns nu gr ox co nt ta F k)).
Proof. intros N. exact (ptr_l false). Qed.
Print Assumptions C92_pointers.
(** models whose every call leaves its tables are constructed without a warning *)
Theorem C92_quiet : forall (N : Num) p ns n g o c nt t F k (m : model (N:=N)), p = P_HMOM \/ p = P_MOMIC /\ ns = 8 -> ~ mispaired g o ->
  constructEnum p ns n g o c nt t F k = Ok m ->
  constructEnumLogged p ns n g o c nt t F k = ([], Ok m) /\ forall st eig s, setSourceTerms st eig m s = UB OutOfBounds.
Proof. intros N. exact quiet_l. Qed.
Print Assumptions C92_quiet.
(** "no warning means the model can be used" is false *)
Theorem C92_silence_refuted : exists m : model (N:=XR), constructEnumLogged P_HMOM 6 N_LL G_HACA O_HACA C_HM 0 T_NONE (nZ 2) 100 = ([], Ok m) /\
  forall st eig s, setSourceTerms st eig m s = UB OutOfBounds.
Proof.
  assert (E : exists m : model (N:=XR), constructEnum P_HMOM 6 N_LL G_HACA O_HACA C_HM 0 T_NONE (nZ 2) 100 = Ok m) by (eexists; reflexivity). destruct E as (m & E).
  exists m. apply (C92_quiet XR P_HMOM 6 N_LL G_HACA O_HACA C_HM 0 T_NONE (nZ 2) 100 m); [now left|unfold mispaired; intuition congruence|exact E].
Qed.
Print Assumptions C92_silence_refuted.

(** both warnings; one warning and then an exception; none; and a pointer constructor *)
Example C92_case : (exists m : model (N:=XR), constructEnumLogged P_QMOM 8 N_LL G_HACA O_LL C_FM 0 T_NONE (nZ 2) 100 = ([WarnHACA; WarnQMOM], Ok m)) /\
  (exists e, constructEnumLogged (N:=XR) P_MONO 3 N_LL G_LL O_HACA C_FM 0 T_NONE (nZ 2) 100 = ([WarnHACA], Throw e)) /\
  (exists m : model (N:=XR), constructEnumLogged P_QMOM 6 N_LL G_HACA O_HACA C_FM 0 T_NONE (nZ 2) 100 = ([], Ok m)) /\
  (exists e, constructEnumLogged (N:=XR) P_QMOM 8 N_LL G_HACA O_size C_FM 0 T_NONE (nZ 2) 100 = ([], Throw e)) /\
  (exists m : model (N:=XR), constructPtrLogged P_SECT 8 (newNucl N_LL) (newGrow G_HACA) (newOxid O_LL) (newCoag C_FM) 0 (newTar T_NONE) (nZ 2) 100 = ([WarnHACA], Ok m)).
Proof. repeat split; eexists; reflexivity. Qed.
