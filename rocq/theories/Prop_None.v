(** Property C48: without mechanisms there are no sources. *)
From Coq Require Import ZArith List Reals.
From Verif Require Import Num Defs State Coag Nucl Growth Oxid Tar SootModel Qmom Calls XR F64 SpecSafe NoneMain NoneXR.
Import ListNotations.

(** real numbers (with infinities and NaN): whatever the history, the state and the
    eigen-solver, the last call returns and all sources vanish *)
Theorem C48_real : forall p n nt f k (m : model (N:=XR)) l g eig,
  p = P_MONO \/ p = P_QMOM \/ p = P_SECT -> (p = P_SECT -> (0 < f)%R) ->
  constructEnum p n N_NONE G_NONE O_NONE C_NONE nt T_NONE (Fin f) k = Ok m ->
  Forall (sizedAction n nt) l ->
  exists g' m' s', runActions (g, m, newState n nt) (l ++ [ASrc eig]) = Ok (g', m', s') /\
    sootSources (sm_sources m') = repeat (Fin 0) n /\ gasSources (sm_sources m') = repeat (Fin 0) 11 /\
    pahSources (sm_sources m') = repeat (Fin 0) 6 /\ tarSources (sm_sources m') = repeat (Fin 0) nt.
Proof. exact (fun p n nt f k m l g eig HP HF EB => none_history zeroLaws_XR p n nt (Fin f) k m l g eig HP EB (zeroBins_XR p n nt _ _ _ _ _ f k m HF EB)). Qed.
Print Assumptions C48_real.
(** binary64, with any libm: the same (all zeros positive) if the bins did not overflow *)
Theorem C48_binary64 : forall lm p n nt F k (m : model (N:=F64 lm)) l g eig,
  p = P_MONO \/ p = P_QMOM \/ p = P_SECT -> 
  constructEnum p n N_NONE G_NONE O_NONE C_NONE nt T_NONE F k = Ok m ->
  (p = P_SECT -> forall b, In b (sm_mBins m) -> nfin b = true) ->
  Forall (sizedAction n nt) l ->
  exists g' m' s', runActions (g, m, newState n nt) (l ++ [ASrc eig]) = Ok (g', m', s') /\
    sootSources (sm_sources m') = repeat (nZ 0) n /\ gasSources (sm_sources m') = repeat (nZ 0) 11 /\
    pahSources (sm_sources m') = repeat (nZ 0) 6 /\ tarSources (sm_sources m') = repeat (nZ 0) nt.
Proof. exact none_history_F64. Qed.
Print Assumptions C48_binary64.
(** a history with a NaN temperature and a sectional model *)
Example C48_case : forall lm (eig : eigSolver (N:=F64 lm)), exists m : model (N:=F64 lm),
  constructEnum P_QMOM 6 N_NONE G_NONE O_NONE C_NONE 0 T_NONE (nZ 2) 100 = Ok m /\
  Forall (sizedAction (N:=F64 lm) 6 0) [ASet (N:=F64 lm) SpecFloat.S754_nan (nZ 100000) (nZ 1) (nZ 1) (repeat (nZ 0) 11) (repeat (nZ 0) 6) (repeat (SpecFloat.S754_nan : @num (F64 lm)) 6) 6 [] 0 (nZ 100); ASrc eig].
Proof. eexists. split; [reflexivity|]. repeat constructor. Qed.
Example C48_case_sect : exists m : model (N:=XR), constructEnum P_SECT 12 N_NONE G_NONE O_NONE C_NONE 0 T_NONE (Fin 2) 100 = Ok m.
Proof. eexists. reflexivity. Qed.
