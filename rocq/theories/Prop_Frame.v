(** Property C60 and the ownership flag of C10: what calls leave alone; for any arithmetic, binary64 included. *)
From Coq Require Import ZArith List Bool Reals Lra.
From Verif Require Import Num Defs State Coag Nucl Growth Oxid Tar SootModel Calls XR SpecChem SpecCoag SpecValid SpecRates SpecPah SpecMomic SpecFrame FrameMain ValidProofs LognCases MomicFinal MomicCases.
Import ListNotations.

(** no history changes the configuration of a soot model *)
Theorem C60_configuration : forall (N : Num) l g (m : model (N:=N)) s g' m' s', constructed m ->
  runActions (g, m, s) l = Ok (g', m', s') -> keepsModel m m'.
Proof. exact @C60_config_. Qed.
Print Assumptions C60_configuration.
(** a model owns its mechanisms exactly when the enumerator constructor made it, after any history of calls *)
Theorem C10_enum_owns : forall (N : Num) p ns n gr ox co nt ta F c l g (m : model (N:=N)) s g' m' s',
  constructEnum p ns n gr ox co nt ta F c = Ok m -> runActions (g, m, s) l = Ok (g', m', s') -> sm_newed m' = true.
Proof. exact @own_enum_. Qed.
Print Assumptions C10_enum_owns.
Theorem C10_ptr_borrows : forall (N : Num) p ns nu gr ox co nt ta F c l g (m : model (N:=N)) s g' m' s',
  constructPtr p ns nu gr ox co nt ta F c = Ok m -> runActions (g, m, s) l = Ok (g', m', s') -> sm_newed m' = false.
Proof. exact @own_ptr_. Qed.
Print Assumptions C10_ptr_borrows.
(** after any history, evaluations change nothing the user put into the state except cMin with PAH *)
Theorem C60_state : forall (N : Num) l g (m : model (N:=N)) s g1 m1 s1 eigs g2 m2 s2, constructed m ->
  runActions (g, m, s) l = Ok (g1, m1, s1) -> runActions (g1, m1, s1) (map ASrc eigs) = Ok (g2, m2, s2) -> keepsState m s1 s2.
Proof. exact @C60_call_. Qed.
Print Assumptions C60_state.
(** sources no mechanism writes stay zero; of several tar variables only the first gets a source *)
Theorem C60_unused_sources : forall (N : Num) l g (m : model (N:=N)) s g' m' s', constructed m ->
  runActions (g, m, s) l = Ok (g', m', s') ->
  let allZero v := forall x, In x v -> x = nZ 0%Z in
  allZero (tarGasSources (sm_sources m')) /\ (nu_mech (sm_nucl m) <> N_PAH -> allZero (pahSources (sm_sources m'))) /\
  (sm_psd m <> P_MONO \/ ta_mech (sm_tar m) = T_NONE -> allZero (tarSources (sm_sources m'))) /\ allZero (tl (tarSources (sm_sources m'))).
Proof. exact @C60_unused_. Qed.
Print Assumptions C60_unused_sources.
Example C60_case : exists (m : model (N:=XR)) s, constructed m /\ nu_class (sm_nucl m) = N_PAH /\
  forall eig, exists r, runActions (None, m, s) [ASrc eig] = Ok r.
Proof.
  destruct (momic_case N_PAH C_CONTINUUM [2; 3; 7; 50]%R) as (m & s & E & _ & RD); auto; [cbn; split; repeat constructor|intros y [<-|[<-|[<-|[<-|[]]]]]; lra|].
  exists m, s. split; [left; do 10 eexists; exact E|]. split.
  { destruct RD as (_ & _ & ((H & _) & _) & _). exact H. }
  intro eig. destruct (momic_run m s demoGas _ [2; 3; 7; 50]%R None eig RD) as (m' & R & _).
  - intros x [<-|[<-|[<-|[<-|[]]]]]; lra.
  - intros _. exact demo_pah.
  - unfold runActions. cbn [foldM doAction]. rewrite R. eexists. reflexivity.
Qed.
(** a pointer-built model with the same mechanisms: the call succeeds *)
Example C10_ptr_case : exists (m : model (N:=XR)) s, 
  constructPtr P_MOMIC 4 (newNucl N_PAH) (newGrow G_LL) (newOxid O_LL) (newCoag C_CONTINUUM) 0 (newTar T_NONE) (Fin 2) 100 = Ok m /\
  forall eig, exists r, runActions (None, m, s) [ASrc eig] = Ok r.
Proof.
  destruct (momic_case N_PAH C_CONTINUUM [2; 3; 7; 50]%R) as (m & s & E & _ & RD); auto; [cbn; split; repeat constructor|intros y [<-|[<-|[<-|[<-|[]]]]]; lra|].
  apply ConfigProofs.construct_ok in E. destruct E as (_ & _ & ->).
  eexists. exists s. split; [reflexivity|]. intro eig. 
  match goal with |- context [runActions (None, ?x, s)] => destruct (momic_run x s demoGas (SpecPsd.mkMechs N_PAH G_LL O_LL C_CONTINUUM 1) [2; 3; 7; 50]%R None eig RD) as (m' & R & _) end.
  - intros x [<-|[<-|[<-|[<-|[]]]]]; lra.
  - intros _. exact demo_pah.
  - unfold runActions. cbn [foldM doAction]. rewrite R. eexists. reflexivity.
Qed.
