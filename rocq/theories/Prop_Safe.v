(** Properties C39, C41, C47 and C61: memory safety.  All theorems hold for every number
    type: for the real-number model, for binary64 with any libm, and for any other. *)
From Coq Require Import ZArith List Reals.
From Verif Require Import Num Defs State Coag Nucl Growth Oxid Tar SootModel Calls XR F64 CInterface SpecSafe SafeMain ShortMain.
Import ListNotations.

(** ** C39 *)
(** up to seven moments: every sequence of calls with matching sizes returns *)
Theorem C39_seven : forall (N : Num) n nt newed (nu : nuclObj (N:=N)) gr ox co ta F k m l g,
  build newed P_MOMIC n nu gr ox co nt ta F k = Ok m -> n <= 7 ->
  nu_class nu = nu_mech nu -> length (nu_pah nu) = 6 -> (readsTar (nu_class nu) T_NONE -> 1 <= nt) ->
  Forall (sizedAction n nt) l ->
  exists g' m' s', runActions (g, m, newState n nt) l = Ok (g', m', s') /\ sizedState n nt s' /\ sizedSources n nt (sm_sources m').
Proof. exact @C39_7. Qed.
Print Assumptions C39_seven.
(** eight moments: every call leaves the tables, whatever the state *)
Theorem C39_eight : forall (N : Num) nt newed (nu : nuclObj (N:=N)) gr ox co ta F k m g eig s,
  build newed P_MOMIC 8 nu gr ox co nt ta F k = Ok m -> setSourceTerms g eig m s = UB OutOfBounds.
Proof. exact @C39_8. Qed.
Print Assumptions C39_eight.
Theorem C39_eight_accepted : forall (N : Num) nt newed (nu : nuclObj (N:=N)) gr ox co ta F k,
  ta_mech ta = T_NONE -> (co_mech co = C_FM \/ co_mech co = C_CONTINUUM \/ co_mech co = C_HM) ->
  exists m, build newed P_MOMIC 8 nu gr ox co nt ta F k = Ok m.
Proof. exact @momic8_accepted. Qed.
Print Assumptions C39_eight_accepted.
(** the claim "no accepted configuration leaves its tables" is false *)
Theorem C39_all_sizes_refuted : exists (m : model (N:=XR)) s,
  constructEnum P_MOMIC 8 N_LL G_LL O_LL C_HM 0 T_NONE (nZ 2) 100 = Ok m /\ sizedState 8 0 s /\
  setSourceTerms None (fun _ _ _ => (fun _ => nZ 0, fun _ => nZ 0)) m s = UB OutOfBounds.
Proof.
  eexists. exists (newState 8 0). split; [reflexivity|]. split; [repeat split; cbn; auto with arith|].
  exact (@C39_8 XR 0 true (newNucl N_LL) (newGrow G_LL) (newOxid O_LL) (newCoag C_HM) (newTar T_NONE) (nZ 2) 100 _ None _ _ eq_refl).
Qed.
Print Assumptions C39_all_sizes_refuted.
(** a configuration and a history C39_seven is about *)
Example C39_case : exists m : model (N:=XR), build true P_MOMIC 6 (newNucl N_PAH) (newGrow G_HACA) (newOxid O_HACA) (newCoag C_HM) 0 (newTar T_NONE) (nZ 2) 100 = Ok m /\
  ~ readsTar N_PAH T_NONE /\
  Forall (sizedAction 6 0) [ASet (N:=XR) (nZ 1500) (nZ 100000) (nZ 1) (nZ 1) (repeat (nZ 0) 11) (repeat (nZ 0) 6) (repeat (nZ 1) 6) 6 [] 0 (nZ 100); ASrc (fun _ _ _ => (fun _ => nZ 0, fun _ => nZ 0))].
Proof. eexists. split; [reflexivity|]. split; [intros [H|[H|H]]; try discriminate; now apply H|]. repeat constructor. Qed.

(** ** C41 *)
(** the hybrid model: no call returns, for no accepted configuration and no state *)
Theorem C41_hmom : forall (N : Num) n nt newed (nu : nuclObj (N:=N)) gr ox co ta F k m g eig s,
  build newed P_HMOM n nu gr ox co nt ta F k = Ok m -> setSourceTerms g eig m s = UB OutOfBounds.
Proof. exact @C41_. Qed.
Print Assumptions C41_hmom.
Theorem C41_accepted : forall (N : Num) n nt newed (nu : nuclObj (N:=N)) gr ox co ta F k, 4 <= n <= 9 ->
  ta_mech ta = T_NONE -> (co_mech co = C_FM \/ co_mech co = C_CONTINUUM \/ co_mech co = C_HM) ->
  exists m, build newed P_HMOM n nu gr ox co nt ta F k = Ok m.
Proof. exact @hmom_accepted. Qed.
Print Assumptions C41_accepted.
Theorem C41_safe_refuted : exists (m : model (N:=XR)) s,
  constructEnum P_HMOM 4 N_LL G_LL O_LL C_CONTINUUM 0 T_NONE (nZ 2) 100 = Ok m /\ sizedState 4 0 s /\
  setSourceTerms None (fun _ _ _ => (fun _ => nZ 0, fun _ => nZ 0)) m s = UB OutOfBounds.
Proof.
  eexists. exists (newState 4 0). split; [reflexivity|]. split; [repeat split; cbn; auto with arith|].
  exact (@C41_ XR 4 0 true (newNucl N_LL) (newGrow G_LL) (newOxid O_LL) (newCoag C_CONTINUUM) (newTar T_NONE) (nZ 2) 100 _ None _ _ eq_refl).
Qed.
Print Assumptions C41_safe_refuted.

(** ** C47 *)
(** after every history of setState calls with matching sizes and setSourceTerms calls all
    vectors have their sizes; nothing leaves a vector; the only other ways to end are the
    binomial coefficients of QMOM beyond 34 moments and the bin search of SECT *)
Theorem C47_histories : forall (N : Num) n nt newed p (nu : nuclObj (N:=N)) gr ox co ta F k m l g,
  build newed p n nu gr ox co nt ta F k = Ok m ->
  p <> P_HMOM -> (p = P_MOMIC -> n <= 7) -> nu_class nu = nu_mech nu -> length (nu_pah nu) = 6 ->
  (readsTar (nu_class nu) (ta_mech ta) -> 1 <= nt) -> Forall (sizedAction n nt) l ->
  match runActions (g, m, newState n nt) l with
  | Ok (_, m', s') => sizedState n nt s' /\ sizedSources n nt (sm_sources m')
  | Throw _ => p = P_QMOM /\ 34 < n /\ co_mech co <> C_NONE
  | UB u => u = BadCast /\ p = P_SECT /\ co_mech co <> C_NONE
  end.
Proof. exact @C47_. Qed.
Print Assumptions C47_histories.
(** the same for models made by the enumerator constructor *)
Theorem C47_enum_histories : forall (N : Num) n nt p nu gr ox co ta F k (m : model (N:=N)) l g,
  constructEnum p n nu gr ox co nt ta F k = Ok m ->
  p <> P_HMOM -> (p = P_MOMIC -> n <= 7) -> (readsTar nu ta -> 1 <= nt) -> Forall (sizedAction n nt) l ->
  match runActions (g, m, newState n nt) l with
  | Ok (_, m', s') => sizedState n nt s' /\ sizedSources n nt (sm_sources m')
  | Throw _ => p = P_QMOM /\ 34 < n /\ co <> C_NONE
  | UB u => u = BadCast /\ p = P_SECT /\ co <> C_NONE
  end.
Proof. exact @C47_enum. Qed.
Print Assumptions C47_enum_histories.
(** histories in binary64 with an arbitrary libm *)
Example C47_case : forall lm, exists m : model (N:=F64 lm), constructEnum P_SECT 20 N_PAH G_HACA O_HACA C_NONE 0 T_NONE (nZ 2) 100 = Ok m /\
  ~ readsTar N_PAH T_NONE /\
  Forall (sizedAction 20 0) [ASrc (fun _ _ _ => (fun _ => nZ 0, fun _ => nZ 0));
    ASet (N:=F64 lm) (nZ 1500) (nZ 100000) (nZ 1) (nZ 1) (repeat (nZ 0) 11) (repeat (nZ 0) 6) (repeat (nZ 1) 20) 20 [] 0 (nZ 100);
    ASrc (fun _ _ _ => (fun _ => nZ 0, fun _ => nZ 0))].
Proof. intros lm. eexists. split; [reflexivity|]. split; [intros [H|[H|H]]; try discriminate; now apply H|]. repeat constructor. Qed.
(** a tar mechanism without tar variables does leave its vectors *)
Theorem C47_tar_refuted : exists (m : model (N:=XR)),
  constructEnum P_MONO 2 N_AJ_RED G_LL O_LL C_HM 0 T_NONE (nZ 2) 100 = Ok m /\
  runActions (None, m, newState 2 0) [ASrc (fun _ _ _ => (fun _ => nZ 0, fun _ => nZ 0))] = UB OutOfBounds.
Proof. eexists. split; [reflexivity|]. unfold runActions. cbn [foldM doAction]. rewrite (tar_oob (nZ 2) 100) by reflexivity. reflexivity. Qed.
Print Assumptions C47_tar_refuted.

(** ** C61 *)
(** histories in which every gas vector has at least [G] entries, enough for the mechanisms chosen *)
Theorem C61_enough : forall (N : Num) G n nt newed p (nu : nuclObj (N:=N)) gr ox co ta F k m l g,
  build newed p n nu gr ox co nt ta F k = Ok m ->
  p <> P_HMOM -> (p = P_MOMIC -> n <= 7) -> nu_class nu = nu_mech nu -> length (nu_pah nu) = 6 ->
  (readsTar (nu_class nu) (ta_mech ta) -> 1 <= nt) ->
  enoughGas G (nu_class nu) (gr_class gr) (ox_class ox) (ta_class ta) -> G <= 11 -> Forall (fitAction G n nt) l ->
  match runActions (g, m, newState n nt) l with
  | Ok (_, m', s') => fitState G n nt s' /\ sizedSources n nt (sm_sources m')
  | Throw _ => p = P_QMOM /\ 34 < n /\ co_mech co <> C_NONE
  | UB u => u = BadCast /\ p = P_SECT /\ co_mech co <> C_NONE
  end.
Proof. exact @C61_. Qed.
Print Assumptions C61_enough.
(** the first eight gases are enough but for LINA1 nucleation and AJ_RED tar, the first ten but for AJ_RED tar *)
Theorem C61_eight : forall nu gr ox ta, enoughGas 8 nu gr ox ta <-> nu <> N_LINA1 /\ ta <> T_AJ_RED.
Proof. exact enough_eight. Qed.
Print Assumptions C61_eight.
Theorem C61_ten : forall nu gr ox ta, enoughGas 10 nu gr ox ta <-> ta <> T_AJ_RED.
Proof. exact enough_ten. Qed.
Print Assumptions C61_ten.
(** a gas that is read and is missing: every call leaves the vector, whatever else the state holds *)
Theorem C61_short : forall (N : Num) g eig (m : model (N:=N)) s sp p n nt nu gr ox co ta F k,
  constructEnum p n nu gr ox co nt ta F k = Ok m -> length (yGas s) <= gasIdx sp ->
  nuclReads nu sp = true \/ growAlways gr sp = true \/ oxidReads ox sp = true \/ tarReads ta sp = true ->
  setSourceTerms g eig m s = UB OutOfBounds.
Proof. exact @rest_out. Qed.
Print Assumptions C61_short.
(** the C interface hands over ten gases, so models with AJ_RED tar never return after it *)
Theorem C61_c_interface : forall (N : Num) n nt p nu gr ox co ta F k (m : model (N:=N)) s0 T_ P_ rho mu yg yp sv ns tv nT c s g eig,
  setState_C s0 T_ P_ rho mu yg yp sv ns tv nT c = SetOk s -> constructEnum p n nu gr ox co nt ta F k = Ok m -> ta = T_AJ_RED ->
  setSourceTerms g eig m s = UB OutOfBounds.
Proof. exact @C61_C. Qed.
Print Assumptions C61_c_interface.
(** the sectional flame driver's mechanisms with eight gases *)
Example C61_enough_case : forall lm, exists m : model (N:=F64 lm), build true P_SECT 6 (newNucl N_LL) (newGrow G_HACA) (newOxid O_HACA) (newCoag C_NONE) 0 (newTar T_NONE) (nZ 2) 100 = Ok m /\
  enoughGas 8 N_LL G_HACA O_HACA T_NONE /\
  Forall (fitAction 8 6 0) [ASet (N:=F64 lm) (nZ 1500) (nZ 100000) (nZ 1) (nZ 1) (repeat (nZ 0) 8) (repeat (nZ 0) 6) (repeat (nZ 1) 6) 6 [] 0 (nZ 100); ASrc (fun _ _ _ => (fun _ => nZ 0, fun _ => nZ 0))].
Proof. intros lm. eexists. split; [reflexivity|]. split; [apply enough_eight; split; discriminate|]. repeat constructor. Qed.
(** an accepted C call and an accepted model with AJ_RED tar *)
Example C61_c_interface_case : (exists s, setState_C (N:=XR) (newState 2%nat 1%nat) (Fin 300) (Fin 1) (Fin 1) (Fin 1) (repeat (Fin 0) 11%nat) (repeat (Fin 0) 6%nat) [Fin 1; Fin 1] 2%Z [Fin 1] 1%Z (Fin 50) = SetOk s)%R /\
  exists m : model (N:=XR), constructEnum P_MONO 2 N_AJ_RED G_HACA O_AJ_RED C_FM 1 T_AJ_RED (nZ 2) 100 = Ok m.
Proof. split; [exact setC_accepted|eexists; reflexivity]. Qed.
