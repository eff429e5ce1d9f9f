(** Memory safety of constructed models: C39, C41, C47. *)
From Coq Require Import ZArith List Bool Lia.
From Verif Require Import Num Defs State Coag Nucl Growth Oxid Tar SootModel Mono Calls SpecSafe SafeProofs HmomProofs ConfigProofs.
Import ListNotations.

Section S.
Context {N : Num}.

Lemma build_facts newed p n nu gr ox co nt ta F k (m : model) : build (N:=N) newed p n nu gr ox co nt ta F k = Ok m ->
  sm_psd m = p /\ sm_coag m = co /\ sm_priv m = initPriv p n (nu_mech nu) F /\ derivedCheck p n (co_mech co) (ta_mech ta) = Ok tt.
Proof.
  unfold build. destruct (derivedCheck p n (co_mech co) (ta_mech ta)) as [u|?|?] eqn:ED; try discriminate. cbn [bind]. intros H. injection H as <-. destruct u. auto.
Qed.
Lemma C61_ G n nt newed p nu gr ox co ta F k (m : model) l g : build (N:=N) newed p n nu gr ox co nt ta F k = Ok m ->
  p <> P_HMOM -> (p = P_MOMIC -> n <= 7) -> nu_class nu = nu_mech nu -> length (nu_pah nu) = 6 -> (readsTar (nu_class nu) (ta_mech ta) -> 1 <= nt) ->
  enoughGas G (nu_class nu) (gr_class gr) (ox_class ox) (ta_class ta) -> G <= 11 -> Forall (fitAction G n nt) l ->
  match runActions (g, m, newState n nt) l with
  | Ok (_, m', s') => fitState G n nt s' /\ sizedSources n nt (sm_sources m')
  | Throw _ => p = P_QMOM /\ 34 < n /\ co_mech co <> C_NONE
  | UB u => u = BadCast /\ p = P_SECT /\ co_mech co <> C_NONE
  end.
Proof.
  intros EB HP HM EN LP HT EG HG HL. pose proof (build_sized G n nt newed p nu gr ox co ta F k m EB HP HM EN LP HT EG) as SM. destruct (build_facts _ _ _ _ _ _ _ _ _ _ _ _ EB) as (E1 & E2 & _ & _).
  set (t := match p with P_QMOM => Nat.ltb 34 n | _ => false end). set (b := match p with P_SECT => true | _ => false end).
  set (on := match co_mech co with C_NONE => false | _ => true end).
  assert (EO : coagOn m = on) by (unfold coagOn; now rewrite E2).
  pose proof (run_safe G n nt (t && on) (b && on) l HL g m (newState n nt) SM (new_sized G n nt HG)) as K. unfold wp in K.
  assert (Hon : on = true -> co_mech co <> C_NONE) by (unfold on; intros H Q; rewrite Q in H; discriminate).
  destruct (runActions (g, m, newState n nt) l) as [((g' & m') & s')|e|u].
  - destruct K as ((_ & _ & A & _) & B & _).
    + rewrite EO, E1. intros -> -> X. unfold t. apply Nat.ltb_lt in X. now rewrite X.
    + rewrite EO, E1. intros -> ->. reflexivity.
    + auto.
  - assert (K' : t && on = true). { apply K; rewrite EO, E1; intros -> ->; [|reflexivity]. intros X. unfold t. apply Nat.ltb_lt in X. now rewrite X. }
    apply andb_prop in K'. destruct K' as (K1 & K2). unfold t in K1. destruct p; try discriminate K1. apply Nat.ltb_lt in K1. auto.
  - assert (K' : match u with BadCast => b && on = true | _ => False end). { apply K; rewrite EO, E1; intros -> ->; [|reflexivity]. intros X. unfold t. apply Nat.ltb_lt in X. now rewrite X. }
    destruct u; try contradiction. apply andb_prop in K'. destruct K' as (K1 & K2). unfold b in K1. destruct p; try discriminate K1. auto.
Qed.
Lemma enough_11 nu gr ox ta : enoughGas 11 nu gr ox ta.
Proof. intros sp _. destruct sp; cbn; lia. Qed.
Lemma C47_ n nt newed p nu gr ox co ta F k (m : model) l g : build (N:=N) newed p n nu gr ox co nt ta F k = Ok m ->
  p <> P_HMOM -> (p = P_MOMIC -> n <= 7) -> nu_class nu = nu_mech nu -> length (nu_pah nu) = 6 -> (readsTar (nu_class nu) (ta_mech ta) -> 1 <= nt) ->
  Forall (sizedAction n nt) l ->
  match runActions (g, m, newState n nt) l with
  | Ok (_, m', s') => sizedState n nt s' /\ sizedSources n nt (sm_sources m')
  | Throw _ => p = P_QMOM /\ 34 < n /\ co_mech co <> C_NONE
  | UB u => u = BadCast /\ p = P_SECT /\ co_mech co <> C_NONE
  end.
Proof. intros EB HP HM EN LP HT HL. exact (C61_ 11 n nt newed p nu gr ox co ta F k m l g EB HP HM EN LP HT (enough_11 _ _ _ _) (le_n _) HL). Qed.
Lemma C41_ n nt newed nu gr ox co ta F k (m : model) g eig s : build (N:=N) newed P_HMOM n nu gr ox co nt ta F k = Ok m ->
  setSourceTerms g eig m s = UB OutOfBounds.
Proof.
  intros EB. destruct (build_facts _ _ _ _ _ _ _ _ _ _ _ _ EB) as (E1 & E2 & E3 & E4). eapply hmom_call; eauto.
  unfold coagOn. rewrite E2. unfold derivedCheck, needNoTar, needFmContHm in E4. destruct (_ || _); [discriminate|]. destruct (ta_mech ta); try discriminate. cbn [bind] in E4. destruct (co_mech co); congruence || reflexivity.
Qed.
Lemma C39_8 nt newed nu gr ox co ta F k (m : model) g eig s : build (N:=N) newed P_MOMIC 8 nu gr ox co nt ta F k = Ok m ->
  setSourceTerms g eig m s = UB OutOfBounds.
Proof. intros EB. destruct (build_facts _ _ _ _ _ _ _ _ _ _ _ _ EB) as (E1 & E2 & E3 & E4). eapply momic8_call; eauto. Qed.
Lemma C39_7 n nt newed nu gr ox co ta F k (m : model) l g : build (N:=N) newed P_MOMIC n nu gr ox co nt ta F k = Ok m ->
  n <= 7 -> nu_class nu = nu_mech nu -> length (nu_pah nu) = 6 -> (readsTar (nu_class nu) T_NONE -> 1 <= nt) -> Forall (sizedAction n nt) l ->
  exists g' m' s', runActions (g, m, newState n nt) l = Ok (g', m', s') /\ sizedState n nt s' /\ sizedSources n nt (sm_sources m').
Proof.
  intros EB Hn EN LP HT HL. destruct (build_facts _ _ _ _ _ _ _ _ _ _ _ _ EB) as (E1 & E2 & E3 & E4).
  assert (ET : ta_mech ta = T_NONE). { unfold derivedCheck, needNoTar in E4. destruct (_ || _); [discriminate|]. destruct (ta_mech ta); try discriminate E4; reflexivity. }
  pose proof (C47_ n nt newed P_MOMIC nu gr ox co ta F k m l g EB ltac:(discriminate) ltac:(auto) EN LP ltac:(rewrite ET; exact HT) HL) as K.
  destruct (runActions _ _) as [((g' & m') & s')|e|u]; [|destruct K; congruence|destruct K as (_ & K & _); congruence]. exists g', m', s'. auto.
Qed.
(** accepted numbers of moments *)
Lemma momic8_accepted nt newed nu gr ox co ta F k : ta_mech ta = T_NONE -> (co_mech co = C_FM \/ co_mech co = C_CONTINUUM \/ co_mech co = C_HM) ->
  exists m, build (N:=N) newed P_MOMIC 8 nu gr ox co nt ta F k = Ok m.
Proof. intros ET EC. unfold build, derivedCheck, needNoTar, needFmContHm. cbn [Nat.ltb Nat.leb orb]. rewrite ET. cbn [bind]. destruct EC as [-> |[-> | ->]]; cbn [bind]; eexists; reflexivity. Qed.
Lemma hmom_accepted n nt newed nu gr ox co ta F k : 4 <= n <= 9 -> ta_mech ta = T_NONE -> (co_mech co = C_FM \/ co_mech co = C_CONTINUUM \/ co_mech co = C_HM) ->
  exists m, build (N:=N) newed P_HMOM n nu gr ox co nt ta F k = Ok m.
Proof.
  intros Hn ET EC. unfold build, derivedCheck, needNoTar, needFmContHm. destruct (Nat.ltb_spec n 4); [lia|]. destruct (Nat.ltb_spec 9 n); [lia|]. cbn [orb]. rewrite ET. cbn [bind].
  destruct EC as [-> |[-> | ->]]; cbn [bind]; eexists; reflexivity.
Qed.
(** tar nucleation without tar variables *)
Lemma tar_oob F k eig (m : model) : constructEnum (N:=N) P_MONO 2 N_AJ_RED G_LL O_LL C_HM 0 T_NONE F k = Ok m ->
  setSourceTerms None eig m (newState 2 0) = UB OutOfBounds.
Proof.
  intros H. cbn in H. injection H as <-. unfold setSourceTerms. cbn [sm_psd]. unfold setSourceTermsMONO. cbn [newState sootVar zeros repeat vget nth_error bind].
  unfold monoSetWA. match goal with |- context [if ?c then _ else _] => destruct c end; reflexivity.
Qed.
(** with the enumerator constructor *)
Lemma C47_enum n nt p nu gr ox co ta F k (m : model) l g : constructEnum (N:=N) p n nu gr ox co nt ta F k = Ok m ->
  p <> P_HMOM -> (p = P_MOMIC -> n <= 7) -> (readsTar nu ta -> 1 <= nt) -> Forall (sizedAction n nt) l ->
  match runActions (g, m, newState n nt) l with
  | Ok (_, m', s') => sizedState n nt s' /\ sizedSources n nt (sm_sources m')
  | Throw _ => p = P_QMOM /\ 34 < n /\ co <> C_NONE
  | UB u => u = BadCast /\ p = P_SECT /\ co <> C_NONE
  end.
Proof.
  intros EB HP HM HT HL. unfold constructEnum in EB.
  assert (E1 : mkNuclEnum (N:=N) nu = Ok (newNucl nu) \/ exists e, mkNuclEnum (N:=N) nu = Throw e) by (destruct nu; cbn; eauto).
  destruct E1 as [E1|(e & E1)]; rewrite E1 in EB; [cbn [bind] in EB|discriminate EB].
  destruct (mkGrowEnum gr) as [gr'| |]; cbn [bind] in EB; try discriminate EB. destruct (mkOxidEnum ox) as [ox'| |]; cbn [bind] in EB; try discriminate EB.
  assert (E2 : mkCoagEnum (N:=N) co = Ok (newCoag co) \/ exists e, mkCoagEnum (N:=N) co = Throw e) by (destruct co; cbn; eauto).
  destruct E2 as [E2|(e & E2)]; rewrite E2 in EB; [cbn [bind] in EB|discriminate EB].
  assert (E3 : mkTarEnum ta = Ok (newTar ta) \/ exists e, mkTarEnum ta = Throw e) by (destruct ta; cbn; eauto).
  destruct E3 as [E3|(e & E3)]; rewrite E3 in EB; [cbn [bind] in EB|discriminate EB].
  apply (C47_ n nt true p (newNucl nu) gr' ox' (newCoag co) (newTar ta) F k m l g EB HP HM eq_refl); auto.
Qed.
End S.
