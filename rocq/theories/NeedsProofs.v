(** Calls look only at what C67 lists. *)
From Coq Require Import ZArith List Bool Lia.
From Verif Require Import Num Defs State Binomial Coag Nucl Growth Oxid Tar SootModel Mono Logn Qmom Momic Sect Hmom Calls SpecSafe SpecNeeds FrameMain HistProofs.
Import ListNotations.

Definition mapR {A B} (f : A -> B) (r : res A) : res B := match r with Ok a => Ok (f a) | Throw e => Throw e | UB u => UB u end.
Lemma mapR_bind {A B A' B'} (f : A -> A') (h : B -> B') r r' (k : A -> res B) k' : r' = mapR f r -> (forall a, r = Ok a -> k' (f a) = mapR h (k a)) -> bind r' k' = mapR h (bind r k).
Proof. intros ->. destruct r; cbn [mapR bind]; auto. Qed.
Lemma mapR_same {A B B'} (h : B -> B') (r r' : res A) (k : A -> res B) k' : r' = r -> (forall a, r = Ok a -> k' a = mapR h (k a)) -> bind r' k' = mapR h (bind r k).
Proof. intros ->. destruct r; cbn [mapR bind]; auto. Qed.
Lemma mapM_fun {A B} (f g : A -> res B) l : (forall a, f a = g a) -> mapM f l = mapM g l.
Proof. intros H. apply mapM_eq. auto. Qed.
Lemma bind_fun {A B} (r r' : res A) (f g : A -> res B) : r = r' -> (forall a, f a = g a) -> bind r f = bind r' g.
Proof. intros -> H. destruct r'; cbn [bind]; auto. Qed.
Lemma foldM_fun {A S} (f g : S -> A -> res S) l : (forall s a, f s a = g s a) -> forall s, foldM f l s = foldM g l s.
Proof. intros H. apply foldM_eq. auto. Qed.

Section S.
Context {N : Num}.
Variable o : state (N:=N).
Notation M s := (mix s o).

(** reads *)
Definition gasAs (s : state) sp : Prop := nth_error (yGas o) (gasIdx sp) = nth_error (yGas s) (gasIdx sp).
Definition tarAs (s : state) : Prop := nth_error (tarVar o) 0 = nth_error (tarVar s) 0.
Lemma gasC_mix s sp : gasAs s sp -> getGasSpC (M s) sp = getGasSpC s sp.
Proof. unfold gasAs, getGasSpC, vget. intros H. cbn [mix yGas rhoGas]. now rewrite H. Qed.
Lemma gasP_mix s sp : gasAs s sp -> P o = P s -> MWGas o = MWGas s -> getGasSpP (M s) sp = getGasSpP s sp.
Proof. unfold gasAs, getGasSpP, vget. intros H EP EM. cbn [mix yGas MWGas P]. now rewrite H, EP, EM. Qed.
Lemma tar_mix s : tarAs s -> vget (tarVar (M s)) 0 = vget (tarVar s) 0.
Proof. unfold tarAs, vget. intros H. cbn [mix tarVar]. now rewrite H. Qed.
Lemma mfp_mix s : MWGas o = MWGas s -> muGas o = muGas s -> getGasMeanFreePath (M s) = getGasMeanFreePath s.
Proof. intros A B. unfold getGasMeanFreePath. cbn [mix MWGas muGas rhoGas T]. now rewrite A, B. Qed.
Lemma Kc_mix s : muGas o = muGas s -> getKc (M s) = getKc s.
Proof. intros B. unfold getKc. cbn [mix muGas T]. now rewrite B. Qed.
Lemma Kcp_mix s : MWGas o = MWGas s -> muGas o = muGas s -> getKcp (M s) = getKcp s.
Proof. intros A B. unfold getKcp. now rewrite mfp_mix. Qed.
Lemma Kfm_mix c s : getKfm c (M s) = getKfm c s. Proof. reflexivity. Qed.

Definition moves (c : coagulationMech) : Prop := match c with C_NONE | C_FM => False | _ => True end.
Lemma coag_mix c s : (moves (co_class c) -> MWGas o = MWGas s /\ muGas o = muGas s) -> forall a b, coagRate c (M s) a b = coagRate c s a b.
Proof.
  intros H a b. unfold coagRate. destruct (co_class c); try reflexivity; destruct (H I) as (E1 & E2).
  - unfold kernelCONT. now rewrite mfp_mix, Kc_mix by auto.
  - unfold kernelHM. rewrite mfp_mix by auto. change (muGas (M s)) with (muGas o). now rewrite E2.
  - unfold kernelFUCHS. rewrite mfp_mix by auto. change (muGas (M s)) with (muGas o). now rewrite E2.
Qed.

(** the soot variables are those of [s] *)
Lemma M01_mix v s : getM01 v (M s) = getM01 v s. Proof. reflexivity. Qed.
Lemma sites_mix s : (forall sp, hacaReads sp = true -> gasAs s sp) -> hacaSites (M s) = hacaSites s.
Proof. intros H. unfold hacaSites. now rewrite !gasC_mix by (apply H; reflexivity). Qed.
Lemma hacaM_mix v s : (sv_psd v = P_SECT -> st_nsoot o = st_nsoot s) -> hacaM01 v (M s) = hacaM01 v s.
Proof. intros H. unfold hacaM01. change (sootVar (M s)) with (sootVar s). change (st_nsoot (M s)) with (st_nsoot o). destruct (sv_psd v); auto. now rewrite H. Qed.
Lemma grow_mix g v s : (forall sp, growReads (gr_class g) sp = true -> gasAs s sp) -> (sv_psd v = P_SECT -> gr_class g = G_HACA -> st_nsoot o = st_nsoot s) -> growRate g v (M s) = growRate g v s.
Proof.
  intros H K. unfold growRate. destruct (gr_class g); try reflexivity.
  - unfold growLL. rewrite M01_mix, gasC_mix by (apply H; reflexivity). reflexivity.
  - unfold growLIN. rewrite gasC_mix by (apply H; reflexivity). reflexivity.
  - unfold growHACA. rewrite hacaM_mix, sites_mix by auto. reflexivity.
  - unfold growMB. rewrite M01_mix, gasC_mix by (apply H; reflexivity). reflexivity.
  - unfold growFAIR. rewrite M01_mix, gasC_mix by (apply H; reflexivity). reflexivity.
Qed.
Lemma neoh_mix e s : gasAs s OH -> neohOH e (M s) = neohOH e s.
Proof. intros H. unfold neohOH. now rewrite gasC_mix. Qed.
Lemma oxid_mix x v s ta : (forall sp, oxidReads (ox_class x) sp = true -> gasAs s sp) -> (byPressure (ox_class x) ta -> P o = P s /\ MWGas o = MWGas s) -> oxidRate x v (M s) = oxidRate x v s.
Proof.
  intros H K. unfold oxidRate. destruct (ox_class x) eqn:E; try reflexivity; try (destruct (K I) as (E1 & E2)).
  all: unfold oxidLL, oxidLEE_NEOH, oxidMB, oxidFAIR, oxidNSC_NEOH, oxidHACA, oxidAJ_RED, oxidBROWN, oxidOPTJ, oxidOPTG; rewrite ?M01_mix.
  all: try rewrite sites_mix by (intros sp Hs; apply H; exact Hs).
  all: try rewrite !gasP_mix by (auto; apply H; reflexivity); try rewrite !gasC_mix by (apply H; reflexivity); try rewrite neoh_mix by (apply H; reflexivity); reflexivity.
Qed.
Lemma depo_mix s : tarAs s -> mtar o = mtar s -> depoAJ_RED (M s) = depoAJ_RED s.
Proof. intros H K. unfold depoAJ_RED. rewrite tar_mix by auto. change (mtar (M s)) with (mtar o). now rewrite K. Qed.
Lemma crack_mix t s : (forall sp, tarReads (ta_class t) sp = true -> gasAs s sp) -> (ta_class t <> T_NONE -> tarAs s) -> crackRate t (M s) = crackRate t s.
Proof.
  intros H K. unfold crackRate. destruct (ta_class t); try reflexivity.
  - unfold crackAJ_RED. rewrite tar_mix by (apply K; discriminate). rewrite gasC_mix by (apply H; reflexivity). reflexivity.
  - unfold crackBROWN. rewrite tar_mix by (apply K; discriminate). rewrite gasC_mix by (apply H; reflexivity). reflexivity.
Qed.
Lemma surf_mix t s : (forall sp, tarReads (ta_class t) sp = true -> gasAs s sp) -> (ta_class t <> T_NONE -> tarAs s) -> (ta_class t = T_AJ_RED -> P o = P s /\ MWGas o = MWGas s) -> surfRate t (M s) = surfRate t s.
Proof.
  intros H K L. unfold surfRate. destruct (ta_class t); try reflexivity.
  - unfold surfAJ_RED. destruct (L eq_refl). rewrite !gasP_mix by (auto; apply H; reflexivity). reflexivity.
  - unfold surfBROWN. rewrite tar_mix by (apply K; discriminate). reflexivity.
Qed.
Lemma deporate_mix t s : (ta_class t <> T_NONE -> tarAs s) -> (ta_class t = T_AJ_RED -> mtar o = mtar s) -> depoRate t (M s) = depoRate t s.
Proof. intros K L. unfold depoRate. destruct (ta_class t); try reflexivity. apply depo_mix; auto. apply K. discriminate. Qed.

(** nucleation *)
Notation nuclR := (fun x => let '(a, b, s', e) := x in (a, b, mix s' o, e)) (only parsing).
Lemma pah_mix coll nu s : yPah o = yPah s -> (forall c x, coll (M (with_cMin s c)) x = coll (with_cMin s c) x) ->
  nuclPAH (N:=N) coll nu (M s) = mapR nuclR (nuclPAH coll nu s).
Proof.
  intros H K. unfold nuclPAH. apply mapR_same.
  - unfold pahLoop. apply foldM_fun. intros a sp. unfold pahStep, pahNdot. cbn [mix yPah]. rewrite H. reflexivity.
  - intros a _. cbv zeta. change (with_cMin (M s)) with (fun c => M (with_cMin s c)). cbv beta. apply mapR_same; [apply K|]. intros (Ib & eff) _. reflexivity.
Qed.
Lemma nucl_mix coll nu s : (forall sp, nuclReads (nu_class nu) sp = true -> gasAs s sp) -> (nu_class nu = N_PAH -> yPah o = yPah s) ->
  (nu_class nu = N_AJ_RED \/ nu_class nu = N_BROWN -> tarAs s) -> (nu_class nu = N_AJ_RED -> mtar o = mtar s) -> (forall c x, coll (M (with_cMin s c)) x = coll (with_cMin s c) x) ->
  nuclRate (N:=N) coll nu (M s) = mapR nuclR (nuclRate coll nu s).
Proof.
  intros H1 H2 H3 H4 K. unfold nuclRate. destruct (nu_class nu) eqn:E; try reflexivity; cbv zeta.
  all: try (apply mapR_same; [|intros ? _; reflexivity]; unfold nuclLL, nuclLIN, nuclLINA1, nuclMB, nuclFAIR; rewrite gasC_mix by (apply H1; reflexivity); reflexivity).
  - eapply mapR_bind; [apply pah_mix; auto|]. intros (((? & ?) & ?) & ?) _. reflexivity.
  - apply mapR_same; [|intros ? _; reflexivity]. unfold nuclAJ_RED. rewrite tar_mix by auto. change (mtar (M s)) with (mtar o). rewrite H4 by auto. reflexivity.
  - apply mapR_same; [|intros ? _; reflexivity]. unfold nuclBROWN. rewrite tar_mix by auto. reflexivity.
Qed.
Lemma run_mix coll m s : needs m s o -> (forall c x, coll (M (with_cMin s c)) x = coll (with_cMin s c) x) ->
  runNucl (N:=N) coll m (M s) = mapR (fun x => let '(a, m', s') := x in (a, m', mix s' o)) (runNucl coll m s).
Proof.
  intros [] K. unfold runNucl. eapply mapR_bind.
  - apply nucl_mix; auto.
    + intros sp E. apply needs_gas. auto.
    + intros E. apply needs_tar. unfold readsTar. tauto.
  - intros (((? & ?) & ?) & ?) _. reflexivity.
Qed.
(** [needs] concerns fields that nucleation leaves alone *)
Definition follows (m m' : model (N:=N)) (s s' : state (N:=N)) : Prop :=
  nu_class (sm_nucl m') = nu_class (sm_nucl m) /\ gr_class (sm_grow m') = gr_class (sm_grow m) /\ ox_class (sm_oxid m') = ox_class (sm_oxid m) /\ sm_coag m' = sm_coag m /\ sm_tar m' = sm_tar m /\ sm_psd m' = sm_psd m /\
  yGas s' = yGas s /\ yPah s' = yPah s /\ tarVar s' = tarVar s /\ mtar s' = mtar s /\ P s' = P s /\ MWGas s' = MWGas s /\ muGas s' = muGas s /\ st_nsoot s' = st_nsoot s.
Lemma needs_follow m m' s s' : follows m m' s s' -> needs m s o -> needs m' s' o.
Proof.
  intros (F1 & F2 & F3 & F4 & F5 & F6 & F7 & F8 & F9 & F10 & F11 & F12 & F13 & F14) [A1 A2 A3 A4 A5 A6 A7 A8].
  constructor; rewrite ?F1, ?F2, ?F3, ?F4, ?F5, ?F6, ?F7, ?F8, ?F9, ?F10, ?F11, ?F12, ?F13, ?F14; assumption.
Qed.
Lemma keeps_follow m m' s s' : nuclKeeps (N:=N) m s m' s' -> follows m m' s s' /\ nu_mech (sm_nucl m') = nu_mech (sm_nucl m).
Proof.
  intros (A & _ & B & C & _ & _ & D). split; [|exact C]. unfold follows. split; [exact B|]. rewrite D. cbn [sm_grow sm_oxid sm_coag sm_tar sm_psd]. rewrite A. cbn. tauto.
Qed.
Lemma chem_mix coll m s : needs m s o -> (forall c x, coll (M (with_cMin s c)) x = coll (with_cMin s c) x) ->
  chemRates (N:=N) coll m (M s) = mapR (fun x => let '(a, b, c, m', s') := x in (a, b, c, m', mix s' o)) (chemRates coll m s).
Proof.
  intros H K. unfold chemRates. pose proof (run_post coll m s) as RP. eapply mapR_bind; [now apply run_mix|]. intros ((a & m') & s') E. rewrite E in RP. cbn [post] in RP.
  destruct (keeps_follow _ _ _ _ RP) as (F & _). pose proof (needs_follow _ _ _ _ F H) as [A1 A2 A3 A4 A5 A6 A7 A8].
  apply mapR_same; [apply grow_mix; [intros sp Q; apply A1; auto|intros Q1 Q2; apply A8; auto]|]. intros kg _.
  apply mapR_same; [|intros ko _; reflexivity]. apply (oxid_mix _ _ _ (ta_class (sm_tar m'))); [intros sp Q; apply A1; auto|intros Q; split; auto].
Qed.
Lemma moves_needs m s : needs m s o -> moves (co_class (sm_coag m)) -> MWGas o = MWGas s /\ muGas o = muGas s.
Proof. intros [A1 A2 A3 A4 A5 A6 A7 A8] H. assert (Q : byTransport (sm_psd m) (nu_class (sm_nucl m)) (co_class (sm_coag m))) by (unfold byTransport; destruct (co_class (sm_coag m)); try contradiction; exact I). split; auto. Qed.
Lemma collSum_mix c s : (moves (co_class c) -> MWGas o = MWGas s /\ muGas o = muGas s) -> forall x, collSum (N:=N) c (M s) x = collSum c s x.
Proof.
  intros H x. unfold collSum. change (wts (M s)) with (wts s). change (absc (M s)) with (absc s). apply bind_fun; [|reflexivity]. apply foldM_fun. intros a i.
  apply bind_fun; [reflexivity|]. intros w. apply bind_fun; [reflexivity|]. intros b. now rewrite coag_mix.
Qed.
Lemma sum_ok m s : needs m s o -> forall c x, collSum (N:=N) (sm_coag m) (M (with_cMin s c)) x = collSum (sm_coag m) (with_cMin s c) x.
Proof. intros H c x. apply collSum_mix. intros Q. exact (moves_needs m s H Q). Qed.

(** the models *)
Notation ends := (fun x : model * state => (fst x, mix (snd x) o)).
Lemma terms_mix M0 M1 m s : needs m s o -> monoTermsOf (N:=N) M0 M1 m (M s) = mapR (fun x => let '(t, m', s') := x in (t, m', mix s' o)) (monoTermsOf M0 M1 m s).
Proof.
  intros H. unfold monoTermsOf. pose proof (chem_post (collSum (sm_coag m)) m s) as CP. eapply mapR_bind; [apply chem_mix; [exact H|now apply sum_ok]|].
  intros ((((j & kg) & ko) & m') & s') E. rewrite E in CP. cbn [post] in CP. destruct (keeps_follow _ _ _ _ CP) as (F & _). pose proof (needs_follow _ _ _ _ F H) as H'.
  apply mapR_same; [reflexivity|]. intros x0 _. cbv zeta. apply mapR_same.
  - destruct (isPAH m'); [|reflexivity]. apply bind_fun; [reflexivity|]. intros w0. rewrite coag_mix by (intros Q; exact (moves_needs m' s' H' Q)). reflexivity.
  - intros c1 _. apply mapR_same; [|intros ? _; reflexivity]. destruct (coagOn m'); [|reflexivity]. apply bind_fun; [reflexivity|]. intros w0. rewrite coag_mix by (intros Q; exact (moves_needs m' s' H' Q)). reflexivity.
Qed.
Lemma tarterms_mix M0 M1 n0 t m s : needs m s o -> ta_mech (sm_tar m) = ta_class (sm_tar m) -> monoTarTerms (N:=N) M0 M1 n0 t m (M s) = monoTarTerms M0 M1 n0 t m s.
Proof.
  intros [A1 A2 A3 A4 A5 A6 A7 A8] ET. unfold monoTarTerms. rewrite ET.
  assert (TA : ta_class (sm_tar m) <> T_NONE -> tarAs s) by (intros Q; apply A3; unfold readsTar; auto).
  assert (GA : forall sp, tarReads (ta_class (sm_tar m)) sp = true -> gasAs s sp) by (intros sp Q; apply A1; auto).
  assert (BP : ta_class (sm_tar m) = T_AJ_RED -> P o = P s /\ MWGas o = MWGas s).
  { intros Q. assert (B : byPressure (ox_class (sm_oxid m)) (ta_class (sm_tar m))) by (unfold byPressure; destruct (ox_class (sm_oxid m)); auto). split; auto. }
  rewrite crack_mix, surf_mix, deporate_mix by auto. destruct (ta_class (sm_tar m)) eqn:E; try reflexivity.
  change (mtar (M s)) with (mtar o). rewrite A4 by auto. reflexivity.
Qed.
Lemma setWA_mix M0 M1 s : monoSetWA (N:=N) M0 M1 (M s) = mapR (fun s' => mix s' o) (monoSetWA M0 M1 s).
Proof. unfold monoSetWA. destruct (nltb _ _); [|reflexivity]. apply mapR_same; [reflexivity|]. intros w _. apply mapR_same; [reflexivity|]. intros a _. reflexivity. Qed.
Lemma setWA_post M0 M1 s : post (monoSetWA (N:=N) M0 M1 s) (fun s' => exists w a, s' = with_wa s w a).
Proof.
  unfold monoSetWA. destruct (nltb _ _); [|cbn [post]; exists (wts s), (absc s); apply wa_self]. apply post_any. intros w. apply post_any. intros a. cbn [post]. eauto.
Qed.
Lemma follows_wa m s w a : follows m m s (with_wa s w a). Proof. unfold follows. cbn. tauto. Qed.
Lemma mono_mix m s : needs m s o -> tagged m -> setSourceTermsMONO (N:=N) m (M s) = mapR ends (setSourceTermsMONO m s).
Proof.
  intros H (T1 & T2 & T3). unfold setSourceTermsMONO. apply mapR_same; [reflexivity|]. intros M0 _. apply mapR_same; [reflexivity|]. intros M1 _.
  pose proof (setWA_post M0 M1 s) as WP. eapply mapR_bind; [apply setWA_mix|]. intros s1 E1. rewrite E1 in WP. cbn [post] in WP. destruct WP as (w & a & ->).
  pose proof (needs_follow _ _ _ _ (follows_wa m s w a) H) as H1. set (s1 := with_wa s w a) in *.
  assert (TT : ta_mech (sm_tar m) <> T_NONE -> vget (tarVar (M s1)) 0 = vget (tarVar s1) 0).
  { intros Q. apply tar_mix. apply (needs_tar _ _ _ H1). unfold readsTar. rewrite T3 in Q. auto. }
  assert (TP : forall m' s', monoTermsOf M0 M1 m s1 = Ok (m', s') -> follows m (snd m') s1 s').
  { intros (t & m') s' E. cbn [snd]. unfold monoTermsOf in E. pose proof (chem_post (collSum (sm_coag m)) m s1) as CP. destruct (chemRates _ m s1) as [((((j & kg) & ko) & m2) & s2)| |]; cbn [bind] in E; try discriminate. cbn [post] in CP.
    destruct (vget (absc s2) 0); cbn [bind] in E; try discriminate. cbv zeta in E. destruct (if isPAH m2 then _ else _); cbn [bind] in E; try discriminate. destruct (if coagOn m2 then _ else _); cbn [bind] in E; try discriminate.
    injection E as _ <- <-. apply (keeps_follow _ _ _ _ CP). }
  destruct (ta_mech (sm_tar m)) eqn:EM.
  { eapply mapR_bind; [now apply terms_mix|]. intros ((t & m') & s') _. reflexivity. }
  all: apply mapR_same; [apply TT; discriminate|]; intros n0 _; (eapply mapR_bind; [now apply terms_mix|]); intros ((t & m') & s') E; specialize (TP _ _ E); cbn [snd] in TP;
    pose proof (needs_follow _ _ _ _ TP H1) as H2; (apply mapR_same; [apply tarterms_mix; [exact H2|destruct TP as (_ & _ & _ & _ & -> & _); rewrite EM; exact T3]|]);
    intros ((a0 & a1) & a2) _; (apply mapR_same; [reflexivity|]); intros ts _; reflexivity.
Qed.
(** collisions with dimers *)
Lemma dimer_needs m s : needs m s o -> tagged m -> isPAH m = true -> sm_psd m = P_LOGN \/ sm_psd m = P_MOMIC -> MWGas o = MWGas s /\ muGas o = muGas s.
Proof.
  intros [A1 A2 A3 A4 A5 A6 A7 A8] (T1 & _) IP HP. assert (Q : byTransport (sm_psd m) (nu_class (sm_nucl m)) (co_class (sm_coag m))); [|split; auto].
  unfold isPAH in IP. rewrite T1 in IP. unfold byTransport. destruct (nu_class (sm_nucl m)); try discriminate. destruct (co_class (sm_coag m)); auto.
Qed.
Lemma collLOGN_mix m s : needs m s o -> tagged m -> sm_psd m = P_LOGN -> forall c x, collLOGN (N:=N) m (M (with_cMin s c)) x = collLOGN m (with_cMin s c) x.
Proof.
  intros H TG HP c x. unfold collLOGN. destruct (isPAH m) eqn:IP; [|reflexivity]. destruct (dimer_needs m s H TG IP (or_introl HP)) as (E1 & E2). cbn [negb].
  rewrite Kc_mix, Kcp_mix by auto. reflexivity.
Qed.
Lemma tagged_follow m m' s s' : nuclKeeps (N:=N) m s m' s' -> tagged m -> tagged m' /\ sm_psd m' = sm_psd m.
Proof. intros (_ & _ & B & C & _ & _ & D) (T1 & T2 & T3). unfold tagged. rewrite B, C. rewrite D. cbn. auto. Qed.
Lemma lognCoag_mix c s : (moves (co_class c) -> MWGas o = MWGas s /\ muGas o = muGas s) -> co_mech c = co_class c -> forall a b d, lognCoag (N:=N) c (M s) a b d = lognCoag c s a b d.
Proof. intros H E a b d. unfold lognCoag. rewrite E. destruct (co_class c); try reflexivity; destruct (H I); rewrite Kc_mix, Kcp_mix by auto; reflexivity. Qed.
Lemma logn_mix m s : needs m s o -> tagged m -> sm_psd m = P_LOGN -> setSourceTermsLOGN (N:=N) m (M s) = mapR ends (setSourceTermsLOGN m s).
Proof.
  intros H TG HP. unfold setSourceTermsLOGN. do 3 (apply mapR_same; [reflexivity|]; intros ? _). cbv zeta. pose proof (run_post (collLOGN m) m s) as RP.
  eapply mapR_bind; [apply run_mix; [exact H|now apply collLOGN_mix]|]. intros ((j & m') & s') E. rewrite E in RP. cbn [post] in RP.
  destruct (keeps_follow _ _ _ _ RP) as (F & _). pose proof (needs_follow _ _ _ _ F H) as H'. destruct (tagged_follow _ _ _ _ RP TG) as (TG' & HP'). rewrite HP in HP'.
  pose proof H' as [A1 A2 A3 A4 A5 A6 A7 A8].
  apply mapR_same. { destruct (growOn m'); [|reflexivity]. rewrite grow_mix; [reflexivity|intros sp Q; apply A1; auto|intros Q1 Q2; apply A8; auto]. }
  intros (G1 & G2) _. apply mapR_same. { destruct (oxidOn m'); [|reflexivity]. rewrite (oxid_mix _ _ _ (ta_class (sm_tar m'))); [reflexivity|intros sp Q; apply A1; auto|intros Q; split; auto]. }
  intros (X1 & X2) _. rewrite lognCoag_mix; [|intros Q; exact (moves_needs m' s' H' Q)|exact (proj1 (proj2 TG'))]. destruct (lognCoag _ _ _ _ _) as (C0 & C2). cbn [mapR fst snd].
  destruct (isPAH m') eqn:IP; [|reflexivity]. destruct (dimer_needs m' s' H' TG' IP (or_introl HP')) as (E1 & E2). rewrite Kc_mix, Kcp_mix by auto. reflexivity.
Qed.
Lemma qcoag_mix c s r : (moves (co_class c) -> MWGas o = MWGas s /\ muGas o = muGas s) -> qmomCoag (N:=N) c (M s) r = qmomCoag c s r.
Proof.
  intros H. unfold qmomCoag. change (wts (M s)) with (wts s). change (absc (M s)) with (absc s). destruct (Nat.eqb r 1); [reflexivity|]. cbv zeta. apply bind_fun.
  - apply foldM_fun. intros a i. apply foldM_fun. intros b j. do 5 (apply bind_fun; [reflexivity|]; intros ?). now rewrite coag_mix.
  - intros a. apply bind_fun; [reflexivity|]. intros b. apply foldM_fun. intros d i. do 2 (apply bind_fun; [reflexivity|]; intros ?). now rewrite coag_mix.
Qed.
Lemma qcnd_mix m s k : (moves (co_class (sm_coag m)) -> MWGas o = MWGas s /\ muGas o = muGas s) -> qmomCnd (N:=N) m (M s) k = qmomCnd m s k.
Proof.
  intros H. unfold qmomCnd. change (wts (M s)) with (wts s). change (absc (M s)) with (absc s). destruct (_ && _); [|reflexivity]. apply bind_fun; [|reflexivity].
  apply foldM_fun. intros a i. do 2 (apply bind_fun; [reflexivity|]; intros ?). now rewrite coag_mix.
Qed.
Lemma qmom_mix eig m s : needs m s o -> setSourceTermsQMOM (N:=N) eig m (M s) = mapR ends (setSourceTermsQMOM eig m s).
Proof.
  intros H. unfold setSourceTermsQMOM. apply mapR_same; [reflexivity|]. intros (w & a) _. cbv zeta. change (with_wa (M s) w a) with (M (with_wa s w a)).
  pose proof (needs_follow _ _ _ _ (follows_wa m s w a) H) as H1. set (s1 := with_wa s w a) in *. pose proof (chem_post (collSum (sm_coag m)) m s1) as CP.
  eapply mapR_bind; [apply chem_mix; [exact H1|now apply sum_ok]|]. intros ((((j & kg) & ko) & m') & s') E. rewrite E in CP. cbn [post] in CP.
  destruct (keeps_follow _ _ _ _ CP) as (F & _). pose proof (needs_follow _ _ _ _ F H1) as H'. pose proof (moves_needs m' s' H') as MV.
  apply mapR_same. { apply mapM_fun. intros k. now apply qcnd_mix. } intros cnd _. apply mapR_same; [reflexivity|]. intros grw _. apply mapR_same; [reflexivity|]. intros oxi _.
  apply mapR_same. { apply mapM_fun. intros r. destruct (coagOn m'); [|reflexivity]. now apply qcoag_mix. } intros coa _. reflexivity.
Qed.
Lemma momCoag_mix c s n p q M0 : (moves (co_class c) -> MWGas o = MWGas s /\ muGas o = muGas s) -> co_mech c = co_class c -> momCoagRates (N:=N) c (M s) n p q M0 = momCoagRates c s n p q M0.
Proof.
  intros H E. unfold momCoagRates. rewrite E. destruct (nleb M0 (nZ 0)); [reflexivity|]. cbv zeta. destruct (co_class c); try reflexivity; destruct (H I); rewrite ?Kc_mix, ?Kcp_mix by auto; reflexivity.
Qed.
Lemma collMOMIC_mix m s : needs m s o -> tagged m -> sm_psd m = P_MOMIC -> forall c x, collMOMIC (N:=N) m (M (with_cMin s c)) x = collMOMIC m (with_cMin s c) x.
Proof.
  intros H TG HP c x. unfold collMOMIC. destruct (isPAH m) eqn:IP; [|reflexivity]. destruct (dimer_needs m s H TG IP (or_intror HP)) as (E1 & E2). cbn [negb]. cbv zeta.
  rewrite Kc_mix, Kcp_mix by auto. reflexivity.
Qed.
Lemma momic_mix m s : needs m s o -> tagged m -> sm_psd m = P_MOMIC -> setSourceTermsMOMIC (N:=N) m (M s) = mapR ends (setSourceTermsMOMIC m s).
Proof.
  intros H TG HP. unfold setSourceTermsMOMIC. apply mapR_same; [reflexivity|]. intros d _. cbv zeta. set (m0 := with_priv m (PrivMomic d)).
  assert (F0 : follows m m0 s s) by (unfold follows; cbn; tauto). pose proof (needs_follow _ _ _ _ F0 H) as H0. assert (TG0 : tagged m0) by exact TG. assert (HP0 : sm_psd m0 = P_MOMIC) by exact HP.
  pose proof (chem_post (collMOMIC m0) m0 s) as CP. eapply mapR_bind; [apply chem_mix; [exact H0|now apply collMOMIC_mix]|]. intros ((((j & kg) & ko) & m') & s') E. rewrite E in CP. cbn [post] in CP.
  destruct (keeps_follow _ _ _ _ CP) as (F & _). pose proof (needs_follow _ _ _ _ F H0) as H'. pose proof (moves_needs m' s' H') as MV. destruct (tagged_follow _ _ _ _ CP TG0) as (TG' & HP'). rewrite HP0 in HP'.
  apply mapR_same.
  { apply mapM_fun. intros k. unfold momicCnd. destruct (isPAH m') eqn:IP; [|reflexivity]. destruct (dimer_needs m' s' H' TG' IP (or_intror HP')) as (E1 & E2). rewrite Kc_mix, Kcp_mix by auto. reflexivity. }
  intros cnd _. apply mapR_same; [|intros coa _; reflexivity]. change (sootVar (M s)) with (sootVar s). destruct (coagOn m'); [|reflexivity]. apply bind_fun; [reflexivity|]. intros M0. apply momCoag_mix; [exact MV|exact (proj1 (proj2 TG'))].
Qed.
Lemma collSECT_mix m s : needs m s o -> forall c x, collSECT (N:=N) m (M (with_cMin s c)) x = collSECT m (with_cMin s c) x.
Proof.
  intros H c x. unfold collSECT. destruct (sm_priv m); try reflexivity. destruct (Nat.ltb _ _); [reflexivity|]. cbv zeta.
  replace (map (fun k => coagRate (sm_coag m) (M (with_cMin s c)) x (at_ (sm_mBins m) k)) (seq 0 (sm_nsoot m))) with (map (fun k => coagRate (sm_coag m) (with_cMin s c) x (at_ (sm_mBins m) k)) (seq 0 (sm_nsoot m))); [reflexivity|].
  apply map_ext. intros k. symmetry. apply coag_mix. intros Q. exact (moves_needs m s H Q).
Qed.
Lemma sectCoag_mix c s ns mb n i : (moves (co_class c) -> MWGas o = MWGas s /\ muGas o = muGas s) -> sectCoag (N:=N) c (M s) ns mb n i = sectCoag c s ns mb n i.
Proof. intros H. unfold sectCoag. apply foldM_fun. intros v k. apply foldM_fun. intros u j. unfold sectPair. now rewrite coag_mix. Qed.
Lemma sect_mix g m s : needs m s o -> setSourceTermsSECT (N:=N) g m (M s) = mapR (fun x => let '(g', m', s') := x in (g', m', mix s' o)) (setSourceTermsSECT g m s).
Proof.
  intros H. unfold setSourceTermsSECT. pose proof (chem_post (collSECT m) m s) as CP. eapply mapR_bind; [apply chem_mix; [exact H|now apply collSECT_mix]|]. intros ((((j & kg) & ko) & m') & s') E. rewrite E in CP. cbn [post] in CP.
  destruct (keeps_follow _ _ _ _ CP) as (F & _). pose proof (needs_follow _ _ _ _ F H) as H'. pose proof (moves_needs m' s' H') as MV. cbv zeta.
  apply mapR_same; [reflexivity|]. intros nv _. destruct (match sm_priv m' with PrivSect F0 b => (F0, b) | _ => (nZ 0, []) end) as (F0 & beta).
  apply mapR_same; [|intros (g' & coa) _; reflexivity]. destruct (coagOn m'); [|reflexivity]. now rewrite sectCoag_mix.
Qed.
Lemma hmom_needs m s : needs m s o -> sm_psd m = P_HMOM -> MWGas o = MWGas s /\ muGas o = muGas s.
Proof. intros [A1 A2 A3 A4 A5 A6 A7 A8] E. assert (Q : byTransport (sm_psd m) (nu_class (sm_nucl m)) (co_class (sm_coag m))); [|split; auto]. unfold byTransport. destruct (co_class (sm_coag m)); auto. Qed.
Lemma Ik_mix c s d k : MWGas o = MWGas s -> muGas o = muGas s -> get_Ik (N:=N) c (M s) d k = get_Ik c s d k.
Proof. intros E1 E2. unfold get_Ik. rewrite Kc_mix, Kcp_mix by auto. reflexivity. Qed.
Lemma hmom_mix m s : needs m s o -> tagged m -> sm_psd m = P_HMOM -> setSourceTermsHMOM (N:=N) m (M s) = mapR ends (setSourceTermsHMOM m s).
Proof.
  intros H TG HP. unfold setSourceTermsHMOM. cbv zeta. apply mapR_same; [reflexivity|]. intros N0 _. apply mapR_same; [reflexivity|]. intros ML _. apply mapR_same; [reflexivity|]. intros d _.
  change (mNucOf (M s)) with (mNucOf s). set (d0 := mkInterp _ _ _ _ _). set (m0 := with_priv m (PrivHmom d0)).
  assert (F0 : follows m m0 s s) by (unfold follows; cbn; tauto). pose proof (needs_follow _ _ _ _ F0 H) as H0. assert (TG0 : tagged m0) by exact TG. assert (HP0 : sm_psd m0 = P_HMOM) by exact HP.
  pose proof (chem_post (collSum (sm_coag m0)) m0 s) as CP. eapply mapR_bind; [apply chem_mix; [exact H0|now apply sum_ok]|]. intros ((((j & kg) & ko) & m') & s') E. rewrite E in CP. cbn [post] in CP.
  destruct (keeps_follow _ _ _ _ CP) as (F & _). pose proof (needs_follow _ _ _ _ F H0) as H'. destruct (tagged_follow _ _ _ _ CP TG0) as (TG' & HP'). rewrite HP0 in HP'.
  destruct (hmom_needs m' s' H' HP') as (E1 & E2). assert (CM : forall a b, coagRate (sm_coag m') (M s') a b = coagRate (sm_coag m') s' a b) by (apply coag_mix; auto).
  apply mapR_same. { apply mapM_fun. intros k. unfold hmomCnd. cbv zeta. rewrite CM, Kc_mix, Kcp_mix by auto. reflexivity. }
  intros cnd _. apply mapR_same; [|intros (coa & x) _; cbn [mapR fst snd]; now rewrite CM]. destruct (coagOn m'); [|reflexivity]. unfold hmomCoag. cbv zeta. rewrite CM, Ik_mix, momCoag_mix by (auto; exact (proj1 (proj2 TG'))).
  do 2 (apply bind_fun; [reflexivity|]; intros ?). apply bind_fun; [|reflexivity]. apply mapM_fun. intros r. destruct (Nat.eqb r 1); [reflexivity|]. apply bind_fun; [|reflexivity]. destruct (Nat.leb 2 r); [|reflexivity].
  apply bind_fun; [|reflexivity]. apply foldM_fun. intros b k. apply bind_fun; [reflexivity|]. intros ?. now rewrite Ik_mix.
Qed.
Lemma call_mix g eig m s : needs m s o -> tagged m -> onlyRest o (setSourceTerms g eig m s) (setSourceTerms (N:=N) g eig m (M s)).
Proof.
  intros H TG. unfold setSourceTerms. destruct (sm_psd m) eqn:E; try reflexivity.
  - rewrite mono_mix by auto. destruct (setSourceTermsMONO m s) as [(m' & s')| |]; cbn; auto.
  - rewrite logn_mix by auto. destruct (setSourceTermsLOGN m s) as [(m' & s')| |]; cbn; auto.
  - rewrite qmom_mix by auto. destruct (setSourceTermsQMOM eig m s) as [(m' & s')| |]; cbn; auto.
  - rewrite momic_mix by auto. destruct (setSourceTermsMOMIC m s) as [(m' & s')| |]; cbn; auto.
  - rewrite sect_mix by auto. destruct (setSourceTermsSECT g m s) as [((g' & m') & s')| |]; cbn; auto.
  - rewrite hmom_mix by auto. destruct (setSourceTermsHMOM m s) as [(m' & s')| |]; cbn; auto.
Qed.
End S.
