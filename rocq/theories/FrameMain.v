(** C60: what setSourceTerms leaves alone. *)
From Coq Require Import ZArith List Bool.
From Verif Require Import Num Defs State Coag Nucl Growth Oxid Tar SootModel Mono Logn Qmom Momic Sect Hmom Calls SpecFrame StateProofs ConfigProofs.
Import ListNotations.

Section S.
Context {N : Num}.
(** the private data fit the class, as the constructors make them *)
Definition privFits (m : model (N:=N)) : Prop :=
  match sm_psd m, sm_priv m with
  | P_MOMIC, PrivMomic _ | P_HMOM, PrivHmom _ | P_SECT, PrivSect _ _ | P_MONO, PrivNone | P_LOGN, PrivNone | P_QMOM, PrivNone => True
  | _, _ => False
  end.
Definition post {A} (r : res A) (Q : A -> Prop) : Prop := match r with Ok a => Q a | _ => True end.
Lemma post_bind {A B} (r : res A) (f : A -> res B) (R : A -> Prop) (Q : B -> Prop) : post r R -> (forall a, R a -> post (f a) Q) -> post (bind r f) Q.
Proof. destruct r; cbn [bind post]; auto. Qed.
Lemma post_any {A B} (r : res A) (f : A -> res B) (Q : B -> Prop) : (forall a, post (f a) Q) -> post (bind r f) Q.
Proof. intros H. apply (post_bind r f (fun _ => True)); auto. destruct r; cbn; auto. Qed.

Definition kind (m : model (N:=N)) : nat := match sm_priv m with PrivNone => 0 | PrivSect _ _ => 1 | PrivMomic _ => 2 | PrivHmom _ => 3 end.
(** nucleation writes its own object, cMin and the work arrays *)
Definition nuclKeeps (m : model (N:=N)) (s : state) (m' : model) (s' : state) : Prop :=
  s' = with_cMin s (cMin s') /\ (nu_class (sm_nucl m) <> N_PAH -> s' = s /\ sm_nucl m' = sm_nucl m) /\
  nu_class (sm_nucl m') = nu_class (sm_nucl m) /\ nu_mech (sm_nucl m') = nu_mech (sm_nucl m) /\
  binFactor m' = binFactor m /\ kind m' = kind m /\
  m' = mkModel (sm_psd m) (sm_nsoot m) (sm_Ntar m) (sm_nucl m') (sm_grow m) (sm_oxid m) (sm_coag m) (sm_tar m) (sm_newed m) (sm_mBins m) (sm_sources m) (sm_priv m').
Lemma cMin_same (s : state) : with_cMin (N:=N) s (cMin s) = s.
Proof. destruct s; reflexivity. Qed.
Lemma nucl_post coll nu (s : state) : post (nuclRate (N:=N) coll nu s) (fun x => let '(_, nu', s', _) := x in
  s' = with_cMin s (cMin s') /\ nu_class nu' = nu_class nu /\ nu_mech nu' = nu_mech nu /\ (nu_class nu <> N_PAH -> nu' = nu /\ s' = s)).
Proof.
  unfold nuclRate. destruct (nu_class nu) eqn:E; try (apply post_any; intros x; cbn [post]; rewrite ?cMin_same; tauto); try (cbn [post]; rewrite ?cMin_same; tauto).
  unfold nuclPAH. apply (post_bind _ _ (fun x => let '(_, nu', s', _) := x in s' = with_cMin s (cMin s') /\ nu_class nu' = nu_class nu /\ nu_mech nu' = nu_mech nu)).
  - apply post_any. intros a. apply post_any. intros (Ib & eff). cbn [post nu_class nu_mech]. auto.
  - intros (((a & nu') & s') & e) (A & B & C). cbn [post]. repeat split; auto; congruence.
Qed.
Lemma store_post (m : model (N:=N)) nu eff : let m' := storeNucl m nu eff in
  sm_nucl m' = nu /\ binFactor m' = binFactor m /\ kind m' = kind m /\
  m' = mkModel (sm_psd m) (sm_nsoot m) (sm_Ntar m) nu (sm_grow m) (sm_oxid m) (sm_coag m) (sm_tar m) (sm_newed m) (sm_mBins m) (sm_sources m) (sm_priv m').
Proof.
  unfold storeNucl, binFactor, kind. destruct m as [? ? ? ? ? ? ? ? ? ? ? pv]. destruct pv; destruct eff as [[|x [|y l]]|]; repeat split.
Qed.
Lemma run_post coll (m : model (N:=N)) s : post (runNucl coll m s) (fun x => let '(_, m', s') := x in nuclKeeps m s m' s').
Proof.
  unfold runNucl. eapply post_bind; [apply nucl_post|]. intros (((a & nu') & s') & e) (A & B & C & D). cbn [post].
  destruct (store_post m nu' e) as (S1 & S2 & S3 & S4). unfold nuclKeeps. rewrite S1. split; [exact A|]. split; [intros H; destruct (D H); auto|].
  split; [exact B|]. split; [exact C|]. split; [exact S2|]. split; [exact S3|exact S4].
Qed.
Lemma chem_post coll (m : model (N:=N)) s : post (chemRates coll m s) (fun x => let '(_, _, _, m', s') := x in nuclKeeps m s m' s').
Proof.
  unfold chemRates. eapply post_bind; [apply run_post|]. intros ((a & m') & s') H. apply post_any. intros kg. apply post_any. intros ko. exact H.
Qed.

(** one call, given the nodes it writes *)
Lemma keeps (m m0 : model (N:=N)) s w a m1 s1 soot N1 G1 X1 : sm_priv m = sm_priv m0 \/ binFactor m0 = binFactor m ->
  m0 = with_priv m (sm_priv m0) -> kind m0 = kind m -> nuclKeeps m0 (with_wa s w a) m1 s1 ->
  (sm_psd m <> P_MONO -> sm_psd m <> P_QMOM -> w = wts s /\ a = absc s) ->
  (keepsModel m (finish m1 soot N1 G1 X1) /\ kind (finish m1 soot N1 G1 X1) = kind m) /\ keepsState m s s1.
Proof.
  intros HB E0 K0 (A & B & C & D & EB & EK & E) HW.
  assert (B0 : binFactor m0 = binFactor m) by (destruct HB as [H|H]; [unfold binFactor; now rewrite H|exact H]).
  rewrite E0 in E, C, D, B. cbn [sm_psd sm_nsoot sm_Ntar sm_nucl sm_grow sm_oxid sm_coag sm_tar sm_newed sm_mBins sm_sources with_priv] in E, C, D, B.
  split; [split; [|change (kind (finish m1 soot N1 G1 X1)) with (kind m1); congruence]|].
  - unfold keepsModel, finish, binFactor, isPAH. cbn [sm_psd sm_nsoot sm_Ntar sm_nucl sm_grow sm_oxid sm_coag sm_tar sm_newed sm_mBins sm_sources sm_priv with_sources pahSources tarSources tarGasSources].
    change (match sm_priv m1 with PrivSect F _ => F | _ => nZ 0 end) with (binFactor m1). change (match sm_priv m with PrivSect F _ => F | _ => nZ 0 end) with (binFactor m).
    rewrite EB, B0, D, C. rewrite E. cbn [sm_psd sm_nsoot sm_Ntar sm_grow sm_oxid sm_coag sm_tar sm_newed sm_mBins sm_sources sm_nucl].
    repeat split; auto.
    + intros H. apply B, H.
    + intros H. destruct (nu_mech (sm_nucl m)); congruence.
  - unfold keepsState. split; [|split].
    + rewrite A at 1. f_equal. rewrite A. reflexivity.
    + intros H. rewrite (proj1 (B H)). reflexivity.
    + intros H1 H2. destruct (HW H1 H2) as (-> & ->). rewrite A. split; reflexivity.
Qed.
Lemma wa_self (s : state (N:=N)) : with_wa s (wts s) (absc s) = s. Proof. destruct s; reflexivity. Qed.
Lemma priv_self (m : model (N:=N)) : m = with_priv m (sm_priv m). Proof. destruct m; reflexivity. Qed.
Definition good (m : model (N:=N)) s (x : model * state) : Prop := (keepsModel m (fst x) /\ kind (fst x) = kind m) /\ keepsState m s (snd x).

Lemma good_logn (m : model (N:=N)) s : post (setSourceTermsLOGN m s) (good m s).
Proof.
  unfold setSourceTermsLOGN. do 3 (apply post_any; intros ?). eapply post_bind; [apply run_post|]. intros ((J & m') & s') H.
  cbv zeta. apply post_any; intros (G1 & G2). apply post_any; intros (X1 & X2). destruct (lognCoag (sm_coag m') s' a a0 a1) as (C0 & C2). cbn [post]. unfold good. cbn [fst snd].
  eapply (keeps m m s (wts s) (absc s)); auto using priv_self. now rewrite wa_self.
Qed.
Lemma good_qmom eig (m : model (N:=N)) s : sm_psd m = P_QMOM -> post (setSourceTermsQMOM eig m s) (good m s).
Proof.
  intros HP. unfold setSourceTermsQMOM. apply post_any. intros (w & a). cbv zeta. eapply post_bind; [apply chem_post|]. intros ((((J & kg) & ko) & m') & s') H.
  do 4 (apply post_any; intros ?). cbn [post]. unfold good. cbn [fst snd]. eapply (keeps m m s w a); auto using priv_self. congruence.
Qed.
Lemma good_momic (m : model (N:=N)) s : privFits m -> sm_psd m = P_MOMIC -> post (setSourceTermsMOMIC m s) (good m s).
Proof.
  intros HF HP. unfold setSourceTermsMOMIC. apply post_any. intros d. cbv zeta. eapply post_bind; [apply chem_post|]. intros ((((J & kg) & ko) & m') & s') H.
  do 2 (apply post_any; intros ?). cbn [post]. unfold good. cbn [fst snd]. eapply (keeps m (with_priv m (PrivMomic d)) s (wts s) (absc s)); auto.
  - right. unfold binFactor, privFits in *. rewrite HP in HF. destruct (sm_priv m); try contradiction. reflexivity.
  - unfold kind, privFits in *. rewrite HP in HF. destruct (sm_priv m); try contradiction. reflexivity.
  - now rewrite wa_self.
Qed.
Lemma good_hmom (m : model (N:=N)) s : privFits m -> sm_psd m = P_HMOM -> post (setSourceTermsHMOM m s) (good m s).
Proof.
  intros HF HP. unfold setSourceTermsHMOM. cbv zeta. do 2 (apply post_any; intros ?). apply post_any. intros d. eapply post_bind; [apply chem_post|]. intros ((((J & kg) & ko) & m') & s') H.
  apply post_any; intros ?. apply post_any. intros (coa & c0). cbn [post]. unfold good. cbn [fst snd].
  match type of H with nuclKeeps ?mm _ _ _ => eapply (keeps m mm s (wts s) (absc s)); auto end.
  - right. unfold binFactor, privFits in *. rewrite HP in HF. destruct (sm_priv m); try contradiction. reflexivity.
  - unfold kind, privFits in *. rewrite HP in HF. destruct (sm_priv m); try contradiction. reflexivity.
  - now rewrite wa_self.
Qed.
Lemma good_sect g (m : model (N:=N)) s : post (setSourceTermsSECT g m s) (fun x => good m s (snd (fst x), snd x)).
Proof.
  unfold setSourceTermsSECT. eapply post_bind; [apply chem_post|]. intros ((((J & kg) & ko) & m') & s') H. cbv zeta. apply post_any. intros nv.
  destruct (match sm_priv m' with PrivSect F b => (F, b) | _ => (nZ 0, []) end) as (F & beta). apply post_any. intros (g' & coa). cbn [post]. unfold good. cbn [fst snd].
  eapply (keeps m m s (wts s) (absc s)); auto using priv_self. now rewrite wa_self.
Qed.
Lemma terms_post M0 M1 (m : model (N:=N)) s : post (monoTermsOf M0 M1 m s) (fun x => let '(_, m', s') := x in nuclKeeps m s m' s').
Proof.
  unfold monoTermsOf. eapply post_bind; [apply chem_post|]. intros ((((J & kg) & ko) & m') & s') H. cbv zeta. do 3 (apply post_any; intros ?). exact H.
Qed.
Lemma vset_tl (l : list num) x : post (vset l 0 x) (fun l' => tl l' = tl l).
Proof. unfold vset. destruct l; cbn; auto. Qed.
Lemma good_mono (m : model (N:=N)) s : sm_psd m = P_MONO -> post (setSourceTermsMONO m s) (good m s).
Proof.
  intros HP. unfold setSourceTermsMONO. apply post_any; intros M0. apply post_any; intros M1.
  apply (post_bind _ _ (fun s1 => s1 = with_wa s (wts s1) (absc s1))).
  { unfold monoSetWA. destruct (ngtb M0 (nZ 0)); [|cbn [post]; now rewrite wa_self]. do 2 (apply post_any; intros ?). reflexivity. }
  intros s1 E1. destruct (ta_mech (sm_tar m)) eqn:ET.
  2-4: apply post_any; intros ?; eapply post_bind; [apply terms_post|]; intros ((t & m') & s') H; apply post_any; intros ((T0 & T1) & T2);
    eapply post_bind; [apply vset_tl|]; intros ts Hts; cbn [post]; unfold good; cbn [fst snd]; rewrite E1 in H;
    assert (ES : sm_sources m' = sm_sources m) by (destruct H as (_ & _ & _ & _ & _ & _ & ->); reflexivity);
    pose proof (keeps m m s (wts s1) (absc s1) m' s' [T1; T2] (mt_N1 t) (mt_G1 t) (mt_X1 t) ltac:(auto) (priv_self m) eq_refl H ltac:(congruence)) as ((K & KK) & KS);
    split; [split; [|exact KK]|exact KS]; unfold keepsModel in *; decompose [and] K; clear K; unfold finish, setTarSources, binFactor, isPAH in *;
    cbn [sm_psd sm_nsoot sm_Ntar sm_nucl sm_grow sm_oxid sm_coag sm_tar sm_newed sm_mBins sm_sources sm_priv with_sources pahSources tarSources tarGasSources] in *;
    repeat split; auto; [intros [X|X]; congruence|rewrite Hts, ES; reflexivity].
  eapply post_bind; [apply terms_post|]. intros ((t & m') & s') H. cbn [post]. unfold good. cbn [fst snd]. rewrite E1 in H.
  eapply (keeps m m s (wts s1) (absc s1)); auto using priv_self. congruence.
Qed.
Lemma frame_call g eig (m : model (N:=N)) s g' m' s' : privFits m -> setSourceTerms g eig m s = Ok (g', m', s') ->
  keepsModel m m' /\ keepsState m s s' /\ privFits m' /\ (sm_psd m <> P_SECT -> g' = g).
Proof.
  intros HF E.
  cut (good m s (m', s') /\ (sm_psd m <> P_SECT -> g' = g)).
  { intros (((A & B) & C) & D). split; [exact A|]. split; [exact C|]. split; [|exact D]. cbn [fst] in *. destruct A as (A & _).
    unfold privFits, kind in *. rewrite A. destruct (sm_psd m), (sm_priv m), (sm_priv m'); try contradiction; try discriminate; auto. }
  unfold setSourceTerms in E. pose proof HF as HF'. unfold privFits in HF'.
  destruct (sm_psd m) eqn:EP; try (discriminate E); try contradiction.
  - pose proof (good_mono m s EP) as K. destruct (setSourceTermsMONO m s) as [(a & b)| |]; try discriminate E. cbn [bind] in E. injection E as <- <- <-. auto.
  - pose proof (good_logn m s) as K. destruct (setSourceTermsLOGN m s) as [(a & b)| |]; try discriminate E. cbn [bind] in E. injection E as <- <- <-. auto.
  - pose proof (good_qmom eig m s EP) as K. destruct (setSourceTermsQMOM eig m s) as [(a & b)| |]; try discriminate E. cbn [bind] in E. injection E as <- <- <-. auto.
  - pose proof (good_momic m s HF EP) as K. destruct (setSourceTermsMOMIC m s) as [(a & b)| |]; try discriminate E. cbn [bind] in E. injection E as <- <- <-. auto.
  - pose proof (good_sect g m s) as K. rewrite E in K. cbn [post fst snd] in K. split; [exact K|congruence].
  - pose proof (good_hmom m s HF EP) as K. destruct (setSourceTermsHMOM m s) as [(a & b)| |]; try discriminate E. cbn [bind] in E. injection E as <- <- <-. auto.
Qed.
Lemma keepsModel_refl (m : model (N:=N)) : keepsModel m m.
Proof. unfold keepsModel. repeat split; auto. Qed.
Lemma keepsModel_trans (a b c : model (N:=N)) : keepsModel a b -> keepsModel b c -> keepsModel a c.
Proof.
  intros (A1 & A2 & A3 & A4 & A5 & A6 & A7 & A8 & A9 & A10 & A11 & A12 & A13 & A14 & A15 & A16 & A17) (B1 & B2 & B3 & B4 & B5 & B6 & B7 & B8 & B9 & B10 & B11 & B12 & B13 & B14 & B15 & B16 & B17).
  unfold keepsModel. rewrite B1, B2, B3, B4, B5, B6, B7, B8, B9, B10, B11, B12, B16, B17. repeat split; auto.
  - intros H. rewrite B13 by congruence. auto.
  - intros H. rewrite B14 by congruence. auto.
  - intros H. rewrite B15 by (rewrite A1, A7; exact H). auto.
Qed.
Lemma frame_hist l : forall g (m : model (N:=N)) s g' m' s', privFits m -> runActions (g, m, s) l = Ok (g', m', s') ->
  keepsModel m m' /\ privFits m'.
Proof.
  induction l as [|a l IH]; intros g m s g' m' s' HF E.
  - injection E as <- <- <-. auto using keepsModel_refl.
  - unfold runActions in E. cbn [foldM] in E. destruct (doAction (g, m, s) a) as [((g1 & m1) & s1)| |] eqn:ED; try discriminate E. cbn [bind] in E.
    assert (K : keepsModel m m1 /\ privFits m1).
    { unfold doAction in ED. destruct a.
      - destruct (setState _ _ _ _ _ _ _ _ _ _ _ _); try discriminate ED; injection ED as <- <- <-; auto using keepsModel_refl.
      - destruct (frame_call _ _ _ _ _ _ _ HF ED) as (A & _ & B & _). auto. }
    destruct K as (K1 & K2). destruct (IH g1 m1 s1 g' m' s' K2 E) as (I1 & I2). split; [|exact I2]. exact (keepsModel_trans _ _ _ K1 I1).
Qed.
(** evaluations only *)
Lemma frame_calls l : forall g (m : model (N:=N)) s g' m' s', privFits m -> runActions (g, m, s) (map ASrc l) = Ok (g', m', s') -> keepsState m s s'.
Proof.
  induction l as [|a l IH]; intros g m s g' m' s' HF E.
  - injection E as <- <- <-. unfold keepsState. rewrite wa_self, cMin_same. auto.
  - unfold runActions in E. cbn [map foldM] in E. destruct (doAction (g, m, s) (ASrc a)) as [((g1 & m1) & s1)| |] eqn:ED; try discriminate E. cbn [bind] in E.
    unfold doAction in ED. destruct (frame_call _ _ _ _ _ _ _ HF ED) as (A & (B1 & B2 & B3) & B & _).
    destruct (IH g1 m1 s1 g' m' s' B E) as (C1 & C2 & C3). destruct A as (P1 & _ & _ & _ & _ & _ & _ & _ & _ & _ & P2 & _). rewrite P1 in C3. rewrite P2 in C2.
    unfold keepsState. split; [|split].
    + rewrite C1 at 1. rewrite B1. reflexivity.
    + intros H. rewrite C2, B2; auto.
    + intros H1 H2. destruct (C3 H1 H2) as (-> & ->). auto.
Qed.
Lemma build_fits b p ns nu gr ox co Ntar ta F c (m : model (N:=N)) : build b p ns nu gr ox co Ntar ta F c = Ok m ->
  privFits m /\ sm_sources m = newSources ns Ntar.
Proof.
  unfold build. destruct (derivedCheck p ns _ _) eqn:E; try discriminate; cbn [bind]. intros H. apply (f_equal (fun r => match r with Ok x => x | _ => m end)) in H. subst m.
  unfold privFits. cbn [sm_psd sm_priv]. unfold derivedCheck in E. destruct p; try discriminate E; split; try exact I; reflexivity.
Qed.
Lemma built_fits (m : model (N:=N)) : constructed m -> privFits m /\ exists ns nt, sm_sources m = newSources ns nt.
Proof.
  intros [H|H]; destruct H as (p & ns & nu & gr & ox & co & Ntar & ta & F & c & H).
  - unfold constructEnum in H. do 5 (match type of H with context [bind ?r _] => destruct r; try discriminate H; cbn [bind] in H end).
    apply build_fits in H. destruct H. eauto.
  - apply build_fits in H. destruct H. eauto.
Qed.
Lemma C60_config_ l g (m : model (N:=N)) s g' m' s' : constructed m -> runActions (g, m, s) l = Ok (g', m', s') -> keepsModel m m'.
Proof. intros C E. destruct (built_fits m C) as (F & _). exact (proj1 (frame_hist l g m s g' m' s' F E)). Qed.
Lemma C60_call_ l g (m : model (N:=N)) s g1 m1 s1 eigs g2 m2 s2 : constructed m -> runActions (g, m, s) l = Ok (g1, m1, s1) ->
  runActions (g1, m1, s1) (map ASrc eigs) = Ok (g2, m2, s2) -> keepsState m s1 s2.
Proof.
  intros C E E2. destruct (built_fits m C) as (F & _). destruct (frame_hist l g m s g1 m1 s1 F E) as (K & F1).
  destruct (frame_calls eigs g1 m1 s1 g2 m2 s2 F1 E2) as (A & B & D). destruct K as (P1 & _ & _ & _ & _ & _ & _ & _ & _ & _ & P2 & _).
  rewrite P1 in D. rewrite P2 in B. split; [exact A|]. split; assumption.
Qed.
Lemma C60_unused_ l g (m : model (N:=N)) s g' m' s' : constructed m -> runActions (g, m, s) l = Ok (g', m', s') ->
  let allZero v := forall x, In x v -> x = nZ 0%Z in
  allZero (tarGasSources (sm_sources m')) /\ (nu_mech (sm_nucl m) <> N_PAH -> allZero (pahSources (sm_sources m'))) /\
  (sm_psd m <> P_MONO \/ ta_mech (sm_tar m) = T_NONE -> allZero (tarSources (sm_sources m'))) /\ allZero (tl (tarSources (sm_sources m'))).
Proof.
  intros C E allZero. destruct (built_fits m C) as (F & ns & nt & ES). destruct (frame_hist l g m s g' m' s' F E) as (K & _).
  destruct K as (_ & _ & _ & _ & _ & _ & _ & _ & _ & _ & _ & _ & _ & K1 & K2 & K3 & K4). rewrite ES in *. unfold newSources in *. cbn [tarSources pahSources tarGasSources] in *.
  assert (Z : forall n, allZero (zeros n)) by (intros n x H; apply repeat_spec in H; exact H).
  split; [rewrite K4; apply Z|]. split; [intros H; rewrite K1 by exact H; apply Z|]. split; [intros H; rewrite K2 by exact H; apply Z|].
  rewrite K3. destruct nt; [intros x []|]. cbn [zeros repeat tl]. apply (Z nt).
Qed.
Lemma own_enum_ p ns n gr ox co nt ta F c l g (m : model (N:=N)) s g' m' s' : constructEnum p ns n gr ox co nt ta F c = Ok m ->
  runActions (g, m, s) l = Ok (g', m', s') -> sm_newed m' = true.
Proof.
  intros E R. assert (C : constructed m) by (left; now repeat eexists; eauto). pose proof (C60_config_ _ _ _ _ _ _ _ C R) as (_ & _ & _ & _ & _ & _ & _ & K & _).
  rewrite K. apply construct_ok in E. destruct E as (_ & _ & ->). reflexivity.
Qed.
Lemma own_ptr_ p ns nu gr ox co nt ta F c l g (m : model (N:=N)) s g' m' s' : constructPtr p ns nu gr ox co nt ta F c = Ok m ->
  runActions (g, m, s) l = Ok (g', m', s') -> sm_newed m' = false.
Proof.
  intros E R. assert (C : constructed m) by (right; now repeat eexists; eauto). pose proof (C60_config_ _ _ _ _ _ _ _ C R) as (_ & _ & _ & _ & _ & _ & _ & K & _).
  rewrite K. unfold constructPtr, build in E. destruct (derivedCheck p ns (co_mech co) (ta_mech ta)); cbn [bind] in E; try discriminate. now inversion E.
Qed.
End S.
