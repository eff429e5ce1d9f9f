(** Growth and oxidation have no part in source 0 of the moment models: C49. *)
From Coq Require Import ZArith List Bool Lia.
From Verif Require Import Num Defs State Coag Nucl Growth Oxid Tar SootModel Mono Logn Qmom Momic Calls SpecSafe SafeProofs SafeMain.
Import ListNotations.

Section S.
Context {N : Num}.

Lemma bind_ok {A B} (r : res A) (f : A -> res B) x : bind r f = Ok x -> exists a, r = Ok a /\ f a = Ok x.
Proof. destruct r; cbn; try discriminate. eauto. Qed.
Lemma store_surf (m : model) nu e gr ox : storeNucl (withSurface m gr ox) nu e = withSurface (storeNucl m nu e) gr ox.
Proof. destruct m as [? ? ? ? ? ? ? ? ? ? ? p]; destruct p; destruct e as [[|? [|? ?]]|]; reflexivity. Qed.
Lemma nucl_surf coll (m : model) s gr ox j m1 s1 : runNucl (N:=N) coll m s = Ok (j, m1, s1) ->
  runNucl coll (withSurface m gr ox) s = Ok (j, withSurface m1 gr ox, s1).
Proof.
  unfold runNucl. change (sm_nucl (withSurface m gr ox)) with (sm_nucl m). intros H. apply bind_ok in H. destruct H as ((((j' & nu) & s') & e) & E & H). rewrite E. cbn [bind].
  injection H as <- <- <-. now rewrite store_surf.
Qed.
Lemma chem_surf coll (m : model) s gr ox j kg ko m1 s1 j' kg' ko' m2 s2 : chemRates (N:=N) coll m s = Ok (j, kg, ko, m1, s1) ->
  chemRates coll (withSurface m gr ox) s = Ok (j', kg', ko', m2, s2) -> j' = j /\ m2 = withSurface m1 gr ox /\ s2 = s1.
Proof.
  unfold chemRates. intros H K. apply bind_ok in H. destruct H as (((a & b) & c) & E & H). rewrite (nucl_surf _ _ _ gr ox _ _ _ E) in K. cbn [bind] in K.
  apply bind_ok in H. destruct H as (? & _ & H). apply bind_ok in H. destruct H as (? & _ & H). injection H as <- _ _ <- <-.
  apply bind_ok in K. destruct K as (? & _ & K). apply bind_ok in K. destruct K as (? & _ & K). injection K as <- _ _ <- <-. auto.
Qed.
Lemma soots_finish (m : model) l a b c : sootSources (sm_sources (finish (N:=N) m l a b c)) = l. Proof. reflexivity. Qed.
Lemma mapM_0 {A B} (f : A -> res B) a l v : mapM f (a :: l) = Ok v -> exists x w, f a = Ok x /\ v = x :: w.
Proof. cbn [mapM]. intros H. apply bind_ok in H. destruct H as (x & E & H). apply bind_ok in H. destruct H as (w & _ & H). injection H as <-. eauto. Qed.

Lemma mono_terms M0 M1 (m : model) s gr ox t1 m1 s1 t2 m2 s2 : monoTermsOf (N:=N) M0 M1 m s = Ok (t1, m1, s1) ->
  monoTermsOf M0 M1 (withSurface m gr ox) s = Ok (t2, m2, s2) ->
  mt_N0 t1 = mt_N0 t2 /\ mt_C0 t1 = mt_C0 t2 /\ m2 = withSurface m1 gr ox /\ s2 = s1.
Proof.
  unfold monoTermsOf. change (sm_coag (withSurface m gr ox)) with (sm_coag m). intros H K.
  apply bind_ok in H. destruct H as (((((j & kg) & ko) & m') & s') & E & H). apply bind_ok in K. destruct K as (((((j2 & kg2) & ko2) & m2') & s2') & E2 & K).
  destruct (chem_surf _ _ _ _ _ _ _ _ _ _ _ _ _ _ _ E E2) as (-> & -> & ->).
  change (sm_coag (withSurface m' gr ox)) with (sm_coag m') in K. change (coagOn (withSurface m' gr ox)) with (coagOn m') in K.
  change (isPAH (withSurface m' gr ox)) with (isPAH m') in K. change (nuclOn (withSurface m' gr ox)) with (nuclOn m') in K. change (sm_nucl (withSurface m' gr ox)) with (sm_nucl m') in K.
  apply bind_ok in H. destruct H as (x0 & E0 & H). rewrite E0 in K. cbn [bind] in K. cbv zeta in H, K.
  apply bind_ok in H. destruct H as (cd & Ec & H). rewrite Ec in K. cbn [bind] in K.
  apply bind_ok in H. destruct H as (c0 & Eco & H). rewrite Eco in K. cbn [bind] in K. injection H as <- <- <-. injection K as <- <- <-. auto.
Qed.
Lemma mono_surf (m : model) s gr ox m1 s1 m2 s2 : setSourceTermsMONO (N:=N) m s = Ok (m1, s1) -> setSourceTermsMONO (withSurface m gr ox) s = Ok (m2, s2) ->
  nth_error (sootSources (sm_sources m1)) 0 = nth_error (sootSources (sm_sources m2)) 0 /\ s1 = s2.
Proof.
  unfold setSourceTermsMONO. intros H K. apply bind_ok in H. destruct H as (M0 & E0 & H). rewrite E0 in K. cbn [bind] in K.
  apply bind_ok in H. destruct H as (M1 & E1 & H). rewrite E1 in K. cbn [bind] in K. apply bind_ok in H. destruct H as (s' & E & H). rewrite E in K. cbn [bind] in K.
  change (sm_tar (withSurface m gr ox)) with (sm_tar m) in K.
  assert (G : forall t1 a s1' t2 b s2', monoTermsOf M0 M1 m s' = Ok (t1, a, s1') -> monoTermsOf M0 M1 (withSurface m gr ox) s' = Ok (t2, b, s2') ->
     mt_N0 t1 = mt_N0 t2 /\ mt_C0 t1 = mt_C0 t2 /\ b = withSurface a gr ox /\ s2' = s1') by (intros; eapply mono_terms; eauto).
  assert (TT : forall Ntar0 t1 a t2 s0 x y z x' y' z', mt_N0 t1 = mt_N0 t2 -> mt_C0 t1 = mt_C0 t2 -> monoTarTerms M0 M1 Ntar0 t1 a s0 = Ok (x, y, z) ->
     monoTarTerms M0 M1 Ntar0 t2 (withSurface a gr ox) s0 = Ok (x', y', z') -> y = y').
  { intros Ntar0 t1 a t2 s0 x y z x' y' z' EN EC A B. unfold monoTarTerms in A, B. change (sm_tar (withSurface a gr ox)) with (sm_tar a) in B.
    destruct (ta_mech (sm_tar a)); try congruence.
    - apply bind_ok in A. destruct A as (? & A1 & A). apply bind_ok in A. destruct A as (? & A2 & A). apply bind_ok in A. destruct A as (? & A3 & A). rewrite A1, A2, A3 in B. cbn [bind] in B. cbv zeta in A, B.
      injection A as _ <- _. injection B as _ <- _. now rewrite EN, EC.
    - apply bind_ok in A. destruct A as (? & A1 & A). apply bind_ok in A. destruct A as (? & A2 & A). rewrite A1, A2 in B. cbn [bind] in B.
      injection A as _ <- _. injection B as _ <- _. now rewrite EN. }
  destruct (ta_mech (sm_tar m)).
  - apply bind_ok in H. destruct H as (((t1 & a) & s1') & H1 & H). apply bind_ok in K. destruct K as (((t2 & b) & s2') & K1 & K). destruct (G _ _ _ _ _ _ H1 K1) as (EN & EC & -> & ->).
    injection H as <- <-. injection K as <- <-. rewrite !soots_finish. cbn [nth_error]. rewrite EN, EC. auto.
  - apply bind_ok in H. destruct H as (n0 & Hn & H). rewrite Hn in K. cbn [bind] in K.
    apply bind_ok in H. destruct H as (((t1 & a) & s1') & H1 & H). apply bind_ok in K. destruct K as (((t2 & b) & s2') & K1 & K). destruct (G _ _ _ _ _ _ H1 K1) as (EN & EC & -> & ->).
    apply bind_ok in H. destruct H as (((x & y) & z) & H2 & H). apply bind_ok in K. destruct K as (((x' & y') & z') & K2 & K). pose proof (TT _ _ _ _ _ _ _ _ _ _ _ EN EC H2 K2) as EY.
    apply bind_ok in H. destruct H as (? & _ & H). apply bind_ok in K. destruct K as (? & _ & K). injection H as <- <-. injection K as <- <-. rewrite !soots_finish. cbn [nth_error]. rewrite EY. auto.
  - apply bind_ok in H. destruct H as (n0 & Hn & H). rewrite Hn in K. cbn [bind] in K.
    apply bind_ok in H. destruct H as (((t1 & a) & s1') & H1 & H). apply bind_ok in K. destruct K as (((t2 & b) & s2') & K1 & K). destruct (G _ _ _ _ _ _ H1 K1) as (EN & EC & -> & ->).
    apply bind_ok in H. destruct H as (((x & y) & z) & H2 & H). apply bind_ok in K. destruct K as (((x' & y') & z') & K2 & K). pose proof (TT _ _ _ _ _ _ _ _ _ _ _ EN EC H2 K2) as EY.
    apply bind_ok in H. destruct H as (? & _ & H). apply bind_ok in K. destruct K as (? & _ & K). injection H as <- <-. injection K as <- <-. rewrite !soots_finish. cbn [nth_error]. rewrite EY. auto.
  - apply bind_ok in H. destruct H as (n0 & Hn & H). rewrite Hn in K. cbn [bind] in K.
    apply bind_ok in H. destruct H as (((t1 & a) & s1') & H1 & H). apply bind_ok in K. destruct K as (((t2 & b) & s2') & K1 & K). destruct (G _ _ _ _ _ _ H1 K1) as (EN & EC & -> & ->).
    apply bind_ok in H. destruct H as (((x & y) & z) & H2 & H). apply bind_ok in K. destruct K as (((x' & y') & z') & K2 & K). pose proof (TT _ _ _ _ _ _ _ _ _ _ _ EN EC H2 K2) as EY.
    apply bind_ok in H. destruct H as (? & _ & H). apply bind_ok in K. destruct K as (? & _ & K). injection H as <- <-. injection K as <- <-. rewrite !soots_finish. cbn [nth_error]. rewrite EY. auto.
Qed.
Lemma logn_surf (m : model) s gr ox m1 s1 m2 s2 : setSourceTermsLOGN (N:=N) m s = Ok (m1, s1) -> setSourceTermsLOGN (withSurface m gr ox) s = Ok (m2, s2) ->
  nth_error (sootSources (sm_sources m1)) 0 = nth_error (sootSources (sm_sources m2)) 0 /\ s1 = s2.
Proof.
  unfold setSourceTermsLOGN. intros H K. apply bind_ok in H. destruct H as (M0 & E0 & H). rewrite E0 in K. cbn [bind] in K.
  apply bind_ok in H. destruct H as (M1 & E1 & H). rewrite E1 in K. cbn [bind] in K. apply bind_ok in H. destruct H as (M2 & E2 & H). rewrite E2 in K. cbn [bind] in K. cbv zeta in H, K.
  apply bind_ok in H. destruct H as (((j & m') & s') & E & H). change (collLOGN (withSurface m gr ox)) with (collLOGN (N:=N) m) in K. rewrite (nucl_surf _ _ _ gr ox _ _ _ E) in K. cbn [bind] in K.
  change (sm_coag (withSurface m' gr ox)) with (sm_coag m') in K. change (nuclOn (withSurface m' gr ox)) with (nuclOn m') in K.
  apply bind_ok in H. destruct H as ((? & ?) & _ & H). apply bind_ok in H. destruct H as ((? & ?) & _ & H).
  apply bind_ok in K. destruct K as ((? & ?) & _ & K). apply bind_ok in K. destruct K as ((? & ?) & _ & K).
  destruct (lognCoag _ _ _ _ _) as (C0 & C2). injection H as <- <-. injection K as <- <-. rewrite !soots_finish. auto.
Qed.
Lemma nth0_combine n a b c d e a' b' c' d' e' : a 0 = a' 0 -> b 0 = b' 0 -> c 0 = c' 0 -> d 0 = d' 0 -> e 0 = e' 0 ->
  nth_error (combine5 (N:=N) n a b c d e) 0 = nth_error (combine5 n a' b' c' d' e') 0.
Proof. intros. unfold combine5. destruct n; [reflexivity|]. cbn [seq map nth_error]. congruence. Qed.
Lemma qmom_surf eig (m : model) s gr ox m1 s1 m2 s2 : setSourceTermsQMOM (N:=N) eig m s = Ok (m1, s1) -> setSourceTermsQMOM eig (withSurface m gr ox) s = Ok (m2, s2) ->
  nth_error (sootSources (sm_sources m1)) 0 = nth_error (sootSources (sm_sources m2)) 0 /\ s1 = s2.
Proof.
  unfold setSourceTermsQMOM. intros H K. apply bind_ok in H. destruct H as ((w & a) & E0 & H). rewrite E0 in K. cbn [bind] in K. cbv zeta in H, K.
  change (sm_coag (withSurface m gr ox)) with (sm_coag m) in K.
  apply bind_ok in H. destruct H as (((((j & kg) & ko) & m') & s') & E & H). apply bind_ok in K. destruct K as (((((j2 & kg2) & ko2) & m2') & s2') & E2 & K).
  destruct (chem_surf _ _ _ _ _ _ _ _ _ _ _ _ _ _ _ E E2) as (-> & -> & ->).
  change (sm_coag (withSurface m' gr ox)) with (sm_coag m') in K. change (coagOn (withSurface m' gr ox)) with (coagOn m') in K. change (sm_nsoot (withSurface m' gr ox)) with (sm_nsoot m') in K.
  change (qmomCnd (withSurface m' gr ox)) with (qmomCnd (N:=N) m') in K. change (nuclOn (withSurface m' gr ox)) with (nuclOn m') in K.
  apply bind_ok in H. destruct H as (cnd & Ec & H). rewrite Ec in K. cbn [bind] in K.
  apply bind_ok in H. destruct H as (g1 & Eg1 & H). apply bind_ok in H. destruct H as (x1 & Ex1 & H). apply bind_ok in H. destruct H as (co & Eco & H).
  apply bind_ok in K. destruct K as (g2 & Eg2 & K). apply bind_ok in K. destruct K as (x2 & Ex2 & K). rewrite Eco in K. cbn [bind] in K.
  assert (Z : forall on r l, mapM (qmomSurf on r s') (seq 0 (sm_nsoot m')) = Ok l -> nth 0 l (nZ 0) = nZ 0).
  { intros on r l. destruct (sm_nsoot m') as [|n]; [intros X; injection X as <-; reflexivity|]. cbn [seq]. intros X. apply mapM_0 in X. destruct X as (x & w' & X & ->). unfold qmomSurf in X. rewrite andb_false_r in X. injection X as <-. reflexivity. }
  injection H as <- <-. injection K as <- <-. split; [|reflexivity]. rewrite !soots_finish. apply nth0_combine; auto.
  - now rewrite (Z _ _ _ Eg1), (Z _ _ _ Eg2).
  - now rewrite (Z _ _ _ Ex1), (Z _ _ _ Ex2).
Qed.
Lemma momic_surf (m : model) s gr ox m1 s1 m2 s2 : setSourceTermsMOMIC (N:=N) m s = Ok (m1, s1) -> setSourceTermsMOMIC (withSurface m gr ox) s = Ok (m2, s2) ->
  nth_error (sootSources (sm_sources m1)) 0 = nth_error (sootSources (sm_sources m2)) 0 /\ s1 = s2.
Proof.
  unfold setSourceTermsMOMIC. change (momicData (withSurface m gr ox)) with (momicData (N:=N) m). intros H K. apply bind_ok in H. destruct H as (d & E0 & H). rewrite E0 in K. cbn [bind] in K. cbv zeta in H, K.
  change (with_priv (withSurface m gr ox) (PrivMomic d)) with (withSurface (with_priv m (PrivMomic d)) gr ox) in K.
  change (collMOMIC (withSurface (with_priv m (PrivMomic d)) gr ox)) with (collMOMIC (with_priv m (PrivMomic d))) in K.
  apply bind_ok in H. destruct H as (((((j & kg) & ko) & m') & s') & E & H). apply bind_ok in K. destruct K as (((((j2 & kg2) & ko2) & m2') & s2') & E2 & K).
  destruct (chem_surf _ _ _ _ _ _ _ _ _ _ _ _ _ _ _ E E2) as (-> & -> & ->).
  change (sm_coag (withSurface m' gr ox)) with (sm_coag m') in K. change (coagOn (withSurface m' gr ox)) with (coagOn m') in K.
  change (momicCnd (withSurface m' gr ox)) with (momicCnd (N:=N) m') in K. change (nuclOn (withSurface m' gr ox)) with (nuclOn m') in K.
  apply bind_ok in H. destruct H as (cnd & Ec & H). rewrite Ec in K. cbn [bind] in K.
  apply bind_ok in H. destruct H as (co & Eco & H). rewrite Eco in K. cbn [bind] in K.
  injection H as <- <-. injection K as <- <-. split; [|reflexivity]. rewrite !soots_finish. apply nth0_combine; auto; unfold momicSurf; now rewrite !andb_false_r.
Qed.
Lemma C49_ g eig (m : model) gr ox s g1 m1 s1 g2 m2 s2 :
  sm_psd m = P_MONO \/ sm_psd m = P_LOGN \/ sm_psd m = P_QMOM \/ sm_psd m = P_MOMIC ->
  setSourceTerms (N:=N) g eig m s = Ok (g1, m1, s1) -> setSourceTerms g eig (withSurface m gr ox) s = Ok (g2, m2, s2) ->
  nth_error (sootSources (sm_sources m1)) 0 = nth_error (sootSources (sm_sources m2)) 0 /\ s1 = s2.
Proof.
  intros HP H K. unfold setSourceTerms in H, K. change (sm_psd (withSurface m gr ox)) with (sm_psd m) in K.
  destruct HP as [E|[E|[E|E]]]; rewrite E in H, K; apply bind_ok in H; destruct H as ((? & ?) & H & H'); apply bind_ok in K; destruct K as ((? & ?) & K & K'); injection H' as _ <- <-; injection K' as _ <- <-.
  - eapply mono_surf; eauto.
  - eapply logn_surf; eauto.
  - eapply qmom_surf; eauto.
  - eapply momic_surf; eauto.
Qed.
Lemma sized_surf n nt (m : model) gr ox : sizedModel 11 n nt m -> sizedModel 11 n nt (withSurface m gr ox).
Proof. intros (A & B & C & D & E & F & _). unfold sizedModel. do 6 (split; [assumption|]). apply enough_11. Qed.
(** constructed models *)
Lemma C49_both n nt newed p nu gr ox gr' ox' co ta F k (m : model) g eig s : build (N:=N) newed p n nu gr ox co nt ta F k = Ok m ->
  p = P_MONO \/ p = P_LOGN \/ p = P_QMOM /\ n <= 34 \/ p = P_MOMIC /\ n <= 7 ->
  nu_class nu = nu_mech nu -> length (nu_pah nu) = 6 -> (readsTar (nu_class nu) (ta_mech ta) -> 1 <= nt) -> sizedState n nt s ->
  exists m' g1 m1 s1 g2 m2 x, build newed p n nu gr' ox' co nt ta F k = Ok m' /\
    setSourceTerms g eig m s = Ok (g1, m1, s1) /\ setSourceTerms g eig m' s = Ok (g2, m2, s1) /\
    nth_error (sootSources (sm_sources m1)) 0 = Some x /\ nth_error (sootSources (sm_sources m2)) 0 = Some x.
Proof.
  intros EB HP EN LP HT SS. assert (NH : p <> P_HMOM) by (destruct HP as [->|[->|[(-> & _)|(-> & _)]]]; discriminate).
  assert (N7 : p = P_MOMIC -> n <= 7) by (intros E; rewrite E in HP; destruct HP as [X|[X|[(X & _)|(_ & X)]]]; congruence || exact X).
  pose proof (build_sized 11 n nt newed p nu gr ox co ta F k m EB NH N7 EN LP HT (enough_11 _ _ _ _)) as SM. destruct (build_facts _ _ _ _ _ _ _ _ _ _ _ _ EB) as (E1 & _).
  assert (S34 : sm_psd m = P_QMOM -> 34 < n -> False) by (rewrite E1; intros E; rewrite E in HP; destruct HP as [X|[X|[(_ & X)|(X & _)]]]; try congruence; lia).
  assert (SNS : sm_psd m <> P_SECT) by (rewrite E1; destruct HP as [->|[->|[(-> & _)|(-> & _)]]]; discriminate).
  assert (EB2 : build newed p n nu gr' ox' co nt ta F k = Ok (withSurface m gr' ox')).
  { unfold build in *. destruct (derivedCheck _ _ _ _); cbn [bind] in *; try discriminate EB. injection EB as <-. reflexivity. }
  assert (CS : forall m0, sizedModel 11 n nt m0 -> sm_psd m0 = sm_psd m -> exists g1 m1 s1, setSourceTerms g eig m0 s = Ok (g1, m1, s1) /\ length (sootSources (sm_sources m1)) = n).
  { intros m0 SM0 EP0. pose proof (@call_safe N false false 11 n nt g eig m0 s SM0 SS) as K. rewrite EP0 in K. specialize (K ltac:(intros _ A B; destruct (S34 A B)) ltac:(intros _ A; destruct (SNS A))). unfold wp in K.
    destruct (setSourceTerms g eig m0 s) as [((g1 & m1) & s1)|?|u]; [|discriminate|destruct u; discriminate || contradiction]. exists g1, m1, s1. split; [reflexivity|]. destruct K as ((_ & _ & (K & _) & _) & _). exact K. }
  destruct (CS m SM eq_refl) as (g1 & m1 & s1 & H1 & L1). destruct (CS (withSurface m gr' ox') (sized_surf _ _ _ gr' ox' SM) eq_refl) as (g2 & m2 & s2 & H2 & L2).
  assert (PP : sm_psd m = P_MONO \/ sm_psd m = P_LOGN \/ sm_psd m = P_QMOM \/ sm_psd m = P_MOMIC) by (rewrite E1; tauto).
  destruct (C49_ g eig m gr' ox' s _ _ _ _ _ _ PP H1 H2) as (EQ & <-).
  pose proof (sized_two 11 n nt m SM) as N2. destruct (sootSources (sm_sources m1)) as [|x l] eqn:ES; [cbn in L1; lia|].
  exists (withSurface m gr' ox'), g1, m1, s1, g2, m2, x. split; [exact EB2|]. split; [exact H1|]. split; [exact H2|]. rewrite ES. split; [reflexivity|]. rewrite <- EQ. reflexivity.
Qed.
End S.
