(** Calls depend only on the user-set part of the state: C46. *)
From Coq Require Import ZArith List Bool Lia.
From Verif Require Import Num Defs State Binomial Coag Nucl Growth Oxid Tar SootModel Mono Logn Qmom Momic Sect Calls SpecSafe StateProofs SafeProofs SafeMain SurfProofs.
Import ListNotations.

Section S.
Context {N : Num}.

(** ** Tables that agree below an index *)
Definition agree (b : nat) (q1 q2 : list num) : Prop := forall i, (i < Z.of_nat b)%Z -> vgetZ q1 i = vgetZ q2 i.
Lemma agree_get b q1 q2 i : agree b q1 q2 -> i < b -> vget q1 i = vget q2 i.
Proof. intros H L. specialize (H (Z.of_nat i) ltac:(lia)). unfold vgetZ in H. destruct (Z.ltb_spec (Z.of_nat i) 0); [lia|]. now rewrite Nat2Z.id in H. Qed.
Lemma agree_app p t1 t2 : agree (length p) (p ++ t1) (p ++ t2).
Proof.
  intros i Hi. unfold vgetZ. destruct (Z.ltb_spec i 0); [reflexivity|]. unfold vget. rewrite !nth_error_app1 by lia. reflexivity.
Qed.
Lemma qterms_ext b q1 q2 x y l : agree b q1 q2 -> (forall c u v, In (c, u, v) l -> (x + u < Z.of_nat b /\ y + v < Z.of_nat b)%Z) -> qterms q1 x y l = qterms q2 x y l.
Proof.
  intros A H. unfold qterms. f_equal. apply map_ext_in. intros ((c & u) & v) Hi. destruct (H _ _ _ Hi). rewrite !A by lia. reflexivity.
Qed.
Lemma half_ext y (v1 v2 : nat -> res num) : v1 0 = v2 0 -> v1 1 = v2 1 -> v1 2 = v2 2 -> v1 3 = v2 3 -> half y v1 = half y v2.
Proof. intros E0 E1 E2 E3. unfold half. now rewrite E0, E1, E2, E3. Qed.
Ltac terms := intros ? ? ? HI; cbn [nth In f0terms f1terms f2terms f3terms f0diag f1diag f2diag f3diag] in HI;
  repeat match goal with H : _ \/ _ |- _ => destruct H as [H|H]; [injection H as <- <- <-; lia|] | H : False |- _ => destruct H end.
Lemma f_grid_ext n q1 q2 x y : agree (3 * n + 9) q1 q2 -> (x < Z.of_nat n)%Z -> (y < Z.of_nat n)%Z -> f_grid q1 x y = f_grid q2 x y.
Proof.
  intros A X Y. unfold f_grid. apply half_ext;
  (destruct (x =? y)%Z; [f_equal|]; eapply qterms_ext; try exact A; terms).
Qed.
Lemma mapM_eq {A B} (f g : A -> res B) l : (forall a, In a l -> f a = g a) -> mapM f l = mapM g l.
Proof. induction l as [|a l IH]; intros H; [reflexivity|]. cbn [mapM]. rewrite (H a) by now left. rewrite IH; auto. intros; apply H; now right. Qed.
Lemma foldM_eq {A S} (f g : S -> A -> res S) l : (forall s a, In a l -> f s a = g s a) -> forall s, foldM f l s = foldM g l s.
Proof. induction l as [|a l IH]; intros H s; [reflexivity|]. cbn [foldM]. rewrite (H s a) by now left. destruct (g s a); cbn [bind]; auto. apply IH. intros; apply H; now right. Qed.
Lemma coagFM_ext n K q1 q2 r : agree (3 * n + 9) q1 q2 -> r < n -> momCoagFM K q1 r = momCoagFM K q2 r.
Proof.
  intros A R. unfold momCoagFM. destruct r as [|r]; [rewrite (f_grid_ext n q1 q2); auto; lia|]. f_equal. apply foldM_eq. intros s k Hk. apply in_seq in Hk.
  rewrite (f_grid_ext n q1 q2); auto; lia.
Qed.
Lemma coagC_ext n K c p1 p2 r : agree (3 * n + 1) p1 p2 -> r < n -> momCoagC K c p1 r = momCoagC K c p2 r.
Proof.
  intros A R. unfold momCoagC. destruct r as [|r].
  - rewrite !(agree_get _ p1 p2 _ A) by lia. reflexivity.
  - f_equal. apply foldM_eq. intros s k Hk. apply in_seq in Hk. unfold contTerm. rewrite !(agree_get _ p1 p2 _ A) by lia. reflexivity.
Qed.
Lemma coagRates_ext c s n p1 q1 p2 q2 M0 : agree (3 * n + 1) p1 p2 -> agree (3 * n + 9) q1 q2 -> momCoagRates c s n p1 q1 M0 = momCoagRates c s n p2 q2 M0.
Proof.
  intros AP AQ. unfold momCoagRates. destruct (nleb M0 (nZ 0)); [reflexivity|]. cbv zeta.
  assert (E1 : forall K, mapM (fun r => if Nat.eqb r 1 then Ok (nZ 0) else momCoagFM K q1 r) (seq 0 n) = mapM (fun r => if Nat.eqb r 1 then Ok (nZ 0) else momCoagFM K q2 r) (seq 0 n)).
  { intros K. apply mapM_eq. intros r Hr. apply in_seq in Hr. destruct (Nat.eqb r 1); [reflexivity|]. apply (coagFM_ext n); auto; lia. }
  assert (E2 : forall K k, mapM (fun r => if Nat.eqb r 1 then Ok (nZ 0) else momCoagC K k p1 r) (seq 0 n) = mapM (fun r => if Nat.eqb r 1 then Ok (nZ 0) else momCoagC K k p2 r) (seq 0 n)).
  { intros K k. apply mapM_eq. intros r Hr. apply in_seq in Hr. destruct (Nat.eqb r 1); [reflexivity|]. apply (coagC_ext n); auto; lia. }
  rewrite E1, E2. reflexivity.
Qed.
(** the tables after setMoments *)
Definition sameData (d d' : interpData) : Prop :=
  id_Nmom d = id_Nmom d' /\ id_diff0 d = id_diff0 d' /\ length (id_Mp6 d) = length (id_Mp6 d') /\ length (id_Mq6 d) = length (id_Mq6 d') /\
  agree (3 * id_Nmom d + 1) (id_Mp6 d) (id_Mp6 d') /\ agree (3 * id_Nmom d + 9) (id_Mq6 d) (id_Mq6 d').
Definition both {A} (r r' : res A) (R : A -> A -> Prop) : Prop :=
  match r, r' with Ok a, Ok b => R a b | Throw e, Throw e' => e = e' | UB u, UB u' => u = u' | _, _ => False end.
Lemma both_seq {A B} (r r' : res A) (f f' : A -> res B) R Q : both r r' R -> (forall a a', r = Ok a -> r' = Ok a' -> R a a' -> both (f a) (f' a') Q) -> both (bind r f) (bind r' f') Q.
Proof. destruct r, r'; cbn; try contradiction; auto. Qed.
Lemma both_eq {A B} (r : res A) (f f' : A -> res B) Q : (forall a, r = Ok a -> both (f a) (f' a) Q) -> both (bind r f) (bind r f') Q.
Proof. destruct r; cbn; auto. Qed.
Lemma fill_both n row fs cnt o o' : length o = length o' -> both (fillFrac (N:=N) n row fs cnt o) (fillFrac n row fs cnt o') (fun a b => length a = length b /\ length a = length o /\ agree cnt a b).
Proof.
  intros L. unfold fillFrac. rewrite <- L. destruct (Nat.ltb_spec (length o) cnt); [reflexivity|]. unfold both. rewrite !app_length, !skipn_length, map_length, seq_length. split; [lia|]. split; [lia|].
  set (pre := map _ _). assert (LP : cnt = length pre) by (unfold pre; now rewrite map_length, seq_length). rewrite LP. apply agree_app.
Qed.
Lemma setMoments_both d d' M : id_Nmom d = id_Nmom d' -> length (id_Mp6 d) = length (id_Mp6 d') -> length (id_Mq6 d) = length (id_Mq6 d') ->
  both (setMoments (N:=N) npMOMIC nqMOMIC d M) (setMoments npMOMIC nqMOMIC d' M) (fun a b => sameData a b /\ id_Nmom a = id_Nmom d /\ length (id_Mp6 a) = length (id_Mp6 d) /\ length (id_Mq6 a) = length (id_Mq6 d)).
Proof.
  intros EN LP LQ. unfold setMoments. rewrite <- EN. apply both_eq. intros row _.
  assert (V : forall c, vget npMOMIC (id_Nmom d) = Ok c -> 3 * id_Nmom d + 1 <= c).
  { intros c. destruct (id_Nmom d) as [|n]; [intros H; injection H as <-; lia|]. do 7 (destruct n as [|n]; [intros H; injection H as <-; lia|]). destruct n; discriminate. }
  assert (W : forall c, vget nqMOMIC (id_Nmom d) = Ok c -> 3 * id_Nmom d + 9 <= c).
  { intros c. destruct (id_Nmom d) as [|n]; [intros H; injection H as <-; lia|]. do 7 (destruct n as [|n]; [intros H; injection H as <-; lia|]). destruct n; discriminate. }
  apply both_eq. intros cp Ecp. eapply both_seq; [now apply fill_both|]. intros a a' _ _ (L1 & L2 & A). apply both_eq. intros cq Ecq. eapply both_seq; [now apply fill_both|]. intros b b' _ _ (L3 & L4 & B).
  cbn [both]. unfold sameData. cbn [id_Nmom id_diff0 id_Mp6 id_Mq6]. specialize (V _ Ecp). specialize (W _ Ecq).
  split; [|auto]. split; [auto|]. split; [auto|]. split; [auto|]. split; [auto|]. split; intros i Hi; [apply A|apply B]; lia.
Qed.

(** ** Mechanisms do not read weights and abscissas *)
Lemma grow_wa gr v s w a : growRate (N:=N) gr v (with_wa s w a) = growRate gr v s.
Proof. unfold growRate. destruct (gr_class gr); reflexivity. Qed.
Lemma oxid_wa ox v s w a : oxidRate (N:=N) ox v (with_wa s w a) = oxidRate ox v s.
Proof. unfold oxidRate. destruct (ox_class ox); reflexivity. Qed.
Lemma nucl_plain nu s : nu_class nu <> N_PAH -> exists r : res num, forall coll w a,
  nuclRate (N:=N) coll nu (with_wa s w a) = (x <- r ;; Ok (x, nu, with_wa s w a, None)).
Proof.
  intros H. unfold nuclRate. destruct (nu_class nu); try congruence.
  all: first [exists (Ok (nZ 0)); reflexivity|exists (nuclLL s); reflexivity|exists (nuclLIN s); reflexivity|exists (nuclLINA1 s); reflexivity|exists (nuclMB s); reflexivity|exists (nuclFAIR s); reflexivity|exists (nuclAJ_RED s); reflexivity|exists (nuclBROWN s); reflexivity].
Qed.
Lemma store_none (m : model) : storeNucl (N:=N) m (sm_nucl m) None = m.
Proof. destruct m as [? ? ? ? ? ? ? ? ? ? ? p]; destruct p; reflexivity. Qed.
Lemma run_plain m s : nu_class (sm_nucl m) <> N_PAH -> exists r : res num, forall coll (m' : model) w a, sm_nucl m' = sm_nucl m ->
  runNucl (N:=N) coll m' (with_wa s w a) = (x <- r ;; Ok (x, m', with_wa s w a)).
Proof.
  intros H. destruct (nucl_plain (sm_nucl m) s H) as (r & Hr). exists r. intros coll m' w a E. unfold runNucl. rewrite E, Hr. destruct r; cbn [bind]; auto. rewrite <- E. now rewrite store_none.
Qed.
Lemma chem_plain m s : nu_class (sm_nucl m) <> N_PAH -> exists R : res (num * num * num), forall coll (m' : model) w a, sm_nucl m' = sm_nucl m -> sm_grow m' = sm_grow m -> sm_oxid m' = sm_oxid m ->
  viewOf m' = viewOf m -> chemRates (N:=N) coll m' (with_wa s w a) = (' (j, kg, ko) <- R ;; Ok (j, kg, ko, m', with_wa s w a)).
Proof.
  intros H. destruct (run_plain m s H) as (r & Hr). exists (j <- r ;; kg <- growRate (sm_grow m) (viewOf m) s ;; ko <- oxidRate (sm_oxid m) (viewOf m) s ;; Ok (j, kg, ko)).
  intros coll m' w a E1 E2 E3 E4. unfold chemRates. rewrite Hr by exact E1. destruct r as [j| |]; cbn [bind]; auto. rewrite E2, E3, E4, grow_wa, oxid_wa.
  destruct (growRate _ _ _); cbn [bind]; auto. destruct (oxidRate _ _ _); reflexivity.
Qed.
Lemma wa_self (s : state) : s = with_wa s (wts s) (absc s). Proof. destruct s; reflexivity. Qed.
Lemma same_refl s : sameInputs (N:=N) s s. Proof. unfold sameInputs. rewrite <- wa_self. auto. Qed.
Lemma same_wa s w a : length w = length (wts s) -> length a = length (absc s) -> sameInputs (N:=N) s (with_wa s w a).
Proof. unfold sameInputs. auto. Qed.

(** what the two calls leave behind *)
Definition agreeing (m : model) (s : state) (x x' : model * state) : Prop :=
  sootSources (sm_sources (fst x)) = sootSources (sm_sources (fst x')) /\ gasSources (sm_sources (fst x)) = gasSources (sm_sources (fst x')) /\
  sameModel m (fst x) /\ sameInputs s (snd x).
Lemma gas_same (m m' : model) a b c : sm_nucl m = sm_nucl m' -> sm_grow m = sm_grow m' -> sm_oxid m = sm_oxid m' -> gasSrc (N:=N) m a b c = gasSrc m' a b c.
Proof. intros E1 E2 E3. unfold gasSrc. now rewrite E1, E2, E3. Qed.
Lemma samePriv_refl p : samePriv (N:=N) p p. Proof. destruct p; cbn; auto. Qed.
Lemma finish_agree (m m1 m2 : model) s l a b c s1 s2 : sm_nucl m1 = sm_nucl m2 -> sm_grow m1 = sm_grow m2 -> sm_oxid m1 = sm_oxid m2 -> sameModel m m1 -> sameInputs s s1 ->
  agreeing m s (finish (N:=N) m1 l a b c, s1) (finish m2 l a b c, s2).
Proof.
  intros E1 E2 E3 SM SS. unfold agreeing. cbn [fst snd]. unfold finish. cbn [sm_sources with_sources sootSources gasSources]. split; [reflexivity|]. split; [now apply gas_same|]. split; [exact SM|exact SS].
Qed.
Lemma sameModel_refl m : sameModel (N:=N) m m.
Proof. unfold sameModel. repeat (split; [reflexivity|]). apply samePriv_refl. Qed.

Lemma logn_both (m m' : model) s w a : sameModel m m' -> nu_class (sm_nucl m) <> N_PAH -> isPAH m = false ->
  both (setSourceTermsLOGN (N:=N) m s) (setSourceTermsLOGN m' (with_wa s w a)) (agreeing m s).
Proof.
  intros (E1 & E2 & E3 & E4 & E5 & E6 & E7 & E8 & _) NP IP. assert (IP' : isPAH m' = false) by (unfold isPAH in *; now rewrite <- E3).
  unfold setSourceTermsLOGN. change (sootVar (with_wa s w a)) with (sootVar s). do 3 (apply both_eq; intros ? _). cbv zeta.
  destruct (run_plain m s NP) as (r & Hr). rewrite (Hr _ m' w a) by (symmetry; exact E3). pose proof (Hr (collLOGN m) m (wts s) (absc s) eq_refl) as H0. rewrite <- (wa_self s) in H0. rewrite H0. clear Hr H0.
  destruct r as [j| |]; cbn [bind]; try reflexivity. rewrite IP, IP'.
  assert (EV : viewOf m' = viewOf m) by (unfold viewOf; now rewrite E1, E2, E8).
  assert (EG : growOn m' = growOn m) by (unfold growOn; now rewrite E4). assert (EO : oxidOn m' = oxidOn m) by (unfold oxidOn; now rewrite E5). assert (EU : nuclOn m' = nuclOn m) by (unfold nuclOn; now rewrite E3).
  rewrite EV, EG, EO, EU, <- E4, <- E5, <- E6. rewrite grow_wa, oxid_wa.
  apply both_eq. intros (G1 & G2) _. apply both_eq. intros (X1 & X2) _.
  change (lognCoag (sm_coag m) (with_wa s w a)) with (lognCoag (sm_coag m) s). destruct (lognCoag _ _ _ _ _) as (C0 & C2). unfold both. change (mNucOf (with_wa s w a)) with (mNucOf s).
  apply finish_agree; auto using sameModel_refl, same_refl.
Qed.
Lemma wts_len eig M w a w' a' : length w = length w' -> length a = length a' -> getWtsAbs (N:=N) eig M w a = getWtsAbs eig M w' a'.
Proof.
  intros L1 L2. assert (Z : forall u v : list num, length u = length v -> map (fun _ => nZ 0) u = map (fun _ => nZ 0) v).
  { induction u as [|x u IH]; destruct v as [|y v]; cbn; try discriminate; auto. intros H. f_equal. auto. }
  unfold getWtsAbs. now rewrite (Z w w'), (Z a a').
Qed.
Lemma assign_len (dst src v : list num) : assignNonneg dst src = Ok v -> length v = length dst.
Proof.
  unfold assignNonneg. generalize (seq 0 (length src)). intros l. revert dst. induction l as [|i l IH]; intros dst H; cbn [foldM] in H; [injection H as <-; reflexivity|].
  apply bind_ok in H. destruct H as (u & E & H). apply IH in H. rewrite H. cbv zeta in E. unfold vset in E. destruct (Nat.ltb _ _); [|discriminate]. injection E as <-. apply upd_length.
Qed.
Lemma wts_sizes eig M w a w' a' : getWtsAbs (N:=N) eig M w a = Ok (w', a') -> length w' = length w /\ length a' = length a.
Proof.
  unfold getWtsAbs. intros H. apply bind_ok in H. destruct H as (M0 & _ & H). destruct (nleb M0 (nZ 0)); [injection H as <- <-; now rewrite !map_length|].
  apply bind_ok in H. destruct H as ((wt & at_) & _ & H). apply bind_ok in H. destruct H as (u & Eu & H). apply bind_ok in H. destruct H as (v & Ev & H). injection H as <- <-.
  apply assign_len in Eu. apply assign_len in Ev. rewrite map_length in *. auto.
Qed.
Lemma qmom_both eig (m m' : model) s w a : sameModel m m' -> nu_class (sm_nucl m) <> N_PAH -> isPAH m = false -> length w = length (wts s) -> length a = length (absc s) ->
  both (setSourceTermsQMOM (N:=N) eig m s) (setSourceTermsQMOM eig m' (with_wa s w a)) (agreeing m s).
Proof.
  intros (E1 & E2 & E3 & E4 & E5 & E6 & E7 & E8 & _) NP IP L1 L2. assert (IP' : isPAH m' = false) by (unfold isPAH in *; now rewrite <- E3).
  unfold setSourceTermsQMOM. change (sootVar (with_wa s w a)) with (sootVar s). change (wts (with_wa s w a)) with w. change (absc (with_wa s w a)) with a.
  rewrite (wts_len eig (sootVar s) w a (wts s) (absc s)) by auto. apply both_eq. intros (w1 & a1) EW. cbv zeta. change (with_wa (with_wa s w a) w1 a1) with (with_wa s w1 a1).
  destruct (chem_plain m s NP) as (r & Hr). assert (EV : viewOf m' = viewOf m) by (unfold viewOf; now rewrite E1, E2, E8).
  rewrite (Hr (collSum (sm_coag m)) m w1 a1), (Hr (collSum (sm_coag m')) m' w1 a1) by auto. clear Hr. destruct r as [((j & kg) & ko)| |]; cbn [bind]; try reflexivity.
  assert (EG : growOn m' = growOn m) by (unfold growOn; now rewrite E4). assert (EO : oxidOn m' = oxidOn m) by (unfold oxidOn; now rewrite E5). assert (EU : nuclOn m' = nuclOn m) by (unfold nuclOn; now rewrite E3).
  assert (EC : coagOn m' = coagOn m) by (unfold coagOn; now rewrite E6).
  rewrite EG, EO, EU, EC, <- E2, <- E6.
  replace (mapM (qmomCnd m' (with_wa s w1 a1))) with (mapM (qmomCnd m (with_wa s w1 a1))).
  2:{ unfold qmomCnd. rewrite IP, IP'. reflexivity. }
  do 4 (apply both_eq; intros ? _). cbv zeta. unfold both. apply finish_agree; auto using sameModel_refl. destruct (wts_sizes _ _ _ _ _ _ EW). apply same_wa; auto.
Qed.
Lemma momic_both (m m' : model) s w a d : sameModel m m' -> sm_priv m = PrivMomic d -> nu_class (sm_nucl m) <> N_PAH -> isPAH m = false ->
  both (setSourceTermsMOMIC (N:=N) m s) (setSourceTermsMOMIC m' (with_wa s w a)) (agreeing m s).
Proof.
  intros (E1 & E2 & E3 & E4 & E5 & E6 & E7 & E8 & EP) Ed NP IP. assert (IP' : isPAH m' = false) by (unfold isPAH in *; now rewrite <- E3).
  rewrite Ed in EP. cbn [samePriv] in EP. destruct (sm_priv m') as [|? ?|d'|d'] eqn:Ed'; try discriminate EP. destruct EP as (P1 & P2 & P3).
  unfold setSourceTermsMOMIC. replace (momicData m) with d by (unfold momicData; now rewrite Ed). replace (momicData m') with d' by (unfold momicData; now rewrite Ed').
  change (sootVar (with_wa s w a)) with (sootVar s). eapply both_seq; [now apply setMoments_both|]. intros d1 d2 _ _ ((D1 & D2 & D3 & D4 & AP & AQ) & X1 & X2 & X3). cbv zeta.
  set (m1 := with_priv m (PrivMomic d1)). set (m2 := with_priv m' (PrivMomic d2)).
  destruct (chem_plain m s NP) as (r & Hr). assert (EV : viewOf m' = viewOf m) by (unfold viewOf; now rewrite E1, E2, E8).
  pose proof (Hr (collMOMIC m1) m1 (wts s) (absc s) eq_refl eq_refl eq_refl eq_refl) as H0. rewrite <- (wa_self s) in H0. rewrite H0. clear H0.
  rewrite (Hr (collMOMIC m2) m2 w a) by (exact EV || (symmetry; assumption)). clear Hr. destruct r as [((j & kg) & ko)| |]; cbn [bind]; try reflexivity.
  assert (EG : growOn m2 = growOn m1) by (unfold growOn; cbn; now rewrite E4). assert (EO : oxidOn m2 = oxidOn m1) by (unfold oxidOn; cbn; now rewrite E5). assert (EU : nuclOn m2 = nuclOn m1) by (unfold nuclOn; cbn; now rewrite E3).
  assert (EC : coagOn m2 = coagOn m1) by (unfold coagOn; cbn; now rewrite E6). change (sm_coag m2) with (sm_coag m'). change (sm_coag m1) with (sm_coag m).
  rewrite EG, EO, EU, EC, <- E6, <- D1.
  replace (mapM (momicCnd m2 (with_wa s w a))) with (mapM (momicCnd m1 s)).
  2:{ unfold momicCnd. change (isPAH m1) with (isPAH m). change (isPAH m2) with (isPAH m'). rewrite IP, IP'. reflexivity. }
  apply both_eq. intros cnd _. change (momCoagRates (sm_coag m) (with_wa s w a)) with (momCoagRates (sm_coag m) s).
  replace (if coagOn m1 then M0 <- vget (sootVar s) 0 ;; momCoagRates (sm_coag m) s (id_Nmom d1) (id_Mp6 d2) (id_Mq6 d2) M0 else Ok (zeros (id_Nmom d1)))
     with (if coagOn m1 then M0 <- vget (sootVar s) 0 ;; momCoagRates (sm_coag m) s (id_Nmom d1) (id_Mp6 d1) (id_Mq6 d1) M0 else Ok (zeros (id_Nmom d1))).
  2:{ destruct (coagOn m1); [|reflexivity]. destruct (vget (sootVar s) 0); cbn [bind]; auto. apply coagRates_ext; auto. }
  apply both_eq. intros coa _. unfold both. change (mNucOf (with_wa s w a)) with (mNucOf s).
  replace (momicSurf (growOn m1) kg d2) with (momicSurf (growOn m1) kg d1) by (unfold momicSurf; now rewrite D1, D2).
  replace (momicSurf (oxidOn m1) (- ko)%num d2) with (momicSurf (oxidOn m1) (- ko)%num d1) by (unfold momicSurf; now rewrite D1, D2).
  apply finish_agree; auto using same_refl. unfold sameModel. cbn [m1 sm_psd sm_nsoot sm_nucl sm_grow sm_oxid sm_coag sm_tar sm_mBins sm_priv with_priv].
  repeat (split; [reflexivity|]). rewrite Ed. cbn. auto.
Qed.
Lemma sect_both g g' (m m' : model) s w a F beta : sameModel m m' -> sm_priv m = PrivSect F beta -> nu_class (sm_nucl m) <> N_PAH -> isPAH m = false -> (coagOn m = true -> ilnFof g F = ilnFof g' F) ->
  both (setSourceTermsSECT (N:=N) g m s) (setSourceTermsSECT g' m' (with_wa s w a)) (fun x x' =>
     agreeing m s (snd (fst x), snd x) (snd (fst x'), snd x') /\
     fst (fst x) = (if coagOn m then Some (ilnFof g F) else g) /\ fst (fst x') = (if coagOn m then Some (ilnFof g F) else g')).
Proof.
  intros (E1 & E2 & E3 & E4 & E5 & E6 & E7 & E8 & EP) Ed NP IP HG. assert (IP' : isPAH m' = false) by (unfold isPAH in *; now rewrite <- E3).
  rewrite Ed in EP. cbn [samePriv] in EP. assert (Ed' : sm_priv m' = PrivSect F beta) by (destruct (sm_priv m'); congruence). clear EP.
  unfold setSourceTermsSECT. destruct (chem_plain m s NP) as (r & Hr). assert (EV : viewOf m' = viewOf m) by (unfold viewOf; now rewrite E1, E2, E8).
  pose proof (Hr (collSECT m) m (wts s) (absc s) eq_refl eq_refl eq_refl eq_refl) as H0. rewrite <- (wa_self s) in H0. rewrite H0. clear H0.
  rewrite (Hr (collSECT m') m' w a) by (exact EV || (symmetry; assumption)). clear Hr. destruct r as [((j & kg) & ko)| |]; cbn [bind]; try reflexivity.
  change (readSoot (sm_nsoot m') (with_wa s w a)) with (readSoot (sm_nsoot m') s). rewrite <- E2. apply both_eq. intros nv _. cbv zeta.
  assert (EG : growOn m' = growOn m) by (unfold growOn; now rewrite E4). assert (EO : oxidOn m' = oxidOn m) by (unfold oxidOn; now rewrite E5). assert (EU : nuclOn m' = nuclOn m) by (unfold nuclOn; now rewrite E3).
  assert (EC : coagOn m' = coagOn m) by (unfold coagOn; now rewrite E6). rewrite EG, EO, EU, EC, IP, IP', Ed, Ed', <- E6, <- E8.
  change (sectCoag (sm_coag m) (with_wa s w a)) with (sectCoag (sm_coag m) s). change (mNucOf (with_wa s w a)) with (mNucOf s).
  destruct (coagOn m).
  - rewrite <- HG by reflexivity. destruct (sectCoag _ _ _ _ _ _) as [v| |]; cbn [bind]; try reflexivity. unfold both. cbn [fst snd].
    split; [|auto]. apply finish_agree; auto using sameModel_refl, same_refl.
  - cbn [bind]. unfold both. cbn [fst snd]. split; [|auto]. apply finish_agree; auto using sameModel_refl, same_refl.
Qed.
End S.
