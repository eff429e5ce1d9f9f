(** Lemmas for C75: what a call with PAH nucleation depends on. *)
From Coq Require Import ZArith List Bool Lia.
From Verif Require Import Num Defs State Binomial Coag Nucl Growth Oxid Tar SootModel Mono Logn Qmom Momic Sect Calls SpecSafe SpecHist StateProofs SafeProofs SafeMain SurfProofs HistProofs HistMain.
Import ListNotations.

Section S.
Context {N : Num}.

(** nucleation objects of which only what every call overwrites differs *)
Definition nuRel (nu nu' : nuclObj (N:=N)) : Prop :=
  nu_class nu = nu_class nu' /\ nu_mech nu = nu_mech nu' /\
  (nu = nu' \/ nu_class nu = N_PAH /\ forall x y, ratioTable (nu_ratios nu) [(C_, x); (H2, y)] = ratioTable (nu_ratios nu') [(C_, x); (H2, y)]).
Lemma upd_twice {A} (l : list A) i x y : upd (upd l i x) i y = upd l i y.
Proof. revert i. induction l as [|a l IH]; intros [|i]; cbn [upd]; auto. now rewrite IH. Qed.
Lemma upd_comm {A} (l : list A) i j x y : i <> j -> upd (upd l i x) j y = upd (upd l j y) i x.
Proof. revert i j. induction l as [|a l IH]; intros [|i] [|j] H; cbn [upd]; auto; try congruence. now rewrite IH by congruence. Qed.
Lemma table_twice l a b x y : ratioTable (N:=N) (ratioTable l [(C_, a); (H2, b)]) [(C_, x); (H2, y)] = ratioTable l [(C_, x); (H2, y)].
Proof.
  unfold ratioTable. cbn [fold_left fst snd]. rewrite (upd_comm _ (gasIdx H2) (gasIdx C_)) by discriminate. now rewrite !upd_twice.
Qed.
Lemma nuRel_refl nu : nuRel nu nu. Proof. unfold nuRel. auto. Qed.
Lemma nuRel_sym nu nu' : nuRel nu nu' -> nuRel nu' nu.
Proof. intros (A & B & [->|(C & D)]); unfold nuRel; [auto|]. split; [auto|]. split; [auto|]. right. split; [congruence|auto]. Qed.
Lemma nuRel_trans a b c : nuRel a b -> nuRel b c -> nuRel a c.
Proof.
  intros (A & B & C) (D & E & F). split; [congruence|]. split; [congruence|].
  destruct C as [->|(C1 & C2)]; [auto|]. destruct F as [<-|(F1 & F2)]; [auto|]. right. split; [auto|]. intros. now rewrite C2.
Qed.

Lemma nucl_both coll coll' nu nu' (s : state) w a w' a' : nuRel nu nu' ->
  (forall c mD, coll (with_wa (with_cMin s c) w a) mD = coll' (with_wa (with_cMin s c) w' a') mD) ->
  both (nuclRate (N:=N) coll nu (with_wa s w a)) (nuclRate coll' nu' (with_wa s w' a')) (fun _ _ => True) /\
  forall x, nuclRate coll nu (with_wa s w a) = Ok x -> exists j nu2 eff c, x = (j, nu2, with_wa (with_cMin s c) w a, eff) /\
    nuclRate coll' nu' (with_wa s w' a') = Ok (j, nu2, with_wa (with_cMin s c) w' a', eff) /\ nuRel nu nu2 /\
    match eff with None => nu_class nu <> N_PAH | Some e => nu_class nu = N_PAH /\ exists c mD r, coll (with_wa (with_cMin s c) w a) mD = Ok (r, e) end.
Proof.
  intros (A & B & C) HC. destruct (nucleationMech_eq_dec (nu_class nu) N_PAH) as [E|E].
  - assert (D : forall x y, ratioTable (nu_ratios nu) [(C_, x); (H2, y)] = ratioTable (nu_ratios nu') [(C_, x); (H2, y)]) by (destruct C as [->|(_ & D)]; auto).
    unfold nuclRate. rewrite <- A, E. unfold nuclPAH. change (pahLoop (with_wa s w a)) with (pahLoop s). change (pahLoop (with_wa s w' a')) with (pahLoop s).
    destruct (pahLoop s) as [ac| |]; cbn [bind both]; [|split; [reflexivity|discriminate]|split; [reflexivity|discriminate]]. cbv zeta.
    set (cM := if ngtb (a_nDotD ac) (nZ 0) then _ else _). set (mD := if ngtb (a_nDotD ac) (nZ 0) then (a_mDimer ac / _)%num else _).
    change (with_cMin (with_wa s w a) cM) with (with_wa (with_cMin s cM) w a). change (with_cMin (with_wa s w' a') cM) with (with_wa (with_cMin s cM) w' a').
    rewrite <- HC. destruct (coll (with_wa (with_cMin s cM) w a) mD) as [(Ib & eff)| |] eqn:EC; cbn [bind both]; [|split; [reflexivity|discriminate]|split; [reflexivity|discriminate]].
    split; [exact I|]. intros x H. injection H as <-. do 4 eexists. split; [reflexivity|]. split; [|split].
    + rewrite <- A, <- B, <- D. reflexivity.
    + unfold nuRel. cbn [nu_class nu_mech nu_ratios]. split; [auto|]. split; [auto|]. right. split; [auto|]. intros. symmetry. exact (table_twice (nu_ratios nu) _ _ x y).
    + split; [auto|]. eauto.
  - destruct C as [<-|(C & _)]; [|congruence].
    destruct (nucl_plain nu s E) as (r & Hr). rewrite !Hr. destruct r as [j| |]; cbn [bind both]; (split; [auto|]); try discriminate.
    intros x H. injection H as <-. exists j, nu, None, (cMin s). assert (EX : with_cMin s (cMin s) = s) by (destruct s; reflexivity). rewrite EX.
    split; [reflexivity|]. split; [reflexivity|]. split; [apply nuRel_refl|exact E].
Qed.

(** ** One nucleation call on two models *)
Definition nuFields (m : model (N:=N)) nu eff : model :=
  mkModel (sm_psd m) (sm_nsoot m) (sm_Ntar m) nu (sm_grow m) (sm_oxid m) (sm_coag m) (sm_tar m) (sm_newed m) (sm_mBins m) (sm_sources m) (sm_priv (storeNucl m nu eff)).
Lemma store_fields m nu eff : storeNucl m nu eff = nuFields m nu eff.
Proof. unfold nuFields, storeNucl. destruct m as [? ? ? ? ? ? ? ? ? ? ? pv]. destruct pv; destruct eff as [[|x [|y l]]|]; reflexivity. Qed.
Ltac flds := unfold isPAH, nuclOn, growOn, oxidOn, coagOn; repeat match goal with
  | |- context [sm_nucl (nuFields ?m ?n ?e)] => change (sm_nucl (nuFields m n e)) with n
  | |- context [sm_grow (nuFields ?m ?n ?e)] => change (sm_grow (nuFields m n e)) with (sm_grow m)
  | |- context [sm_oxid (nuFields ?m ?n ?e)] => change (sm_oxid (nuFields m n e)) with (sm_oxid m)
  | |- context [sm_coag (nuFields ?m ?n ?e)] => change (sm_coag (nuFields m n e)) with (sm_coag m)
  | |- context [sm_nsoot (nuFields ?m ?n ?e)] => change (sm_nsoot (nuFields m n e)) with (sm_nsoot m)
  | |- context [sm_mBins (nuFields ?m ?n ?e)] => change (sm_mBins (nuFields m n e)) with (sm_mBins m)
  | |- context [viewOf (nuFields ?m ?n ?e)] => change (viewOf (nuFields m n e)) with (viewOf m) end.
Definition effOf (coll : state -> num -> res (num * list num)) (s : state) w a nu (eff : option (list num)) : Prop :=
  match eff with None => nu_class nu <> N_PAH | Some e => nu_class nu = N_PAH /\ exists c mD r, coll (with_wa (with_cMin s c) w a) mD = Ok (r, e) end.
Lemma chem_both coll coll' (m m' : model) (s : state) w a w' a' : nuRel (sm_nucl m) (sm_nucl m') -> sm_grow m = sm_grow m' -> sm_oxid m = sm_oxid m' -> viewOf m = viewOf m' ->
  (forall c mD, coll (with_wa (with_cMin s c) w a) mD = coll' (with_wa (with_cMin s c) w' a') mD) ->
  both (chemRates coll m (with_wa s w a)) (chemRates coll' m' (with_wa s w' a')) (fun x x' => exists j kg ko nu2 eff c,
    x = (j, kg, ko, nuFields m nu2 eff, with_wa (with_cMin s c) w a) /\ x' = (j, kg, ko, nuFields m' nu2 eff, with_wa (with_cMin s c) w' a') /\
    nuRel (sm_nucl m) nu2 /\ effOf coll s w a (sm_nucl m) eff).
Proof.
  intros NR EG EO EV HC. destruct (nucl_both coll coll' (sm_nucl m) (sm_nucl m') s w a w' a' NR HC) as (B & K). unfold chemRates, runNucl.
  destruct (nuclRate coll (sm_nucl m) (with_wa s w a)) as [x| |] eqn:E1.
  - destruct (K x eq_refl) as (j & nu2 & eff & c & -> & -> & NR2 & HE). cbn [bind]. rewrite !store_fields. flds.
    rewrite <- EG, <- EO, <- EV, !grow_wa, !oxid_wa. apply both_eq. intros kg _. apply both_eq. intros ko _. unfold both. exists j, kg, ko, nu2, eff, c. auto.
  - destruct (nuclRate coll' (sm_nucl m') (with_wa s w' a')); cbn [both bind] in *; auto; contradiction.
  - destruct (nuclRate coll' (sm_nucl m') (with_wa s w' a')); cbn [both bind] in *; auto; contradiction.
Qed.
Lemma run_both coll coll' (m m' : model) (s : state) w a w' a' : nuRel (sm_nucl m) (sm_nucl m') ->
  (forall c mD, coll (with_wa (with_cMin s c) w a) mD = coll' (with_wa (with_cMin s c) w' a') mD) ->
  both (runNucl coll m (with_wa s w a)) (runNucl coll' m' (with_wa s w' a')) (fun x x' => exists j nu2 eff c,
    x = (j, nuFields m nu2 eff, with_wa (with_cMin s c) w a) /\ x' = (j, nuFields m' nu2 eff, with_wa (with_cMin s c) w' a') /\
    nuRel (sm_nucl m) nu2 /\ effOf coll s w a (sm_nucl m) eff).
Proof.
  intros NR HC. destruct (nucl_both coll coll' (sm_nucl m) (sm_nucl m') s w a w' a' NR HC) as (B & K). unfold runNucl.
  destruct (nuclRate coll (sm_nucl m) (with_wa s w a)) as [x| |] eqn:E1.
  - destruct (K x eq_refl) as (j & nu2 & eff & c & -> & -> & NR2 & HE). cbn [bind]. rewrite !store_fields. unfold both. exists j, nu2, eff, c. auto.
  - destruct (nuclRate coll' (sm_nucl m') (with_wa s w' a')); cbn [both bind] in *; auto; contradiction.
  - destruct (nuclRate coll' (sm_nucl m') (with_wa s w' a')); cbn [both bind] in *; auto; contradiction.
Qed.

(** ** Models and states before a call that may differ *)
Definition prePriv (n : nat) (a b : privData (N:=N)) : Prop :=
  match a, b with
  | PrivMomic d, PrivMomic d' => id_Nmom d = id_Nmom d' /\ length (id_Mp6 d) = length (id_Mp6 d') /\ length (id_Mq6 d) = length (id_Mq6 d')
  | PrivSect F x, PrivSect F' x' => F = F' /\ Nat.ltb (length x) n = Nat.ltb (length x') n
  | _, _ => a = b
  end.
(** the entry of the tar sources which the monodisperse model with tar overwrites *)
Definition tsOf (m : model (N:=N)) : list num := tarSources (sm_sources m).
Definition tsRel (m m' : model (N:=N)) : Prop :=
  (forall x, vset (tsOf m) 0 x = vset (tsOf m') 0 x) /\ (ta_mech (sm_tar m) = T_NONE \/ sm_psd m <> P_MONO -> tsOf m = tsOf m').
Definition preModel (m m' : model (N:=N)) : Prop :=
  sm_psd m = sm_psd m' /\ sm_nsoot m = sm_nsoot m' /\ nuRel (sm_nucl m) (sm_nucl m') /\ sm_grow m = sm_grow m' /\ sm_oxid m = sm_oxid m' /\
  sm_coag m = sm_coag m' /\ sm_tar m = sm_tar m' /\ sm_mBins m = sm_mBins m' /\ prePriv (sm_nsoot m) (sm_priv m) (sm_priv m') /\ tsRel m m'.
Definition okModel (m : model (N:=N)) : Prop :=
  nu_class (sm_nucl m) = nu_mech (sm_nucl m) /\
  match sm_psd m with
  | P_MONO | P_LOGN | P_QMOM => sm_priv m = PrivNone
  | P_MOMIC => exists d, sm_priv m = PrivMomic d /\ 1 <= id_Nmom d
  | P_SECT => exists F b, sm_priv m = PrivSect F b
  | _ => False
  end.
Lemma prePriv_refl n p : prePriv n p p. Proof. destruct p; cbn; auto. Qed.
Lemma preModel_refl m : preModel m m.
Proof. unfold preModel. do 8 (split; [first [reflexivity|apply nuRel_refl]|]). split; [apply prePriv_refl|]. split; auto. Qed.
Lemma preModel_sym m m' : preModel m m' -> preModel m' m.
Proof.
  intros (E1 & E2 & E3 & E4 & E5 & E6 & E7 & E8 & EP & ET & EU). unfold preModel. do 2 (split; [congruence|]). split; [now apply nuRel_sym|]. do 5 (split; [congruence|]). split; [|split; [auto|rewrite <- E1, <- E7; intros H; symmetry; auto]]. rewrite <- E2. unfold prePriv in *.
  destruct (sm_priv m), (sm_priv m'); try congruence; try discriminate; intuition.
Qed.
Lemma preModel_trans m1 m2 m3 : preModel m1 m2 -> preModel m2 m3 -> preModel m1 m3.
Proof.
  intros (E1 & E2 & E3 & E4 & E5 & E6 & E7 & E8 & EP & ET & EU) (F1 & F2 & F3 & F4 & F5 & F6 & F7 & F8 & FP & FT & FU). unfold preModel. do 2 (split; [congruence|]). split; [eapply nuRel_trans; eauto|]. do 5 (split; [congruence|]).
  split; [|split; [intros x; now rewrite ET|intros H; rewrite (EU H); rewrite E1, E7 in H; auto]].
  rewrite <- E2 in FP. unfold prePriv in *. destruct (sm_priv m1), (sm_priv m2), (sm_priv m3); try congruence; try discriminate; intuition; congruence.
Qed.
Lemma ok_pre m m' : preModel m m' -> okModel m -> okModel m'.
Proof.
  intros (E1 & E2 & (E3 & E3' & _) & E4 & E5 & E6 & E7 & E8 & EP & _) (H1 & H2). split; [congruence|]. rewrite <- E1. destruct (sm_psd m); auto; unfold prePriv in EP; try (rewrite H2 in EP; auto; fail).
  - destruct H2 as (d & Hd & L). rewrite Hd in EP. destruct (sm_priv m'); try discriminate. destruct EP as (P1 & _). exists d0. split; [auto|lia].
  - destruct H2 as (F & b & Hd). rewrite Hd in EP. destruct (sm_priv m'); try discriminate. eauto.
Qed.
(** states that differ in what a call may change *)
Definition moved (s s' : state (N:=N)) : Prop := exists c w a, s' = with_wa (with_cMin s c) w a /\ length w = length (wts s) /\ length a = length (absc s).
Definition agreed (m : model (N:=N)) (s : state) (x x' : model * state) : Prop :=
  sootSources (sm_sources (fst x)) = sootSources (sm_sources (fst x')) /\ gasSources (sm_sources (fst x)) = gasSources (sm_sources (fst x')) /\
  (nu_mech (sm_nucl (fst x)) = N_PAH -> pahSources (sm_sources (fst x)) = pahSources (sm_sources (fst x'))) /\ cMin (snd x) = cMin (snd x') /\
  tsOf (fst x) = tsOf (fst x') /\ preModel m (fst x) /\ moved s (snd x).
Lemma finish_agreed (m m0 m' : model) s l x y z nu2 eff s1 s2 : sm_grow m0 = sm_grow m' -> sm_oxid m0 = sm_oxid m' -> tsOf m0 = tsOf m' ->
  preModel m (nuFields m0 nu2 eff) -> cMin s1 = cMin s2 -> moved s s1 ->
  agreed m s (finish (nuFields m0 nu2 eff) l x y z, s1) (finish (nuFields m' nu2 eff) l x y z, s2).
Proof.
  intros EG EO ET SM EC SS. unfold agreed. cbn [fst snd]. unfold finish. cbn [sm_sources with_sources sootSources gasSources pahSources]. split; [reflexivity|].
  split; [unfold gasSrc, nuFields; cbn [sm_nucl sm_grow sm_oxid]; now rewrite EG, EO|]. split; [|split; [exact EC|split; [exact ET|split; [exact SM|exact SS]]]].
  unfold isPAH, nuFields. cbn [sm_nucl with_sources]. intros ->. reflexivity.
Qed.
Lemma pre_fields m nu2 eff : nuRel (sm_nucl m) nu2 -> prePriv (sm_nsoot m) (sm_priv m) (sm_priv (storeNucl m nu2 eff)) -> preModel m (nuFields m nu2 eff).
Proof. intros H1 H2. unfold preModel, nuFields. cbn [sm_psd sm_nsoot sm_nucl sm_grow sm_oxid sm_coag sm_tar sm_mBins sm_priv]. do 8 (split; [first [reflexivity|exact H1]|]). split; [exact H2|]. split; auto. Qed.
Lemma pre_view m m' : preModel m m' -> viewOf m = viewOf m'.
Proof. intros (E1 & E2 & E3 & E4 & E5 & E6 & E7 & E8 & _). unfold viewOf. congruence. Qed.
Lemma pre_pah m m' : preModel m m' -> isPAH m = isPAH m'.
Proof. intros (E1 & E2 & (_ & E3 & _) & _). unfold isPAH. now rewrite E3. Qed.
Lemma store_momic m nu2 eff d : sm_priv m = PrivMomic d -> exists d', sm_priv (storeNucl m nu2 eff) = PrivMomic d' /\ id_Nmom d' = id_Nmom d /\ id_diff0 d' = id_diff0 d /\ id_Mp6 d' = id_Mp6 d /\ id_Mq6 d' = id_Mq6 d /\
   id_mass d' = match eff with Some [x] => Some x | _ => id_mass d end.
Proof. intros H. unfold storeNucl. cbn [with_nuclObj sm_priv]. rewrite H. destruct eff as [[|x [|y l]]|]; cbn [sm_priv with_nuclObj with_priv]; eauto 10. Qed.
Lemma store_none_priv m nu2 eff : sm_priv m = PrivNone -> sm_priv (storeNucl m nu2 eff) = PrivNone.
Proof. intros H. unfold storeNucl. cbn [with_nuclObj sm_priv]. rewrite H. exact H. Qed.
Lemma store_sect m nu2 eff F b : sm_priv m = PrivSect F b -> sm_priv (storeNucl m nu2 eff) = PrivSect F (match eff with Some e => e | None => b end).
Proof. intros H. unfold storeNucl. cbn [with_nuclObj sm_priv]. rewrite H. destruct eff as [e|]; cbn [sm_priv with_nuclObj with_priv]; auto. Qed.
Lemma store_weak m nu2 eff : match sm_priv m with PrivSect _ _ => False | _ => True end -> prePriv (sm_nsoot m) (sm_priv m) (sm_priv (storeNucl m nu2 eff)).
Proof. intros H. unfold storeNucl. cbn [with_nuclObj sm_priv]. destruct (sm_priv m) eqn:E; try contradiction; destruct eff as [[|x [|y l]]|]; cbn [sm_priv with_nuclObj with_priv]; rewrite ?E; cbn; auto. Qed.
Lemma pre_ts m m' : preModel m m' -> sm_psd m <> P_MONO -> tsOf m = tsOf m'.
Proof. intros (_ & _ & _ & _ & _ & _ & _ & _ & _ & _ & E) H. auto. Qed.
Lemma logn_pair (m m' : model) s w a : preModel m m' -> sm_psd m <> P_MONO -> match sm_priv m with PrivSect _ _ => False | _ => True end -> length w = length (wts s) -> length a = length (absc s) ->
  both (setSourceTermsLOGN (N:=N) m s) (setSourceTermsLOGN m' (with_wa s w a)) (agreed m s).
Proof.
  intros PM HD HP L1 L2. pose proof PM as (E1 & E2 & E3 & E4 & E5 & E6 & E7 & E8 & _). pose proof (pre_ts _ _ PM HD) as ETS.
  unfold setSourceTermsLOGN. change (sootVar (with_wa s w a)) with (sootVar s). do 3 (apply both_eq; intros ? _). cbv zeta. rewrite (wa_self s) at 1.
  eapply both_seq.
  { apply run_both; [exact E3|]. intros c mD. unfold collLOGN. rewrite <- (pre_pah _ _ PM), <- E6. reflexivity. }
  intros x x' _ _ (j & nu2 & eff & c & -> & -> & NR & _). cbv beta iota.
  flds. rewrite <- (pre_view _ _ PM), <- E4, <- E5, <- E6, !grow_wa, !oxid_wa.
  apply both_eq. intros (G1 & G2) _. apply both_eq. intros (X1 & X2) _.
  change (lognCoag (sm_coag m) (with_wa (with_cMin s c) w a)) with (lognCoag (sm_coag m) (with_wa (with_cMin s c) (wts s) (absc s))). destruct (lognCoag _ _ _ _ _) as (C0 & C2). unfold both.
  apply finish_agreed; auto; [apply pre_fields; auto using store_weak|]. exists c, (wts s), (absc s). auto.
Qed.
Lemma qmom_pair eig (m m' : model) s w a : preModel m m' -> sm_psd m <> P_MONO -> match sm_priv m with PrivSect _ _ => False | _ => True end -> length w = length (wts s) -> length a = length (absc s) ->
  both (setSourceTermsQMOM (N:=N) eig m s) (setSourceTermsQMOM eig m' (with_wa s w a)) (agreed m s).
Proof.
  intros PM HD HP L1 L2. pose proof PM as (E1 & E2 & E3 & E4 & E5 & E6 & E7 & E8 & _). pose proof (pre_ts _ _ PM HD) as ETS.
  unfold setSourceTermsQMOM. change (sootVar (with_wa s w a)) with (sootVar s). change (wts (with_wa s w a)) with w. change (absc (with_wa s w a)) with a.
  rewrite (wts_len eig (sootVar s) w a (wts s) (absc s)) by auto. apply both_eq. intros (w1 & a1) EW. cbv zeta. change (with_wa (with_wa s w a) w1 a1) with (with_wa s w1 a1).
  eapply both_seq.
  { apply chem_both; [exact E3|exact E4|exact E5|now apply pre_view|]. intros c mD. rewrite <- E6. reflexivity. }
  intros x x' _ _ (j & kg & ko & nu2 & eff & c & -> & -> & NR & _). cbv beta iota.
  assert (Q : forall st k, qmomCnd (nuFields m nu2 eff) st k = qmomCnd (nuFields m' nu2 eff) st k) by (intros st k; unfold qmomCnd; flds; now rewrite <- E6).
  rewrite (mapM_eq _ _ _ (fun k _ => Q (with_wa (with_cMin s c) w1 a1) k)). flds. rewrite <- E2, <- E4, <- E5, <- E6.
  do 4 (apply both_eq; intros ? _). cbv zeta. unfold both. destruct (wts_sizes _ _ _ _ _ _ EW). apply finish_agreed; auto; [apply pre_fields; auto using store_weak|]. exists c, w1, a1. auto.
Qed.
Lemma setWA_shape M0 M1 (s s1 : state) : monoSetWA M0 M1 s = Ok s1 -> exists w a, s1 = with_wa s w a /\ length w = length (wts s) /\ length a = length (absc s).
Proof.
  unfold monoSetWA. destruct (ngtb M0 (nZ 0)); [|intros H; injection H as <-; exists (wts s), (absc s); split; [apply wa_self|auto]].
  unfold vset. destruct (Nat.ltb _ _); cbn [bind]; [|discriminate]. destruct (Nat.ltb _ _); cbn [bind]; [|discriminate]. intros H. injection H as <-. do 2 eexists. split; [reflexivity|]. now rewrite !upd_length.
Qed.
Lemma set_fields m nu eff ts : setTarSources (nuFields m nu eff) ts = nuFields (setTarSources m ts) nu eff.
Proof. unfold nuFields, storeNucl, setTarSources. destruct m as [? ? ? ? ? ? ? ? ? ? ? pv]. destruct pv; destruct eff as [[|x [|y l]]|]; reflexivity. Qed.
Lemma set_pre m x ts : sm_psd m = P_MONO -> ta_mech (sm_tar m) <> T_NONE -> vset (tsOf m) 0 x = Ok ts -> preModel m (setTarSources m ts).
Proof.
  intros HP HT E. unfold preModel. do 8 (split; [first [reflexivity|apply nuRel_refl]|]). split; [apply prePriv_refl|]. split; [|intros [H|H]; contradiction].
  intros y. change (tsOf (setTarSources m ts)) with ts. unfold vset in *. destruct (Nat.ltb 0 (length (tsOf m))) eqn:EL; [|discriminate]. injection E as <-. now rewrite upd_length, EL, upd_twice.
Qed.
Lemma mono_pair (m m' : model) s w a : preModel m m' -> sm_psd m = P_MONO -> match sm_priv m with PrivSect _ _ => False | _ => True end ->
  (forall M0 M1, vget (sootVar s) 0 = Ok M0 -> monoSetWA M0 M1 (with_wa s w a) = monoSetWA M0 M1 s) ->
  both (setSourceTermsMONO (N:=N) m s) (setSourceTermsMONO m' (with_wa s w a)) (agreed m s).
Proof.
  intros PM HD HP HW. pose proof PM as (E1 & E2 & E3 & E4 & E5 & E6 & E7 & E8 & _ & ET & EU).
  unfold setSourceTermsMONO. change (sootVar (with_wa s w a)) with (sootVar s). apply both_eq. intros M0 EM. apply both_eq. intros M1 _. rewrite (HW M0 M1 EM). apply both_eq. intros s1 E.
  destruct (setWA_shape _ _ _ _ E) as (w1 & a1 & -> & L1 & L2). clear HW E. rewrite <- E7.
  assert (TT : both (monoTermsOf M0 M1 m (with_wa s w1 a1)) (monoTermsOf M0 M1 m' (with_wa s w1 a1)) (fun x x' => exists t nu2 eff c, x = (t, nuFields m nu2 eff, with_wa (with_cMin s c) w1 a1) /\ x' = (t, nuFields m' nu2 eff, with_wa (with_cMin s c) w1 a1) /\ nuRel (sm_nucl m) nu2)).
  { unfold monoTermsOf. eapply both_seq.
    { apply chem_both; [exact E3|exact E4|exact E5|now apply pre_view|]. intros c mD. rewrite <- E6. reflexivity. }
    intros x x' _ _ (j & kg & ko & nu2 & eff & c & -> & -> & NR & _). cbv beta iota. apply both_eq. intros x0 _. cbv zeta. flds. rewrite <- E4, <- E5, <- E6.
    do 2 (apply both_eq; intros ? _). unfold both. do 4 eexists. split; [reflexivity|]. split; [reflexivity|exact NR]. }
  change (with_wa (with_wa s w a) w1 a1) with (with_wa s w1 a1) in *.
  assert (NO : ta_mech (sm_tar m) = T_NONE -> forall x x', (exists t nu2 eff c, x = (t, nuFields m nu2 eff, with_wa (with_cMin s c) w1 a1) /\ x' = (t, nuFields m' nu2 eff, with_wa (with_cMin s c) w1 a1) /\ nuRel (sm_nucl m) nu2) ->
    both (let '(t, m, s) := x in let z := nZ 0 in Ok (finish m [ mt_N0 t + z + z + z + mt_C0 t; mt_N1 t + mt_Cnd1 t + mt_G1 t + mt_X1 t + z ]%num (mt_N1 t) (mt_G1 t) (mt_X1 t), s))
         (let '(t, m, s) := x' in let z := nZ 0 in Ok (finish m [ mt_N0 t + z + z + z + mt_C0 t; mt_N1 t + mt_Cnd1 t + mt_G1 t + mt_X1 t + z ]%num (mt_N1 t) (mt_G1 t) (mt_X1 t), s)) (agreed m s)).
  { intros HT x x' (t & nu2 & eff & c & -> & -> & NR). cbv beta iota zeta. unfold both. apply finish_agreed; auto; [apply pre_fields; auto using store_weak|]. exists c, w1, a1. auto. }
  assert (YES : ta_mech (sm_tar m) <> T_NONE -> forall n0 x x', (exists t nu2 eff c, x = (t, nuFields m nu2 eff, with_wa (with_cMin s c) w1 a1) /\ x' = (t, nuFields m' nu2 eff, with_wa (with_cMin s c) w1 a1) /\ nuRel (sm_nucl m) nu2) ->
    both (let '(t, m, s) := x in ' (T0, T1, T2) <- monoTarTerms M0 M1 n0 t m s ;; ts <- vset (tarSources (sm_sources m)) 0 T0 ;; Ok (finish (setTarSources m ts) [ T1; T2 ] (mt_N1 t) (mt_G1 t) (mt_X1 t), s))
         (let '(t, m, s) := x' in ' (T0, T1, T2) <- monoTarTerms M0 M1 n0 t m s ;; ts <- vset (tarSources (sm_sources m)) 0 T0 ;; Ok (finish (setTarSources m ts) [ T1; T2 ] (mt_N1 t) (mt_G1 t) (mt_X1 t), s)) (agreed m s)).
  { intros HT n0 x x' (t & nu2 & eff & c & -> & -> & NR). cbv beta iota.
    replace (monoTarTerms M0 M1 n0 t (nuFields m' nu2 eff)) with (monoTarTerms M0 M1 n0 t (nuFields m nu2 eff)) by (unfold monoTarTerms, nuFields; cbn [sm_tar]; now rewrite E7).
    apply both_eq. intros ((T0 & T1) & T2) _. change (tarSources (sm_sources (nuFields m nu2 eff))) with (tsOf m). change (tarSources (sm_sources (nuFields m' nu2 eff))) with (tsOf m').
    rewrite <- ET. apply both_eq. intros ts Ets. rewrite !set_fields. unfold both. apply finish_agreed; auto; [|exists c, w1, a1; auto].
    eapply preModel_trans; [exact (set_pre m T0 ts HD HT Ets)|]. apply pre_fields; [exact NR|]. apply store_weak. exact HP. }
  destruct (ta_mech (sm_tar m)) eqn:HT; [eapply both_seq; [exact TT|]; intros x x' _ _; apply NO; auto| | |];
    (change (tarVar (with_wa s w1 a1)) with (tarVar s); apply both_eq; intros n0 _; eapply both_seq; [exact TT|]; intros x x' _ _; apply YES; discriminate).
Qed.
Lemma gterms_ext b m q1 q2 y l : agree b q1 q2 -> (forall c u v, In (c, u, v) l -> (y + v < Z.of_nat b)%Z) -> gterms m q1 y l = gterms (N:=N) m q2 y l.
Proof. intros A H. unfold gterms. f_equal. apply map_ext_in. intros ((c & u) & v) Hi. specialize (H _ _ _ Hi). rewrite !A by lia. reflexivity. Qed.
Lemma g_grid_ext n m q1 q2 y : agree (3 * n + 9) q1 q2 -> (y <= Z.of_nat n)%Z -> g_grid m q1 y = g_grid (N:=N) m q2 y.
Proof.
  intros A Y. unfold g_grid. apply half_ext; cbn [nth]; (eapply gterms_ext; [exact A|]; intros ? ? ? HI; cbn [nth In g0terms g1terms g2terms g3terms] in HI;
  repeat match goal with H : _ \/ _ |- _ => destruct H as [H|H]; [injection H as <- <- <-; lia|] | H : False |- _ => destruct H end).
Qed.
Lemma bracket_ext n m K p1 p2 : agree (3 * n + 1) p1 p2 -> 1 <= n -> contBracket m K p1 0 = contBracket (N:=N) m K p2 0.
Proof. intros A L. unfold contBracket. rewrite !(agree_get _ p1 p2 _ A) by lia. reflexivity. Qed.
Lemma momic_pair (m m' : model) s w a d : preModel m m' -> sm_psd m <> P_MONO -> nu_class (sm_nucl m) = nu_mech (sm_nucl m) -> sm_priv m = PrivMomic d -> 1 <= id_Nmom d -> length w = length (wts s) -> length a = length (absc s) ->
  both (setSourceTermsMOMIC (N:=N) m s) (setSourceTermsMOMIC m' (with_wa s w a)) (agreed m s).
Proof.
  intros PM HD CM Ed LN L1 L2. pose proof PM as (E1 & E2 & E3 & E4 & E5 & E6 & E7 & E8 & EP & _). pose proof (pre_ts _ _ PM HD) as ETS.
  rewrite Ed in EP. cbn [prePriv] in EP. destruct (sm_priv m') as [|? ?|d'|d'] eqn:Ed'; try discriminate EP. destruct EP as (P1 & P2 & P3).
  unfold setSourceTermsMOMIC. replace (momicData m) with d by (unfold momicData; now rewrite Ed). replace (momicData m') with d' by (unfold momicData; now rewrite Ed').
  change (sootVar (with_wa s w a)) with (sootVar s). eapply both_seq; [now apply setMoments_both|]. intros d1 d2 _ _ ((D1 & D2 & D3 & D4 & AP & AQ) & X1 & X2 & X3). cbv zeta.
  set (m1 := with_priv m (PrivMomic d1)). set (m2 := with_priv m' (PrivMomic d2)). rewrite (wa_self s) at 1.
  assert (EPAH : isPAH m1 = isPAH m2) by exact (pre_pah _ _ PM).
  eapply both_seq.
  { apply (chem_both (collMOMIC m1) (collMOMIC m2) m1 m2); [exact E3|exact E4|exact E5|exact (pre_view _ _ PM)|]. intros c mD. unfold collMOMIC. rewrite <- EPAH. destruct (negb (isPAH m1)); [reflexivity|].
    change (momicData m1) with d1. change (momicData m2) with d2. change (sm_coag m2) with (sm_coag m'). rewrite <- E6. cbv zeta. rewrite (bracket_ext (id_Nmom d1) mD _ (id_Mp6 d1) (id_Mp6 d2)) by (auto; lia).
    rewrite (g_grid_ext (id_Nmom d1) mD (id_Mq6 d1) (id_Mq6 d2)) by (auto; lia). reflexivity. }
  intros x x' _ _ (j & kg & ko & nu2 & eff & c & -> & -> & NR & HE). cbv beta iota.
  change (sm_nucl m1) with (sm_nucl m) in NR, HE.
  assert (Q : forall k, In k (seq 0 (id_Nmom d1)) -> momicCnd (nuFields m1 nu2 eff) (with_wa (with_cMin s c) (wts s) (absc s)) k = momicCnd (nuFields m2 nu2 eff) (with_wa (with_cMin s c) w a) k).
  { intros k Hk. apply in_seq in Hk. unfold momicCnd. flds. destruct (nu_mech nu2) eqn:EM; try reflexivity. cbn [andb]. destruct (Nat.leb 1 k); [|reflexivity].
    destruct eff as [e|]; cbn [effOf] in HE; [|destruct NR as (_ & NR & _); exfalso; apply HE; congruence].
    destruct HE as (_ & c0 & mD & r & HC). assert (Ee : e = [mD]).
    { unfold collMOMIC in HC. destruct (negb (isPAH m1)) eqn:EN; [exfalso; unfold isPAH in EN; change (sm_nucl m1) with (sm_nucl m) in EN; destruct NR as (_ & NR & _); rewrite NR, EM in EN; discriminate|].
      cbv zeta in HC. apply bind_ok in HC. destruct HC as (? & _ & HC). apply bind_ok in HC. destruct HC as (? & _ & HC). congruence. }
    subst e. destruct (store_momic m1 nu2 (Some [mD]) d1 eq_refl) as (e1 & K1 & K2 & K3 & K4 & K5 & K6). destruct (store_momic m2 nu2 (Some [mD]) d2 eq_refl) as (e2 & J1 & J2 & J3 & J4 & J5 & J6).
    assert (Y1 : momicData (nuFields m1 nu2 (Some [mD])) = e1) by (unfold momicData, nuFields; cbn [sm_priv]; now rewrite K1). assert (Y2 : momicData (nuFields m2 nu2 (Some [mD])) = e2) by (unfold momicData, nuFields; cbn [sm_priv]; now rewrite J1). rewrite Y1, Y2, K6, J6. change (sm_coag m2) with (sm_coag m'). rewrite <- E6, K4, K5, J4, J5.
    rewrite (bracket_ext (id_Nmom d1) mD _ (id_Mp6 d1) (id_Mp6 d2)) by (auto; lia).
    rewrite (g_grid_ext (id_Nmom d1) mD (id_Mq6 d1) (id_Mq6 d2)) by (auto; lia). reflexivity. }
  rewrite <- D1, (mapM_eq _ _ _ Q). flds. change (sm_coag m1) with (sm_coag m). change (sm_coag m2) with (sm_coag m'). change (sm_grow m1) with (sm_grow m). change (sm_grow m2) with (sm_grow m'). change (sm_oxid m1) with (sm_oxid m). change (sm_oxid m2) with (sm_oxid m').
  rewrite <- E4, <- E5, <- E6.
  apply both_eq. intros cnd _. change (momCoagRates (sm_coag m) (with_wa (with_cMin s c) w a)) with (momCoagRates (sm_coag m) (with_wa (with_cMin s c) (wts s) (absc s))).
  eapply both_seq with (R := eq).
  { destruct (co_mech (sm_coag m)); try reflexivity; (destruct (vget (sootVar s) 0); cbn [bind both]; [|reflexivity|reflexivity]); (rewrite (coagRates_ext (sm_coag m) _ (id_Nmom d1) (id_Mp6 d2) (id_Mq6 d2) (id_Mp6 d1) (id_Mq6 d1)); [destruct (momCoagRates _ _ _ _ _ _); reflexivity|intros i Hi; symmetry; auto|intros i Hi; symmetry; auto]). }
  intros coa ? _ _ <-. unfold both. change (mNucOf (with_wa (with_cMin s c) w a)) with (mNucOf (with_wa (with_cMin s c) (wts s) (absc s))).
  replace (momicSurf (match gr_mech (sm_grow m) with G_NONE => false | _ => true end) kg d2) with (momicSurf (match gr_mech (sm_grow m) with G_NONE => false | _ => true end) kg d1) by (unfold momicSurf; now rewrite D1, D2).
  replace (momicSurf (match ox_mech (sm_oxid m) with O_NONE => false | _ => true end) (- ko)%num d2) with (momicSurf (match ox_mech (sm_oxid m) with O_NONE => false | _ => true end) (- ko)%num d1) by (unfold momicSurf; now rewrite D1, D2).
  apply finish_agreed; auto.
  - apply (preModel_trans _ m1).
    + unfold preModel. cbn [m1 sm_psd sm_nsoot sm_nucl sm_grow sm_oxid sm_coag sm_tar sm_mBins sm_priv with_priv]. do 2 (split; [reflexivity|]). split; [apply nuRel_refl|]. do 5 (split; [reflexivity|]). split; [rewrite Ed; cbn [prePriv]; auto|split; auto].
    + apply pre_fields; [exact NR|]. apply store_weak. exact I.
  - exists c, (wts s), (absc s). auto.
Qed.
Lemma sect_pair g (m m' : model) s w a F b : preModel m m' -> sm_psd m <> P_MONO -> nu_class (sm_nucl m) = nu_mech (sm_nucl m) -> sm_priv m = PrivSect F b -> length w = length (wts s) -> length a = length (absc s) ->
  both (setSourceTermsSECT (N:=N) g m s) (setSourceTermsSECT g m' (with_wa s w a)) (fun x x' =>
     fst (fst x) = fst (fst x') /\ agreed m s (snd (fst x), snd x) (snd (fst x'), snd x')).
Proof.
  intros PM HD CM Ed L1 L2. pose proof PM as (E1 & E2 & E3 & E4 & E5 & E6 & E7 & E8 & EP & _). pose proof (pre_ts _ _ PM HD) as ETS.
  rewrite Ed in EP. cbn [prePriv] in EP. destruct (sm_priv m') as [|F' b'|d'|d'] eqn:Ed'; try discriminate EP. destruct EP as (<- & P2).
  unfold setSourceTermsSECT. rewrite (wa_self s) at 1.
  eapply both_seq.
  { apply chem_both; [exact E3|exact E4|exact E5|now apply pre_view|]. intros c mD. unfold collSECT. rewrite Ed, Ed', <- E2, <- P2, <- E6, <- E8. reflexivity. }
  intros x x' _ _ (j & kg & ko & nu2 & eff & c & -> & -> & NR & HE). cbv beta iota. flds.
  replace (sm_priv (nuFields m nu2 eff)) with (PrivSect F (match eff with Some e => e | None => b end)) by (symmetry; exact (store_sect m nu2 eff F b Ed)).
  replace (sm_priv (nuFields m' nu2 eff)) with (PrivSect F (match eff with Some e => e | None => b' end)) by (symmetry; exact (store_sect m' nu2 eff F b' Ed')).
  rewrite <- E2, <- E4, <- E5, <- E6, <- E8. change (readSoot (sm_nsoot m) (with_wa (with_cMin s c) w a)) with (readSoot (sm_nsoot m) (with_wa (with_cMin s c) (wts s) (absc s))).
  apply both_eq. intros nv _. cbv zeta.
  change (sectCoag (sm_coag m) (with_wa (with_cMin s c) w a)) with (sectCoag (sm_coag m) (with_wa (with_cMin s c) (wts s) (absc s))). change (mNucOf (with_wa (with_cMin s c) w a)) with (mNucOf (with_wa (with_cMin s c) (wts s) (absc s))).
  apply both_eq. intros (g1 & coa) _. unfold both. cbn [fst snd]. split; [reflexivity|].
  assert (FIN : forall soot x1 x2 x3, agreed m s (finish (nuFields m nu2 eff) soot x1 x2 x3, with_wa (with_cMin s c) (wts s) (absc s)) (finish (nuFields m' nu2 eff) soot x1 x2 x3, with_wa (with_cMin s c) w a)).
  { intros soot x1 x2 x3. apply finish_agreed; auto; [|exists c, (wts s), (absc s); auto]. apply pre_fields; [exact NR|]. rewrite (store_sect m nu2 eff F b Ed), Ed. cbn [prePriv]. split; [reflexivity|].
    destruct eff as [e|]; [|reflexivity]. destruct HE as (_ & c0 & mD & r & HC). unfold collSECT in HC. rewrite Ed in HC. cbv zeta in HC.
    destruct (Nat.ltb (length b) (sm_nsoot m)) eqn:EL; [discriminate|]. apply bind_ok in HC. destruct HC as (? & _ & HC). injection HC as _ <-. rewrite map_length, seq_length. symmetry. apply Nat.ltb_irrefl. }
  destruct eff as [e|]; [apply FIN|]. destruct (nu_mech nu2) eqn:EM; try apply FIN. exfalso. cbn [effOf] in HE. apply HE. destruct NR as (_ & NR & _). congruence.
Qed.

(** ** One public call *)
Definition monoReady (m : model (N:=N)) (s s' : state) : Prop :=
  sm_psd m = P_MONO -> s' = s \/ length (wts s) = 1 /\ length (absc s) = 1 /\ exists M0 l, sootVar s = M0 :: l /\ nltb (nZ 0) M0 = true.
Lemma call_pair g eig (m m' : model) s s' : okModel m -> preModel m m' -> sameInputs s s' -> monoReady m s s' ->
  both (setSourceTerms (N:=N) g eig m s) (setSourceTerms g eig m' s') (fun x x' => fst (fst x) = fst (fst x') /\ agreed m s (snd (fst x), snd x) (snd (fst x'), snd x')).
Proof.
  intros (CM & HF) PM SI HM. pose proof SI as (EI & L1 & L2). pose proof PM as (EP & _). unfold monoReady in HM. unfold setSourceTerms. rewrite <- EP. destruct (sm_psd m) eqn:E; try contradiction.
  - pose proof HF as HP. assert (K : both (setSourceTermsMONO m s) (setSourceTermsMONO m' s') (agreed m s)).
    { rewrite EI. apply mono_pair; auto; [now rewrite HP|]. intros M0 M1 EM. destruct (HM eq_refl) as [-> |(W1 & A1 & M & l & ES & HG)]; [now rewrite <- wa_self|].
      rewrite ES in EM. injection EM as ->. unfold monoSetWA. rewrite HG. cbn [wts absc with_wa]. rewrite W1 in L1. rewrite A1 in L2.
      destruct (wts s) as [|x [|]], (absc s) as [|y [|]], (wts s') as [|x' [|]], (absc s') as [|y' [|]]; try discriminate. reflexivity. }
    eapply both_seq; [exact K|]. intros (x & y) (x' & y') _ _ H. cbn [both fst snd]. auto.
  - rewrite EI. eapply both_seq; [apply logn_pair; auto; [congruence|now rewrite HF]|]. intros (x & y) (x' & y') _ _ H. cbn [both fst snd]. auto.
  - rewrite EI. eapply both_seq; [apply qmom_pair; auto; [congruence|now rewrite HF]|]. intros (x & y) (x' & y') _ _ H. cbn [both fst snd]. auto.
  - destruct HF as (d & Hd & LN). rewrite EI. eapply both_seq; [eapply momic_pair; eauto; congruence|]. intros (x & y) (x' & y') _ _ H. cbn [both fst snd]. auto.
  - destruct HF as (F & b & Hd). rewrite EI. eapply sect_pair; eauto; congruence.
Qed.
Lemma call_moved g eig (m : model) s g1 m1 s1 : okModel m -> setSourceTerms g eig m s = Ok (g1, m1, s1) -> preModel m m1 /\ moved s s1.
Proof.
  intros HF H. pose proof (call_pair g eig m m s s HF (preModel_refl m) (same_refl s) ltac:(intros _; auto)) as K. unfold both in K. rewrite H in K. destruct K as (_ & _ & _ & _ & _ & _ & A & B). auto.
Qed.
Lemma sized_moved n nt s s' : sizedState (N:=N) n nt s -> moved s s' -> sizedState n nt s' /\ rest s' = rest s.
Proof.
  intros (A & B & C & D & E & F & G & H) (c & w & a & Q & L1 & L2). subst s'. unfold sizedState, fitState, rest. cbn [with_wa with_cMin State.yGas State.yPah State.st_nsoot State.sootVar State.st_Ntar State.tarVar State.sootScales State.yBio State.mtar State.ytar State.OC State.HC State.V State.wts State.absc]. rewrite L1, L2. auto 10.
Qed.
Lemma hist_pah n nt l : Forall (sizedAction n nt) l -> forall g (m : model) s g1 m1 s1, okModel m -> sizedState n nt s ->
  runActions (g, m, s) l = Ok (g1, m1, s1) -> preModel m m1 /\ sizedState n nt s1 /\ rest s1 = rest s.
Proof.
  intros HL. unfold runActions. induction HL as [|a l HA HL IH]; intros g m s g1 m1 s1 HF SS H; cbn [foldM] in H.
  { injection H as <- <- <-. auto using preModel_refl. }
  apply bind_ok in H. destruct H as (((g2 & m2) & s2) & H1 & H). destruct a as [T_ P_ rho mu yg yp sv ns tv nT c|eig]; cbn [doAction] in H1.
  - pose proof (set_safe 11 n nt s T_ P_ rho mu yg yp sv ns tv nT c SS HA) as K. pose proof (set_rest s T_ P_ rho mu yg yp sv ns tv nT c) as Q.
    destruct (setState s T_ P_ rho mu yg yp sv ns tv nT c) as [r|e r|]; [| |discriminate H1]; injection H1 as <- <- <-; destruct (IH _ _ _ _ _ _ HF K H) as (X & Y & Z); rewrite Z; auto.
  - destruct (call_moved _ _ _ _ _ _ _ HF H1) as (SM & SI). destruct (sized_moved n nt s s2 SS SI) as (SS2 & RR).
    destruct (IH g2 m2 s2 g1 m1 s1) as (X & Y & Z); auto; [eapply ok_pre; eauto|].
    split; [eapply preModel_trans; eauto|]. rewrite Z. auto.
Qed.
Lemma build_ok newed p n nu gr ox co nt ta F k (m : model) soot : build (N:=N) newed p n nu gr ox co nt ta F k = Ok m -> nu_class nu = nu_mech nu -> comparable p soot -> okModel m /\ sm_psd m = p.
Proof.
  intros EB EN HC. destruct (build_facts _ _ _ _ _ _ _ _ _ _ _ _ EB) as (E1 & _ & E3 & ED). split; [|exact E1].
  assert (E2 : sm_nucl m = nu) by (unfold build in EB; rewrite ED in EB; cbn [bind] in EB; injection EB as <-; auto).
  split; [now rewrite E2|]. rewrite E1, E3. destruct p; cbn [comparable initPriv] in *; try contradiction; auto.
  - eexists. split; [reflexivity|]. cbn [id_Nmom]. unfold derivedCheck in ED. destruct n; [discriminate ED|lia].
  - eauto.
Qed.
Lemma C75_ n nt newed p nu gr ox co ta F k (m : model) T_ P_ rho mu yg yp sv ns tv nT c s0 l1 l2 ga gb g1 m1 s1 g2 m2 s2 g eig :
  build (N:=N) newed p n nu gr ox co nt ta F k = Ok m -> nu_class nu = nu_mech nu ->
  let a := ASet T_ P_ rho mu yg yp sv ns tv nT c in
  Forall (sizedAction n nt) l1 -> Forall (sizedAction n nt) l2 -> sizedAction n nt a ->
  setState (newState n nt) T_ P_ rho mu yg yp sv ns tv nT c = SetOk s0 -> comparable p (sootVar s0) ->
  runActions (ga, m, newState n nt) (l1 ++ [a]) = Ok (g1, m1, s1) -> runActions (gb, m, newState n nt) (l2 ++ [a]) = Ok (g2, m2, s2) ->
  sameAll (setSourceTerms g eig m1 s1) (setSourceTerms g eig m2 s2).
Proof.
  intros EB EN a F1 F2 SA S0 HC R1 R2. destruct (build_ok _ _ _ _ _ _ _ _ _ _ _ _ _ EB EN HC) as (HF & EP).
  assert (G : forall g0 l ge me se, Forall (sizedAction n nt) l -> runActions (g0, m, newState n nt) (l ++ [a]) = Ok (ge, me, se) -> preModel m me /\ sameInputs s0 se).
  { intros g0 l ge me se HL R. unfold runActions in R. rewrite foldM_app in R. apply bind_ok in R. destruct R as (((gx & mx) & sx) & Rx & R).
    destruct (hist_pah n nt l HL g0 m (newState n nt) gx mx sx HF (new_sized 11 n nt (le_n _)) Rx) as (SM & SS & RR). cbn [foldM a doAction] in R.
    destruct (set_same n nt (newState n nt) sx T_ P_ rho mu yg yp sv ns tv nT c s0 (new_sized 11 n nt (le_n _)) SS (eq_sym RR) SA S0) as (r & Er & SI). rewrite Er in R. cbn [bind] in R. injection R as <- <- <-. auto. }
  destruct (G _ _ _ _ _ F1 R1) as (A1 & B1). destruct (G _ _ _ _ _ F2 R2) as (A2 & B2).
  assert (SM : preModel m1 m2) by (eapply preModel_trans; [apply preModel_sym; exact A1|exact A2]).
  pose proof (set_safe 11 n nt (newState n nt) T_ P_ rho mu yg yp sv ns tv nT c (new_sized 11 n nt (le_n _)) SA) as SS0. rewrite S0 in SS0.
  destruct (sized_same n nt s0 s1 SS0 B1) as ((_ & _ & _ & _ & W1 & W2 & _) & _).
  assert (HMR : monoReady m1 s1 s2).
  { intros X. right. pose proof A1 as (EP1 & _). rewrite <- EP1, EP in X. rewrite X in HC, EB. cbn [comparable] in HC. destruct HC as (M0 & l & ES & HG).
    destruct (build_facts _ _ _ _ _ _ _ _ _ _ _ _ EB) as (_ & _ & _ & ED). assert (n = 2) by (unfold derivedCheck in ED; destruct n as [|[|[|]]]; try discriminate ED; auto). subst n.
    split; [exact W1|]. split; [exact W2|]. exists M0, l. destruct B1 as (-> & _). auto. }
  pose proof (call_pair g eig m1 m2 s1 s2 (ok_pre _ _ A1 HF) SM (inputs_both _ _ _ B1 B2) HMR) as K. unfold both in K. unfold sameAll.
  destruct (setSourceTerms g eig m1 s1) as [((a1 & a2) & a3)| |], (setSourceTerms g eig m2 s2) as [((b1 & b2) & b3)| |]; auto. cbn [fst snd] in K. destruct K as (K0 & K1 & K2 & K3 & K4 & K5 & _). auto 10.
Qed.
End S.
