(** Statements about calls of the quadrature method. *)
From Coq Require Import ZArith List Bool Reals Lra Lia Permutation.
From Verif Require Import Num Defs State Binomial Coag Nucl Growth Oxid Tar SootModel Mono Qmom Calls XR XRLemmas NumLaws SpecBinomial
  SpecChem SpecCoag SpecValid SpecRates SpecGas SpecPah SpecPsd SpecSect SpecQmom CoagProofs StateXR ValidProofs InterpProofs GasProofs RateProofs PsdProofs PahProofs MonoProofs ChemAll SectProofs SectMain QmomProofs QmomRun QmomMain GaussProofs GaussMain.
Import ListNotations.
Local Open Scope R_scope.

Lemma map_Fin_inj l l' : map Fin l = map Fin l' -> l = l'.
Proof. revert l'. induction l as [|a l IH]; intros [|b l'] E; try discriminate; [reflexivity|]. cbn in E. injection E as E1 E2. f_equal; auto. Qed.
Lemma coag_on_k m k : hasAll m k -> coagOn m = true -> mC k <> C_NONE.
Proof. intros (_ & _ & _ & E) H C. unfold coagOn in H. rewrite E, C in H. discriminate. Qed.
Lemma coag_off_k m k : hasAll m k -> mC k <> C_size -> coagOn m = false -> mC k = C_NONE.
Proof. intros (_ & _ & _ & E) S H. unfold coagOn in H. rewrite E in H. cbn in H. destruct (mC k); try discriminate; reflexivity. Qed.

Section Call.
Context (m : model (N:=XR)) (s : state (N:=XR)) (g : gas) (k : mechs) (soot : list R) (p : nat) (eig : eigSolver (N:=XR)) (st : option (@num XR)).
Context (RD : readyQmom m s g k soot p).
Let M0 := el soot 0.
Let M1 := el soot 1.
Lemma r_nn : nonneg soot. Proof. destruct RD as (_ & _ & _ & V & _). exact (v_sootpos _ _ _ V). Qed.
Lemma r_nodes : exists w x, getWtsAbs (N:=XR) eig (map Fin soot) (wts s) (absc s) = Ok (map Fin w, map Fin x) /\
    length w = p /\ length x = p /\ nonneg w /\ nonneg x /\ nodesOf eig soot p w x /\
    (M0 = 0 -> w = repeat 0 p /\ x = repeat 0 p) /\
    (0 < M0 -> exists w1 x1 q, (1 <= q <= p)%nat /\ length w1 = q /\ length x1 = q /\ w = w1 ++ repeat 0 (p - q) /\ x = x1 ++ repeat 0 (p - q) /\
       ((q < p)%nat -> (2 <= p)%nat /\ let '(w2, a2) := wheeler (N:=XR) eig (map Fin soot) p in badValues w2 a2 = true) /\
       ((1 < q)%nat -> wheeler (N:=XR) eig (map Fin soot) q = (map Fin w1, map Fin x1)) /\
       (q = 1%nat -> w1 = [M0] /\ x1 = [M1 / M0])).
Proof.
  pose proof RD as ((_ & _ & P1 & Lw & La) & _ & _ & _ & L & _). exact (nodes_val eig soot p (wts s) (absc s) r_nn L P1 Lw La).
Qed.
Context (HC : mC k = C_NONE \/ (p <= 17)%nat).
Lemma r_small : coagOn m = true -> (p <= 17)%nat.
Proof. intros On. destruct RD as (_ & HM & _). pose proof (coag_on_k m k HM On). tauto. Qed.
(** everything about one call *)
Lemma r_call w x : getWtsAbs (N:=XR) eig (map Fin soot) (wts s) (absc s) = Ok (map Fin w, map Fin x) -> length w = p -> length x = p -> nonneg w -> nonneg x ->
  let o := nucl k g (nodeHits k g w x) in
  exists m' s', setSourceTerms st eig m s = Ok (st, m', s') /\ nodesAre s' w x /\
    soots m' = map (fun r => Fin (qmomSource k g M0 M1 w x o r)) (seq 0 (2 * p)) /\
    gasBudget m' k g o (kgrow k g M0 M1 * areaCoef * fracMoment w x (1 - 1 / 3)) (koxid k g M0 M1 * areaCoef * fracMoment w x (1 - 1 / 3)) /\
    pahs m' = pahSourcesOf k g (pahs m) /\ hasAll m' k /\ isQmom m' s' p.
Proof.
  intros EN Lw Lx NW NX o. pose proof RD as (HQ & HM & OM & V & L & RG).
  destruct (q_run m s g k soot p eig w x HQ HM OM V L RG EN Lw Lx NW NX st r_small) as (m' & E & A).
  eexists; eexists; split; [exact E|]. split; [|exact A].
  destruct (outS_rest k g (with_wa s (map Fin w) (map Fin x))) as (X & Y & _). split; [exact X|exact Y].
Qed.
Lemma r_same w x r m' s' : getWtsAbs (N:=XR) eig (map Fin soot) (wts s) (absc s) = Ok (map Fin w, map Fin x) -> length w = p -> length x = p -> nonneg w -> nonneg x ->
  setSourceTerms st eig m s = Ok (r, m', s') -> forall w' x', nodesAre s' w' x' -> w' = w /\ x' = x.
Proof.
  intros EN Lw Lx NW NX E w' x' (A & B). destruct (r_call w x EN Lw Lx NW NX) as (m1 & s1 & E1 & (A1 & B1) & _).
  rewrite E in E1. injection E1 as _ _ <-. split; apply map_Fin_inj; congruence.
Qed.
End Call.

(** ** C33 *)
Lemma C33_l m s g k soot p eig st : readyQmom m s g k soot p -> (mC k = C_NONE \/ (p <= 17)%nat) ->
  exists m' s' w x, setSourceTerms st eig m s = Ok (st, m', s') /\ nodesAre s' w x /\ length w = p /\ length x = p /\ nonneg w /\ nonneg x /\
    (el soot 0 = 0 -> w = repeat 0 p /\ x = repeat 0 p).
Proof.
  intros RD HC. destruct (r_nodes m s g k soot p eig RD) as (w & x & EN & Lw & Lx & NW & NX & _ & Z & _).
  destruct (r_call m s g k soot p eig st RD HC w x EN Lw Lx NW NX) as (m' & s' & E & ND & _).
  exists m', s', w, x. do 6 (split; [assumption|]). exact Z.
Qed.

(** ** C35 *)
Lemma C35_l m s g k soot p eig st r m' s' w x : readyQmom m s g k soot p -> setSourceTerms st eig m s = Ok (r, m', s') -> nodesAre s' w x ->
  r = st /\ soots m' = map (fun r => Fin (qmomSource k g (el soot 0) (el soot 1) w x (nucl k g (nodeHits k g w x)) r)) (seq 0 (2 * p)).
Proof.
  intros RD E ND. destruct (r_nodes m s g k soot p eig RD) as (w1 & x1 & EN & Lw & Lx & NW & NX & _).
  assert (HC : mC k = C_NONE \/ (p <= 17)%nat).
  { pose proof RD as (HQ & HM & OM & V & L & RG). destruct (coagOn m) eqn:On.
    - right. destruct (Nat.le_gt_cases p 17); [assumption|]. exfalso.
      rewrite (q_throw m s g k soot p eig w1 x1 HQ HM OM V L RG EN Lw Lx NW NX st On) in E by lia. discriminate.
    - left. destruct OM as (_ & _ & _ & _ & OC & _). now apply (coag_off_k m). }
  destruct (r_same m s g k soot p eig st RD HC w1 x1 r m' s' EN Lw Lx NW NX E w x ND) as (-> & ->).
  destruct (r_call m s g k soot p eig st RD HC w1 x1 EN Lw Lx NW NX) as (m2 & s2 & E2 & _ & S2 & _). rewrite E in E2. injection E2 as -> -> _. auto.
Qed.
Lemma C35_throws m s g k soot p eig st : readyQmom m s g k soot p -> mC k <> C_NONE -> (18 <= p)%nat -> setSourceTerms st eig m s = Throw ERunBinomial.
Proof.
  intros RD NC H. destruct (r_nodes m s g k soot p eig RD) as (w1 & x1 & EN & Lw & Lx & NW & NX & _). pose proof RD as (HQ & HM & OM & V & L & RG).
  apply (q_throw m s g k soot p eig w1 x1 HQ HM OM V L RG EN Lw Lx NW NX); auto.
  destruct (coagOn m) eqn:On; [reflexivity|]. exfalso. destruct OM as (_ & _ & _ & _ & OC & _). apply NC. now apply (coag_off_k m).
Qed.
Lemma smol_1 k g w x : smoluchowski k g w x 1 = 0.
Proof. unfold smoluchowski. rewrite Sum_0; [ring|]. intros i _. apply Sum_0. intros j _. ring. Qed.
Lemma smol_0 k g w x : smoluchowski k g w x 0 = - (1 / 2 * Sum (length w) (fun i => Sum (length w) (fun j => kernel k g (el x i) (el x j) * el w i * el w j))).
Proof.
  unfold smoluchowski. rewrite (Ropp_mult_distr_r (1 / 2)). f_equal. rewrite <- Sum_opp. apply Sum_ext. intros i _. rewrite <- Sum_opp. apply Sum_ext. intros j _. cbn [pow]. ring.
Qed.
Lemma el_nn l i : nonneg l -> 0 <= el l i.
Proof. intros H. unfold el. destruct (Nat.lt_ge_cases i (length l)); [apply H; now apply nth_In|rewrite nth_overflow by auto; lra]. Qed.
Lemma smol_0_neg s g k soot w x : valid s g soot -> mC k <> C_size -> 0 < mF k -> nonneg w -> smoluchowski k g w x 0 <= 0.
Proof.
  intros V OC OF NW. rewrite smol_0. assert (0 <= Sum (length w) (fun i => Sum (length w) (fun j => kernel k g (el x i) (el x j) * el w i * el w j))); [|lra].
  apply Sum_nneg. intros i _. apply Sum_nneg. intros j _. repeat apply Rmult_le_pos; try (now apply el_nn). eapply kernel_nneg; eauto.
Qed.
Lemma cross_nn a b r : 0 <= a -> 0 <= b -> (2 <= r)%nat -> 0 <= (a + b) ^ r - a ^ r - b ^ r.
Proof.
  intros Ha Hb Hr. assert (E : forall q, a ^ S q + b ^ S q <= (a + b) ^ S q).
  { induction q as [|q IH]; [cbn; lra|]. change ((a + b) ^ S (S q)) with ((a + b) * (a + b) ^ S q). change (a ^ S (S q)) with (a * a ^ S q). change (b ^ S (S q)) with (b * b ^ S q).
    pose proof (pow_le a (S q) Ha). pose proof (pow_le b (S q) Hb). nra. }
  destruct r as [|r]; [lia|]. specialize (E r). lra.
Qed.
Lemma smol_up s g k soot w x r : valid s g soot -> mC k <> C_size -> 0 < mF k -> nonneg w -> nonneg x -> (2 <= r)%nat -> 0 <= smoluchowski k g w x r.
Proof.
  intros V OC OF NW NX Hr. unfold smoluchowski. apply Rmult_le_pos; [lra|]. apply Sum_nneg. intros i _. apply Sum_nneg. intros j _.
  apply Rmult_le_pos; [|apply cross_nn; auto using el_nn]. repeat apply Rmult_le_pos; try (now apply el_nn). eapply kernel_nneg; eauto.
Qed.

(** ** C34 *)
Lemma nodeMoment_pad w x q r : length x = length w -> nodeMoment (w ++ repeat 0 q) (x ++ repeat 0 q) r = nodeMoment w x r.
Proof.
  intros L. unfold nodeMoment. rewrite app_length, repeat_length. induction q as [|q IH].
  - rewrite Nat.add_0_r. cbn [repeat]. now rewrite !app_nil_r.
  - rewrite Nat.add_succ_r, Sum_S. rewrite (Sum_ext (length w + q) _ (fun i => el (w ++ repeat 0 q) i * el (x ++ repeat 0 q) i ^ r)).
    + rewrite IH. unfold el at 3. rewrite app_nth2 by lia. replace (length w + q - length w)%nat with q by lia.
      rewrite nth_repeat. ring.
    + intros i Hi. assert (E : forall (l : list R), length l = length w -> el (l ++ repeat 0 (S q)) i = el (l ++ repeat 0 q) i).
      { intros l Hl. unfold el. destruct (Nat.lt_ge_cases i (length l)); [now rewrite !app_nth1|]. rewrite !app_nth2 by auto. now rewrite !nth_repeat. }
      rewrite !E by auto. reflexivity.
Qed.
Lemma wheeler_one w x (M0 M1 : R) r : w = [M0] -> x = [M1 / M0] -> 0 < M0 -> (r < 2)%nat -> nodeMoment w x r = if Nat.eqb r 0 then M0 else M1.
Proof.
  intros -> -> P Hr. unfold nodeMoment. cbn [length]. rewrite Sum_S. unfold Sum, sumR, el. cbn [seq map fold_right nth]. destruct r as [|[|r]]; [cbn; ring|cbn; field; lra|lia].
Qed.
(** nodes kept reproduce as many moments *)
Lemma C34_kept_l m s g k soot p eig st r m' s' w x : readyQmom m s g k soot p -> setSourceTerms st eig m s = Ok (r, m', s') -> nodesAre s' w x -> 0 < el soot 0 ->
  exists q w1 x1, (1 <= q <= p)%nat /\ length w1 = q /\ length x1 = q /\ w = w1 ++ repeat 0 (p - q) /\ x = x1 ++ repeat 0 (p - q) /\
    ((q = 1%nat \/ honest eig q /\ positiveForm q (el soot)) -> forall i, (i < 2 * q)%nat -> nodeMoment w x i = el soot i).
Proof.
  intros RD E ND P. destruct (r_nodes m s g k soot p eig RD) as (w0 & x0 & EN & Lw & Lx & NW & NX & _ & _ & K).
  destruct (C35_l m s g k soot p eig st r m' s' w x RD E ND) as (-> & _).
  pose proof RD as (HQ & HM & OM & V & L & RG).
  assert (EQ : w = w0 /\ x = x0).
  { pose proof E as E0. unfold setSourceTerms in E0. destruct HQ as (Hp & _). rewrite Hp in E0. unfold setSourceTermsQMOM in E0.
    destruct (coagOn m) eqn:On; [destruct (Nat.le_gt_cases p 17) as [HL|HL]|].
    - apply (r_same m s g k soot p eig st RD (or_intror HL) w0 x0 st m' s' EN Lw Lx NW NX E). exact ND.
    - exfalso. rewrite (q_throw m s g k soot p eig w0 x0) in E; auto; try lia; [discriminate|]. split; [exact Hp|]. destruct RD as ((_ & B) & _). exact B.
    - apply (r_same m s g k soot p eig st RD (or_introl (coag_off_k m k HM ltac:(destruct OM as (_ & _ & _ & _ & OC & _); exact OC) On)) w0 x0 st m' s' EN Lw Lx NW NX E). exact ND. }
  destruct EQ as (-> & ->). destruct (K P) as (w1 & x1 & q & Hq & L1 & L2 & -> & -> & _ & K1 & K2).
  exists q, w1, x1. do 5 (split; [assumption || reflexivity|]). intros H i Hi. rewrite nodeMoment_pad by congruence.
  destruct (Nat.eq_dec q 1) as [->|N1].
  - destruct (K2 eq_refl) as (A & B). rewrite (wheeler_one w1 x1 (el soot 0) (el soot 1) i A B P ltac:(lia)). destruct i as [|[|i]]; [reflexivity|reflexivity|lia].
  - destruct H as [->|(HH & PF)]; [lia|]. destruct (wheeler_gauss eig soot q ltac:(lia) (v_sootpos _ _ _ V) ltac:(lia) PF HH) as (w2 & x2 & W & _ & _ & _ & G).
    rewrite (K1 ltac:(lia)) in W. assert (A1 : map Fin w1 = map Fin w2) by congruence. assert (A2 : map Fin x1 = map Fin x2) by congruence. apply map_Fin_inj in A1. apply map_Fin_inj in A2. subst w2 x2. symmetry. now apply G.
Qed.
Lemma realizable_pos p soot : (1 <= p)%nat -> realizable p soot -> 0 < el soot 0 /\ 0 < el soot 1.
Proof.
  intros Hp (A & B).
  assert (F : forall h, positiveForm p h -> 0 < h 0%nat).
  { intros h HP. specialize (HP (1 :: repeat 0 (p - 1))). cbn [length] in HP. rewrite repeat_length in HP. specialize (HP ltac:(lia)).
    assert (Z : forall i, (1 <= i)%nat -> el (1 :: repeat 0 (p - 1)) i = 0).
    { intros i Hi. destruct i as [|i]; [lia|]. unfold el. cbn [nth]. apply nth_repeat. }
    rewrite (Sum_one p 0) in HP; [|lia|].
    - rewrite (Sum_one p 0) in HP; [|lia|].
      + unfold el in HP. cbn [nth] in HP. cbn [Nat.add] in HP. assert (0 < 1 * 1 * h 0%nat); [|lra]. apply HP. exists 1. split; [now left|lra].
      + intros j _ Nj. rewrite (Z j) by lia. ring.
    - intros i _ Ni. apply Sum_0. intros j _. rewrite (Z i) by lia. ring. }
  split; [exact (F _ A)|exact (F _ B)].
Qed.
Lemma nodes_distinct n h (u x : list R) : length u = n -> length x = n -> positiveForm n h -> (forall r, (r < 2 * n - 1)%nat -> h r = Sum n (fun l => el u l * el x l ^ r)) -> NoDup x.
Proof.
  intros Lu Lx HP H. apply (NoDup_nth x 0). intros i j Hi Hj E. destruct (Nat.eq_dec i j) as [|Ne]; [assumption|]. exfalso. rewrite Lx in *.
  set (rs := firstn i x ++ skipn (S i) x).
  assert (LR : length (roots rs) = n) by (rewrite roots_len; unfold rs; rewrite app_length, firstn_length, skipn_length; lia).
  specialize (HP (roots rs) LR). rewrite (form_nodes n n (roots rs) h (el u) (el x) LR H) in HP.
  assert (Z : forall q, (q < n)%nat -> ev (roots rs) (el x q) = 0).
  { intros q Hq. apply roots_zero. unfold rs. apply in_or_app.
    assert (IN : forall q, (q < n)%nat -> q <> i -> In (el x q) (firstn i x) \/ In (el x q) (skipn (S i) x)).
    { clear q Hq. intros q Hq Nq. destruct (Nat.lt_ge_cases q i).
      - left. unfold el. rewrite <- (firstn_skipn i x), app_nth1 by (rewrite firstn_length; lia). rewrite firstn_app, firstn_firstn. rewrite firstn_length. replace (Nat.min i i) with i by lia.
        apply in_or_app. left. apply nth_In. rewrite firstn_length. lia.
      - right. unfold el. rewrite <- (firstn_skipn (S i) x) at 1. rewrite app_nth2 by (rewrite firstn_length; lia). apply nth_In. rewrite firstn_length, skipn_length. lia. }
    destruct (Nat.eq_dec q i) as [->|]; [|now apply IN]. unfold el at 1 2. rewrite E. apply IN; auto. }
  rewrite Sum_0 in HP by (intros q Hq; rewrite Z by auto; ring).
  assert (0 < 0); [|lra]. apply HP. exists 1. split; [|lra]. rewrite <- (roots_last rs). apply last_in. intros Q. rewrite Q in LR. cbn in LR. lia.
Qed.

Lemma gauss_nodes eig soot p w x : (1 <= p)%nat -> nonneg soot -> length soot = (2 * p)%nat -> honest eig p -> realizable p soot ->
  (0 < el soot 0 -> exists w1 x1 q, (1 <= q <= p)%nat /\ length w1 = q /\ length x1 = q /\ w = w1 ++ repeat 0 (p - q) /\ x = x1 ++ repeat 0 (p - q) /\
       ((q < p)%nat -> (2 <= p)%nat /\ let '(w2, a2) := wheeler (N:=XR) eig (map Fin soot) p in badValues w2 a2 = true) /\
       ((1 < q)%nat -> wheeler (N:=XR) eig (map Fin soot) q = (map Fin w1, map Fin x1)) /\
       (q = 1%nat -> w1 = [el soot 0] /\ x1 = [el soot 1 / el soot 0])) ->
  length w = p /\ population w x /\ forall r, (r < 2 * p)%nat -> nodeMoment w x r = el soot r.
Proof.
  intros Hp NN L HH RZ K. destruct (realizable_pos p soot Hp RZ) as (P0 & P1). destruct (K P0) as (w1 & x1 & q & Hq & L1 & L2 & E1 & E2 & K0 & K1 & K2).
  assert (GN : forall w x, length w = p -> length x = p -> nonneg w -> (forall r, (r < 2 * p)%nat -> el soot r = nodeMoment w x r) -> population w x).
  { clear - RZ. intros w x Lw Lx NW G. destruct RZ as (RA & RB).
    assert (GA : forall r, (r < 2 * p - 1)%nat -> el soot r = Sum p (fun l => el w l * el x l ^ r)).
    { intros r Hr. rewrite G by lia. unfold nodeMoment. now rewrite Lw. }
    assert (GB : forall r, (r < 2 * p - 1)%nat -> el soot (S r) = Sum p (fun l => el (map (fun i => el w i * el x i) (seq 0 p)) l * el x l ^ r)).
    { intros r Hr. rewrite G by lia. unfold nodeMoment. rewrite Lw. apply Sum_ext. intros l Hl. rewrite el_seq by auto. cbn [pow]. ring. }
    pose proof (weights_pos p (el soot) w x Lw Lx RA GA) as PW.
    assert (PX : forall l, (l < p)%nat -> 0 < el x l).
    { intros l Hl. pose proof (weights_pos p _ (map (fun i => el w i * el x i) (seq 0 p)) x ltac:(now rewrite map_length, seq_length) Lx RB GB l Hl) as Q. rewrite el_seq in Q by auto.
      pose proof (PW l Hl). destruct (Rlt_dec 0 (el x l)); [assumption|]. exfalso. assert (el w l * el x l <= 0) by nra. lra. }
    split; [congruence|]. split; [|split].
    - intros y Hy. apply (In_nth _ _ 0) in Hy. destruct Hy as (l & Hl & <-). apply PW. lia.
    - intros y Hy. apply (In_nth _ _ 0) in Hy. destruct Hy as (l & Hl & <-). apply PX. lia.
    - exact (nodes_distinct p (el soot) w x Lw Lx RA GA). }
  destruct (Nat.eq_dec p 1) as [->|Np].
  - assert (EQ1 : q = 1%nat) by lia. rewrite EQ1 in *. destruct (K2 eq_refl) as (A & B). cbn [Nat.sub repeat] in E1, E2. rewrite app_nil_r in E1, E2. subst w x.
    assert (G : forall r, (r < 2 * 1)%nat -> nodeMoment w1 x1 r = el soot r).
    { intros r Hr. rewrite (wheeler_one w1 x1 (el soot 0) (el soot 1) r A B P0 ltac:(lia)). destruct r as [|[|r]]; [reflexivity|reflexivity|lia]. }
    split; [exact L1|]. split; [|exact G]. apply GN; auto; [|intros; symmetry; now apply G]. intros y Hy. rewrite A in Hy. destruct Hy as [<-|[]]. lra.
  - destruct (wheeler_gauss eig soot p Hp NN ltac:(lia) (proj1 RZ) HH) as (w2 & x2 & W & Lw2 & Lx2 & NW2 & G).
    pose proof (GN w2 x2 Lw2 Lx2 NW2 G) as PO. assert (EQ1 : q = p).
    { destruct (Nat.lt_ge_cases q p) as [Q|Q]; [|lia]. exfalso. destruct (K0 Q) as (_ & BAD). rewrite W in BAD. destruct PO as (_ & PW & PX & _).
      assert (NB : forall l, (forall y, In y l -> 0 < y) -> existsb (badValue (N:=XR)) (map Fin l) = false).
      { intros l Hl. destruct (existsb (badValue (N:=XR)) (map Fin l)) eqn:EB; [|reflexivity]. apply existsb_exists in EB. destruct EB as (v & Hv & BV). apply in_map_iff in Hv. destruct Hv as (y & <- & Hy).
        specialize (Hl y Hy). unfold badValue in BV. change (@nfin XR (Fin y)) with true in BV. change (@nltb XR (Fin y) (nZ 0)) with (xltb (Fin y) (Fin 0)) in BV. unfold xltb in BV. destruct (Rlt_dec y 0); [lra|discriminate]. }
      unfold badValues in BAD. rewrite !NB in BAD by assumption. discriminate. }
    rewrite EQ1 in *. rewrite (K1 ltac:(lia)) in W. assert (A1 : map Fin w1 = map Fin w2) by congruence. assert (A2 : map Fin x1 = map Fin x2) by congruence. apply map_Fin_inj in A1. apply map_Fin_inj in A2. subst w2 x2.
    rewrite Nat.sub_diag in E1, E2. cbn [repeat] in E1, E2. rewrite app_nil_r in E1, E2. subst w x. split; [assumption|]. split; [assumption|]. intros; symmetry; now apply G.
Qed.
Lemma C34_l m s g k soot p eig st : readyQmom m s g k soot p -> (mC k = C_NONE \/ (p <= 17)%nat) -> honest eig p -> realizable p soot ->
  exists m' s' w x, setSourceTerms st eig m s = Ok (st, m', s') /\ nodesAre s' w x /\ length w = p /\ population w x /\
    forall r, (r < 2 * p)%nat -> nodeMoment w x r = el soot r.
Proof.
  intros RD HC HH RZ. destruct (r_nodes m s g k soot p eig RD) as (w & x & EN & Lw & Lx & NW & NX & _ & _ & K).
  destruct (r_call m s g k soot p eig st RD HC w x EN Lw Lx NW NX) as (m' & s' & E & ND & _).
  exists m', s', w, x. do 2 (split; [assumption|]). pose proof RD as ((_ & _ & Hp & _) & _ & _ & V & L & _).
  exact (gauss_nodes eig soot p w x Hp (v_sootpos _ _ _ V) L HH RZ K).
Qed.
