(** Sections in IEEE arithmetic: whole calls, for C78. *)
From Coq Require Import ZArith List Bool Lia Reals Lra.
From Coq.Floats Require Import SpecFloat.
From Verif Require Import Num Defs State Coag Nucl Growth Oxid Tar SootModel Sect Calls F64 SpecBinomial SpecState SpecFrame SpecPsd SpecIeee SpecRound SpecSections
  StateProofs NumLaws FrameMain RoundProofs IeeeProofs IeeeMain IeeeMono SectionsProofs.
Import ListNotations.

Section Run.
Context (lm : libm) (HS : sane lm).
Notation FN := (F64 lm).

Lemma upd_at (v : list (@num FN)) k x j : at_ (N:=FN) (upd v k x) j = at_ (N:=FN) v j \/ (j = k /\ at_ (N:=FN) (upd v k x) j = x).
Proof.
  unfold at_. revert k j. induction v as [|h t IH]; intros k j; [left; reflexivity|]. destruct k, j; cbn [upd nth]; auto.
  destruct (IH k j) as [E|[-> E]]; auto.
Qed.
Lemma add_keeps (v : list (@num FN)) k x j : nneg (at_ (N:=FN) v j) -> nneg x -> nneg (at_ (N:=FN) (addAt (N:=FN) v k x) j).
Proof. intros A B. unfold addAt. destruct (upd_at v k (nadd (Num:=FN) (at_ (N:=FN) v k) x) j) as [E|[E1 E]]; rewrite E; [exact A|]. subst k. apply add_nn; assumption. Qed.
Lemma sub_keeps (v : list (@num FN)) k x j : nneg (at_ (N:=FN) v j) -> (k = j -> zn x) -> nneg (at_ (N:=FN) (subAt (N:=FN) v k x) j).
Proof. intros A B. unfold subAt. destruct (upd_at v k (nsub (Num:=FN) (at_ (N:=FN) v k) x) j) as [E|[E1 E]]; rewrite E; [exact A|]. subst k. apply sub_zn; auto. Qed.

Section Empty.
Context (s : state (N:=FN)) (HO : okS lm s) (c : coagObj (N:=FN)) (Hc : unsigned (co_FM c)) (b nv : list spec_float) (HL : ladder b) (q : spec_float) (j0 : nat).
Context (HN : forall k, nneg (at_ (N:=FN) nv k)) (HZ : zn (at_ (N:=FN) nv j0)).
Notation ns := (length b).
Notation mb := (at_ (N:=FN) b).
Notation n := (at_ (N:=FN) nv).

Lemma mb_un k : (k < ns)%nat -> unsigned (mb k).
Proof. intros H. destruct (proj1 HL k H) as [D P]. exact (val_un _ D P). Qed.
Lemma gap_un k : (S k < ns)%nat -> unsigned (mb (S k) -. mb k).
Proof. intros H. destruct (proj1 HL k ltac:(lia)) as [D P]. destruct (proj1 HL (S k) H) as [D' P']. pose proof (proj2 HL k H). apply sub_un; [exact D'|exact D|]. unfold binF in * . unfold at_. cbn [num F64 nZ nlit] in * . change (f64lit 0 0) with (S754_zero false). lra. Qed.

Lemma term_nn i j : nneg (coagRate c s (mb i) (mb j) *. n i *. n j).
Proof. apply mul_nn; [apply mul_nn; [apply coag_nn; assumption|apply HN]|apply HN]. Qed.

Lemma gain_keeps term i j t v : nneg term -> (i < ns)%nat -> (j < ns)%nat -> (ns - 1 <= t)%nat \/ (SFleb (binF b t) (binF b i +. binF b j) = true /\ SFleb (binF b i +. binF b j) (binF b (S t)) = true) ->
  nneg (at_ (N:=FN) v j0) -> nneg (at_ (N:=FN) (sectGain (N:=FN) ns mb term i j t v) j0).
Proof.
  intros HT Hi Hj PL HV. unfold sectGain.
  set (t' := if (ns <=? t)%nat then (ns - 1)%nat else t). cbv zeta.
  assert (LT : (t' < ns)%nat). { unfold t'. destruct (Nat.leb_spec ns t); lia. }
  destruct (Nat.eqb_spec t' (ns - 1)) as [E|E].
  - apply add_keeps; [exact HV|]. cbn [nmul nadd ndiv F64 num]. apply div_nn; [|apply mb_un; exact LT]. apply mul_nn; [exact HT|]. apply add_nn; apply un_nn, mb_un; assumption.
  - assert (ET : t' = t) by (unfold t' in *; destruct (Nat.leb_spec ns t); lia). rewrite ET in * . clear t' ET.
    destruct PL as [PL|[L1 L2]]; [lia|]. destruct (proj1 HL t LT) as [D P]. destruct (proj1 HL (S t) ltac:(lia)) as [D' P']. pose proof (proj2 HL t ltac:(lia)) as LL.
    destruct (proj1 HL i Hi) as [Di _]. destruct (proj1 HL j Hj) as [Dj _].
    assert (DS : isDouble (binF b i +. binF b j)). { apply (le_finite (binF b t) _ (binF b (S t)) D D'); [apply add_dbl; [apply Di|apply Dj]|exact L1|exact L2]. }
    apply leb_val in L1; auto. apply leb_val in L2; auto.
    destruct (share (binF b t) (binF b i +. binF b j) (binF b (S t)) D DS D' P LL (conj L1 L2)) as [X1 X2].
    apply add_keeps; [apply add_keeps; [exact HV|]|].
    + cbn [nmul nadd nsub ndiv F64 num]. apply mul_nn; [exact X1|exact HT].
    + cbn [nmul nadd nsub ndiv F64 num]. apply mul_nn; [|exact HT]. change (nZ (N:=FN) 1) with (f64lit 1 0). rewrite one_lit. exact X2.
Qed.

Lemma pair_keeps i j v : (i <= j)%nat -> (j < ns)%nat -> encloses lm b q i j -> nneg (at_ (N:=FN) v j0) -> all (fun v' => nneg (at_ (N:=FN) v' j0)) (sectPair (N:=FN) c s ns mb n q v i j).
Proof.
  intros Hij Hj PL HV. unfold sectPair. cbv zeta.
  set (term := nmul (Num:=FN) (nmul (Num:=FN) (coagRate c s (mb i) (mb j)) (n i)) (n j)). assert (T1 : nneg term) by (apply term_nn).
  assert (T2 : i = j0 \/ j = j0 -> zn term). { intros [->| ->]; unfold term; cbn [nmul F64 num]; [apply zn_mul', zn_mul, HZ|apply zn_mul, HZ]. }
  assert (V1 : nneg (at_ (N:=FN) (if (i <? j)%nat then subAt (N:=FN) (subAt (N:=FN) v i term) j term else subAt (N:=FN) v i term) j0)).
  { destruct (i <? j)%nat; repeat (apply sub_keeps; [|intros; apply T2; auto]); exact HV. }
  set (v1 := if (i <? j)%nat then _ else _) in * . clearbody v1.
  assert (T3 : nneg (if (i =? j)%nat then nmul (Num:=FN) term (nlit (Num:=FN) 5 (-1)) else term)).
  { destruct (i =? j)%nat; [|exact T1]. apply mul_nn; [exact T1|vm_compute; reflexivity]. }
  set (t3 := if (i =? j)%nat then _ else _) in * . clearbody t3. clearbody term.
  destruct (ntrunc (Num:=FN) _) as [t|] eqn:ET; [|intros x E; discriminate E]. apply all_ok.
  apply gain_keeps; [exact T3|lia|exact Hj| |exact V1]. apply PL. exact ET.
Qed.
Lemma fold_keeps {A} (f : A -> nat -> res A) (Q : A -> Prop) l : forall v, Q v -> (forall v i, In i l -> Q v -> all Q (f v i)) -> all Q (foldM f l v).
Proof.
  induction l as [|i l IH]; intros v HV HF; cbn [foldM]; [apply all_ok, HV|].
  apply all_bind with (R := Q); [apply HF; [left; reflexivity|exact HV]|]. intros x Hx. apply IH; [exact Hx|]. intros v' i' Hi. apply HF. right. exact Hi.
Qed.
Lemma coag_keeps : placed lm b q -> all (fun v => nneg (at_ (N:=FN) v j0)) (sectCoag (N:=FN) c s ns mb n q).
Proof.
  intros PL. unfold sectCoag. apply (fold_keeps _ (fun v => nneg (at_ (N:=FN) v j0))).
  - unfold at_, zeros. assert (Z0 : forall k j, nneg (nth j (repeat (nZ (N:=FN) 0) k) (nZ (N:=FN) 0))). { induction k as [|k IH]; intros [|j]; try (exact I); apply IH. } apply Z0.
  - intros v i Hi HV. apply in_seq in Hi. apply (fold_keeps _ (fun v => nneg (at_ (N:=FN) v j0))); [exact HV|]. intros v' j Hj HV'. apply in_seq in Hj. apply pair_keeps; [lia|lia|apply PL; lia|exact HV'].
Qed.

Lemma area_nn' k : (k < ns)%nat -> nneg (sectArea (N:=FN) mb n k).
Proof.
  intros H. unfold sectArea. cbn [nmul ndiv npow F64 num]. apply mul_nn; [|apply HN]. apply mul_nn; [vm_compute; reflexivity|]. apply un_nn. apply un_pow; [exact HS|]. apply div_un; [|vm_compute; reflexivity]. apply mul_un; [vm_compute; reflexivity|apply mb_un; exact H].
Qed.
Lemma area_zn : zn (sectArea (N:=FN) mb n j0).
Proof. unfold sectArea. apply zn_mul, HZ. Qed.

Lemma up_nn (r : spec_float) : nneg r -> (2 <= ns)%nat -> (j0 < ns)%nat ->
  nneg (sectUp (N:=FN) ns (fun k => r *. sectArea (N:=FN) mb n k /. (mb (S k) -. mb k)) (r *. sectArea (N:=FN) mb n (ns - 1) /. mb (ns - 1)%nat) j0).
Proof.
  intros R N2 HJ. unfold sectUp. pose proof area_zn as Z. destruct (Nat.eqb_spec j0 0) as [E|E].
  - cbn [nopp F64 num]. apply zn_opp, zn_div, zn_mul. rewrite <- E. exact Z.
  - assert (K : nneg (r *. sectArea (N:=FN) mb n (j0 - 1) /. (mb (S (j0 - 1)) -. mb (j0 - 1)%nat))).
    { apply div_nn; [apply mul_nn; [exact R|apply area_nn'; lia]|apply gap_un; lia]. }
    destruct (Nat.ltb_spec j0 (ns - 1)) as [L|L].
    + cbn [nsub F64 num]. apply sub_zn; [exact K|]. apply zn_div, zn_mul, Z.
    + cbn [nadd F64 num]. apply add_nn; [exact K|]. assert (EJ : (ns - 1 = j0)%nat) by lia. rewrite EJ. apply zn_nn, zn_div, zn_mul, Z.
Qed.
Lemma down_nn (r : spec_float) : nneg r -> (2 <= ns)%nat -> (j0 < ns)%nat ->
  nneg (sectDown (N:=FN) ns (fun k => r *. sectArea (N:=FN) mb n k /. (mb k -. mb (k - 1)%nat)) (r *. sectArea (N:=FN) mb n 0 /. mb 0%nat) j0).
Proof.
  intros R N2 HJ. unfold sectDown. pose proof area_zn as Z. destruct (Nat.eqb_spec j0 (ns - 1)) as [E|E].
  - cbn [nopp F64 num]. apply zn_opp, zn_div, zn_mul. exact Z.
  - assert (K : nneg (r *. sectArea (N:=FN) mb n (S j0) /. (mb (S j0) -. mb (S j0 - 1)%nat))).
    { replace (S j0 - 1)%nat with j0 by lia. apply div_nn; [apply mul_nn; [exact R|apply area_nn'; lia]|apply gap_un; lia]. }
    destruct (Nat.eqb_spec j0 0) as [L|L].
    + cbn [nsub F64 num]. apply sub_zn; [|rewrite <- L; apply zn_div, zn_mul, Z]. rewrite L in K. exact K.
    + cbn [nsub F64 num]. apply sub_zn; [exact K|]. apply zn_div, zn_mul, Z.
Qed.
End Empty.

Lemma read_all k s : all (fun v => length v = k /\ (forall i, (i < k)%nat -> nth_error (sootVar s) i = Some (at_ (N:=FN) v i))) (readSoot (N:=FN) k s).
Proof.
  unfold readSoot. assert (G : forall a, all (fun v => length v = k /\ forall i, (i < k)%nat -> nth_error (sootVar s) (a + i) = Some (at_ (N:=FN) v i)) (mapM (fun i => vget (sootVar s) i) (seq a k))).
  { induction k as [|k' IH]; intros a; cbn [seq mapM]; [apply all_ok; split; [reflexivity|lia]|].
    apply all_bind with (R := fun x => nth_error (sootVar s) a = Some x). { intros x E. unfold vget in E. destruct (nth_error (sootVar s) a); [|discriminate]. injection E as <-. reflexivity. }
    intros x Ex. apply all_bind with (1 := IH (S a)). intros v [L K]. apply all_ok. split; [cbn [length]; now f_equal|]. intros [|i] Hi; [rewrite Nat.add_0_r; exact Ex|]. rewrite Nat.add_succ_r. apply (K i). lia. }
  exact (G 0%nat).
Qed.

Lemma store_same (m : model (N:=FN)) nu e : nu = sm_nucl m -> let m' := storeNucl m nu e in
  sm_nsoot m' = sm_nsoot m /\ sm_mBins m' = sm_mBins m /\ sm_coag m' = sm_coag m /\ sm_nucl m' = sm_nucl m /\ sm_grow m' = sm_grow m /\ sm_oxid m' = sm_oxid m /\ binFactor m' = binFactor m.
Proof. intros -> m'. unfold m', storeNucl, binFactor. destruct m as [p a1 a2 nu gr ox co ta nw mbs sr pv]. cbn. destruct pv; destruct e as [[|x [|]]|]; cbn; auto 10. Qed.

Lemma sect_all g (m : model (N:=FN)) s j z : okS lm s -> nu_class (sm_nucl m) <> N_PAH -> nu_mech (sm_nucl m) <> N_PAH -> unsigned (co_FM (sm_coag m)) ->
  length (sm_mBins m) = sm_nsoot m -> (2 <= sm_nsoot m)%nat -> ladder (sm_mBins m) -> (co_mech (sm_coag m) = C_NONE \/ placed lm (sm_mBins m) (searchConst lm g (binFactor m))) ->
  (j < sm_nsoot m)%nat -> nth_error (sootVar s) j = Some z -> isZero z ->
  all (fun r => exists x, nth_error (sootSources (N:=FN) (sm_sources (snd (fst r)))) j = Some x /\ nneg x) (setSourceTermsSECT (N:=FN) g m s).
Proof.
  intros HO C1 C2 HF LB N2 HL PL HJ EZ HZ. unfold setSourceTermsSECT, chemRates, runNucl. rewrite !bind_assoc_.
  apply all_bind with (1 := nucl_plain lm HS s HO (sm_nucl m) _ C1). intros [[[jn nu] s'] eff]. cbn [fst snd bind]. intros (Hj & En & Es). rewrite Es. clear Es s'.
  destruct (store_same m nu eff En) as (S1 & S2 & S3 & S4 & S5 & S6 & S7). set (m' := storeNucl m nu eff) in * . clearbody m'. clear En.
  rewrite !bind_assoc_. apply all_bind with (1 := grow_nn lm HS s HO _ _). intros g1 Hg. rewrite !bind_assoc_. apply all_bind with (1 := oxid_nn lm HS s HO _ _). intros o1 Hx. cbn [bind].
  rewrite S1. apply all_bind with (1 := read_all (sm_nsoot m) s). intros nv [LN RN]. rewrite S2. set (b := sm_mBins m) in * .
  assert (HN : forall k, nneg (at_ (N:=FN) nv k)).
  { intros k. destruct (Nat.lt_ge_cases k (sm_nsoot m)) as [L|L]; [|unfold at_; rewrite nth_overflow by lia; exact I]. apply HO. eapply nth_error_In. exact (RN k L). }
  assert (HZ' : zn (at_ (N:=FN) nv j)). { pose proof (RN j HJ) as E. rewrite EZ in E. injection E as <-. destruct HZ as [sg ->]. exact I. }
  unfold isPAH. rewrite S4. assert (NP : match nu_mech (sm_nucl m) with N_PAH => true | _ => false end = false) by (destruct (nu_mech (sm_nucl m)); congruence). rewrite NP.
  destruct (match sm_priv m' with PrivSect F b0 => (F, b0) | _ => (nZ (N:=FN) 0, []) end) as [Fq beta] eqn:EP.
  assert (EF : Fq = binFactor m). { rewrite <- S7. unfold binFactor. destruct (sm_priv m'); injection EP as <- _; reflexivity. }
  rewrite <- LB in * .
  apply all_bind with (R := fun r => nneg (at_ (N:=FN) (snd r) j)).
  { unfold coagOn. rewrite S3. destruct (co_mech (sm_coag m)) eqn:EC; try (apply all_ok; cbn [snd]; unfold at_, zeros;
      assert (Z0 : forall k i, nneg (nth i (repeat (nZ (N:=FN) 0) k) (nZ (N:=FN) 0))) by (induction k as [|k IH]; intros [|i]; try (exact I); apply IH); apply Z0);
    (destruct PL as [PL|PL]; [discriminate PL|]; assert (EQ : ilnFof (N:=FN) g Fq = searchConst lm g (binFactor m)) by (rewrite EF; destruct g; [reflexivity|reflexivity]);
     rewrite EQ; apply all_bind with (1 := coag_keeps s HO (sm_coag m) HF b nv HL _ j HN HZ' PL); intros v Hv; apply all_ok; exact Hv). }
  intros [g' coa]. cbn [snd]. intros Hc. apply all_ok. cbn [fst snd]. unfold finish. cbn [sm_sources with_sources sootSources]. unfold combine5.
  eexists. split; [rewrite nth_error_map, nth_error_nth' with (d := 0%nat) by (rewrite seq_length; exact HJ); cbn [option_map]; rewrite seq_nth by exact HJ; cbn [plus]; reflexivity|].
  repeat (apply add_nn); [| | | |exact Hc].
  - destruct (nuclOn m' && (j =? 0)%nat)%bool; [|exact I]. cbn [nmul ndiv F64 num]. apply div_nn; [|apply (mb_un b HL); exact (Nat.lt_le_trans 0 2 _ (Nat.lt_0_succ 1) N2)]. apply mul_nn; [exact Hj|]. unfold mNucOf. cbn [nmul ndiv F64 num]. apply div_nn; [|vm_compute; reflexivity]. apply mul_nn; [apply un_nn, HO|vm_compute; reflexivity].
  - unfold growOn. destruct (gr_mech (sm_grow m')); try exact I; apply (up_nn b nv HL j HN HZ'); assumption.
  - exact I.
  - unfold oxidOn. destruct (ox_mech (sm_oxid m')); try exact I; apply (down_nn b nv HL j HN HZ'); assumption.
Qed.

Lemma C78_empty_ (m : model (N:=FN)) l g0 s0 g1 m1 s1 (a : args FN) s eig g2 m2 s2 j z :
  constructed m -> sm_psd m = P_SECT -> nu_class (sm_nucl m) <> N_PAH -> nu_mech (sm_nucl m) <> N_PAH -> aboveZero (co_FM (sm_coag m)) -> ladder (sm_mBins m) ->
  runActions (g0, m, s0) l = Ok (g1, m1, s1) -> anyDoubles a -> call s1 a = SetOk s -> setSourceTerms g1 eig m1 s = Ok (g2, m2, s2) ->
  co_mech (sm_coag m) = C_NONE \/ placed lm (sm_mBins m) (searchConst lm g1 (binFactor m)) ->
  (j < sm_nsoot m)%nat -> nth_error (sootVar s) j = Some z -> isZero z ->
  exists x, nth_error (sootSources (sm_sources m2)) j = Some x /\ ~ negative x.
Proof.
  intros C P C1 C2 HF HL RU D CA R PL HJ EZ HZ. pose proof (C60_config_ l g0 m s0 g1 m1 s1 C RU) as K.
  assert (LB : length (sm_mBins m) = sm_nsoot m /\ (2 <= sm_nsoot m)%nat).
  { destruct C as [(p & ns & nu & gr & ox & co & nt & ta & F & c & E)|(p & ns & nu & gr & ox & co & nt & ta & F & c & E)].
    - unfold constructEnum in E. repeat (match type of E with bind ?r _ = _ => destruct r; cbn [bind] in E; try discriminate E end).
      unfold build in E. destruct (derivedCheck _ _ _ _) eqn:DC in E; try discriminate E. cbn [bind] in E. injection E as <-. cbn [sm_psd sm_mBins sm_nsoot] in * . rewrite P in * . cbn [initBins]. unfold set_mBins. rewrite map_length, seq_length. split; [reflexivity|].
      unfold derivedCheck in DC. destruct (Nat.ltb_spec ns 2); [discriminate DC|assumption].
    - unfold constructPtr, build in E. destruct (derivedCheck _ _ _ _) eqn:DC in E; try discriminate E. cbn [bind] in E. injection E as <-. cbn [sm_psd sm_mBins sm_nsoot] in * . rewrite P in * . cbn [initBins]. unfold set_mBins. rewrite map_length, seq_length. split; [reflexivity|].
      unfold derivedCheck in DC. destruct (Nat.ltb_spec ns 2); [discriminate DC|assumption]. }
  destruct LB as [LB N2]. destruct K as (K1 & K2 & _ & _ & _ & K4 & _ & _ & K5 & K6 & K7 & K8 & _).
  unfold setSourceTerms in R. rewrite K1, P in R.
  destruct (sect_all g1 m1 s j z (after_set lm s1 s a CA D)) with (x := (g2, m2, s2)) as (x & E1 & E2); try (rewrite ?K2, ?K4, ?K5, ?K6, ?K7, ?K8; assumption); [rewrite K4; apply gt_un; exact HF|].
  exists x. split; [exact E1|]. apply neg_iff. exact E2.
Qed.
End Run.
