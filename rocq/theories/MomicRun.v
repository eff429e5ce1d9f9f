(** Coagulation, condensation and source terms of the interpolative closure model. *)
From Coq Require Import ZArith List Bool Reals Lra Lia.
From Verif Require Import Num Defs State Coag Nucl Growth Oxid Tar SootModel Momic Calls XR XRLemmas NumLaws SpecChem SpecCoag SpecValid SpecRates SpecGas SpecPah SpecPsd SpecSect SpecQmom SpecBinomial SpecLogn SpecMomic
  CoagProofs StateXR ValidProofs InterpProofs GasProofs RateProofs PsdProofs PahProofs MonoProofs ChemAll SectProofs SectMain QmomRun LognProofs LognMain LognFinal MomicProofs MomicMain Binomial BinomialProofs.
Import ListNotations.
Local Open Scope R_scope.

(** ** tables of moments *)
Lemma fill_val M first cnt old : (3 <= length M)%nat -> (cnt <= length old)%nat ->
  let d := map (fun k => Fin (fdiff k (fun j => log10R (el M j)) 0)) (seq 0 (length M)) in
  exists v, fillFrac (N:=XR) (length M) d first cnt old = Ok v /\ length v = length old /\
    forall i, (i < cnt)%nat -> vget v i = Ok (Fin (momicMom M (first + 2 * Z.of_nat i))).
Proof.
  intros L HL d. unfold fillFrac. destruct (Nat.ltb_spec (@length (@num XR) old) cnt) as [K|K]; [exact (False_ind _ (Nat.lt_irrefl _ (Nat.lt_le_trans _ _ _ K HL)))|].
  eexists. split; [reflexivity|]. split.
  - rewrite app_length, map_length, seq_length, skipn_length. rewrite Nat.add_comm; exact (Nat.sub_add _ _ HL).
  - intros i Hi. unfold vget. rewrite nth_error_app1 by (rewrite map_length, seq_length; auto). rewrite nth_error_map.
    rewrite (nth_error_nth' (seq 0 cnt) 0%nat) by (rewrite seq_length; auto). rewrite seq_nth by auto. cbn [option_map Nat.add].
    f_equal. change (@ndiv XR) with xdiv. change (@nZ XR 6) with (Fin 6). match goal with |- context [@nZ XR ?z] => change (@nZ XR z) with (Fin (IZR z)) end.
    rewrite xdiv_fin by lra. unfold d. rewrite momMr_val by auto. reflexivity.
Qed.
Definition cntP (n : nat) : nat := (3 * n + 1)%nat.
Definition cntQ (n : nat) : nat := (3 * n + 9)%nat.
Lemma cnts n : (3 <= n <= 7)%nat -> vget npMOMIC n = Ok (cntP n) /\ vget nqMOMIC n = Ok (cntQ n).
Proof. intros H. do 8 (destruct n as [|n]; [try lia; split; reflexivity|]). lia. Qed.
Lemma moments_val M d : (3 <= length M <= 7)%nat -> allPos M -> id_Nmom d = length M -> length (id_Mp6 d) = 22%nat -> length (id_Mq6 d) = 30%nat ->
  exists p6 q6, setMoments (N:=XR) npMOMIC nqMOMIC d (map Fin M) =
      Ok (mkInterp (length M) (map (fun k => Fin (fdiff k (fun j => log10R (el M j)) 0)) (seq 0 (length M))) p6 q6 (id_mass d)) /\
    length p6 = 22%nat /\ length q6 = 30%nat /\
    (forall i, (i < cntP (length M))%nat -> vget p6 i = Ok (Fin (momicMom M (2 * Z.of_nat i - 4)))) /\
    (forall i, (0 <= i < Z.of_nat (cntQ (length M)))%Z -> vgetZ q6 i = Ok (Fin (momicMom M (2 * i - 3)))).
Proof.
  intros L P EN LP LQ. unfold setMoments. rewrite EN. pose proof (table_val M P) as T. change (@num XR) with xr in *. rewrite T. cbn [bind].
  destruct (cnts _ L) as (C1 & C2). rewrite C1, C2.
  destruct (fill_val M (-4) (cntP (length M)) (id_Mp6 d)) as (p6 & E1 & L1 & H1); [lia|change (@num XR) with xr in *; rewrite LP; unfold cntP; lia|].
  destruct (fill_val M (-3) (cntQ (length M)) (id_Mq6 d)) as (q6 & E2 & L2 & H2); [lia|change (@num XR) with xr in *; rewrite LQ; unfold cntQ; lia|].
  cbn [bind]. change (@num XR) with xr in *. rewrite E1. cbn [bind]. rewrite E2. cbn [bind]. exists p6, q6. split; [reflexivity|].
  split; [now rewrite L1|]. split; [now rewrite L2|]. split.
  - intros i Hi. rewrite H1 by auto. do 3 f_equal. lia.
  - intros i Hi. unfold vgetZ. destruct (Z.ltb_spec i 0); [lia|]. rewrite H2 by lia. do 3 f_equal. lia.
Qed.

(** ** rates, given the tables *)
Section Rates.
Context (s : state (N:=XR)) (g : gas) (k : mechs) (soot : list R) (n : nat) (p6 q6 : list (@num XR)) (F : Z -> R).
Context (V : valid s g soot) (OF : 0 < mF k) (Hn : (3 <= n <= 7)%nat) (FP : forall z, 0 < F z).
Context (HP : forall i, (i < cntP n)%nat -> vget p6 i = Ok (Fin (F (2 * Z.of_nat i - 4)%Z))).
Context (HQ : forall i, (0 <= i < Z.of_nat (cntQ n))%Z -> vgetZ q6 i = Ok (Fin (F (2 * i - 3)%Z))).
Let HQ' := HQ.
Lemma nlit5 : @nlit XR 5 (-1) = Fin (1 / 2). Proof. rewrite xlitE. f_equal. unfold rlit. cbn. field. Qed.
Lemma nlitm5 : @nlit XR (-5) (-1) = Fin (- (1 / 2)). Proof. rewrite xlitE. f_equal. unfold rlit. cbn. field. Qed.
Lemma gridHalf_pos f h x y p : 0 < gridHalf f h x y p. Proof. apply exp_pos. Qed.

Lemma fm_val r : (r < n)%nat -> r <> 1%nat -> momCoagFM (N:=XR) (Fin (kFM (mF k) g)) q6 r = Ok (Fin (momFM k g F r)).
Proof.
  intros Hr N1. unfold momCoagFM, momFM. destruct r as [|[|r]]; [| lia |].
  - change 0%Z with (Z.of_nat 0). rewrite (f_grid_val q6 (Z.of_nat (cntQ n)) F HQ' FP 0 0 0 eq_refl) by (unfold cntQ; cbn; lia). cbn [bind]. rewrite nlitm5. fin. do 2 f_equal.
  - set (R := S (S r)) in *. change (@nZ XR 0) with (Fin 0). rewrite (foldM_sum (fun q => IZR (choose R q) * gridHalf F F q (R - q) (R - q))).
    + cbn [bind]. rewrite nlit5. fin. do 2 f_equal. ring.
    + intros q b Hq. rewrite binom_val by lia. cbn [bind].
      rewrite (f_grid_val q6 (Z.of_nat (cntQ n)) F HQ' FP q (R - q) (R - q) eq_refl).
      2: { unfold cntQ. destruct (Nat.leb_spec (R - q) 2); [|destruct (Nat.leb_spec (R - q) 3)]; lia. }
      cbn [bind]. fin. reflexivity.
Qed.
Lemma sumR_pos (h : nat -> R) i c : (1 <= c)%nat -> (forall j, (i <= j < i + c)%nat -> 0 < h j) -> 0 < SpecRates.sumR (map h (seq i c)).
Proof.
  revert i. induction c as [|c IH]; intros i Hc H; [lia|]. cbn [seq map SpecRates.sumR fold_right]. pose proof (H i ltac:(lia)). destruct c as [|c]; [cbn; lra|].
  specialize (IH (S i) ltac:(lia) ltac:(intros; apply H; lia)). unfold SpecRates.sumR in IH. lra.
Qed.
Lemma fm_sign r : r <> 1%nat -> if Nat.eqb r 0 then momFM k g F r < 0 else 0 < momFM k g F r.
Proof.
  intros N1. pose proof (kFM_pos s g soot V (mF k) OF) as PK. destruct r as [|[|r]]; [|lia|]; cbn [Nat.eqb momFM].
  - pose proof (gridHalf_pos F F 0 0 0) as G. assert (0 < kFM (mF k) g * gridHalf F F 0 0 0) by pos. lra.
  - set (R := S (S r)). assert (0 < SpecRates.sumR (map (fun q => IZR (choose R q) * gridHalf F F q (R - q) (R - q)) (seq 1 (R - 1)))).
    { apply sumR_pos; [unfold R; lia|]. intros j Hj. apply Rmult_lt_0_compat; [apply choose_pos; lia|apply gridHalf_pos]. }
    pos.
Qed.
Lemma coMean_val p q : coMean g F p q =
  let a z := F (z + 6 * Z.of_nat p)%Z in let b z := F (z + 6 * Z.of_nat q)%Z in
  kC g * (a (-2)%Z * b 2%Z + 2 * a 0%Z * b 0%Z + a 2%Z * b (-2)%Z + kSlip g * (a (-4)%Z * b 2%Z + a (-2)%Z * b 0%Z + a 0%Z * b (-2)%Z + a 2%Z * b (-4)%Z)).
Proof. unfold coMean, meanOf, coTerms, tm. cbn [fold_right]. cbv zeta. ring. Qed.
Lemma coMean_pos p q : 0 < coMean g F p q.
Proof.
  rewrite coMean_val. cbv zeta. pose proof (kC_pos s g soot V). pose proof (kSlip_pos s g soot V).
  pose proof (fun a b => Rmult_lt_0_compat _ _ (FP a) (FP b)) as K.
  set (a z := F (z + 6 * Z.of_nat p)%Z). set (b z := F (z + 6 * Z.of_nat q)%Z).
  assert (A : forall z w, 0 < a z * b w) by (intros; apply K). apply Rmult_lt_0_compat; auto.
  pose proof (A (-2)%Z 2%Z). pose proof (A 0%Z 0%Z). pose proof (A 2%Z (-2)%Z). pose proof (A (-4)%Z 2%Z). pose proof (A (-2)%Z 0%Z). pose proof (A 0%Z (-2)%Z). pose proof (A 2%Z (-4)%Z).
  assert (0 < kSlip g * (a (-4)%Z * b 2%Z + a (-2)%Z * b 0%Z + a 0%Z * b (-2)%Z + a 2%Z * b (-4)%Z)) by (apply Rmult_lt_0_compat; auto; lra). lra.
Qed.
Lemma contTerm_val r q : (1 <= q < r)%nat -> (r < n)%nat ->
  contTerm (N:=XR) (Fin (kSlip g)) p6 r q = Ok (Fin (IZR (choose r q) * (coMean g F q (r - q) / kC g))).
Proof.
  intros Hq Hr. unfold contTerm. rewrite binom_val by lia. cbn [bind]. unfold cntP in HP.
  repeat (rewrite HP by lia; cbn [bind]). change (@nZ XR 2) with (Fin 2). fin. do 2 f_equal. rewrite coMean_val. cbv zeta.
  pose proof (kC_pos s g soot V).
  repeat match goal with |- context [F (2 * Z.of_nat (?u * 3 + ?c) - 4)%Z] => replace (2 * Z.of_nat (u * 3 + c) - 4)%Z with (2 * Z.of_nat c - 4 + 6 * Z.of_nat u)%Z by lia end.
  cbn [Z.of_nat Z.mul Z.sub Pos.of_succ_nat Pos.succ Pos.mul Z.opp Z.add Z.pos_sub Pos.pred_double Z.double Z.succ_double Z.pred_double].
  field. lra.
Qed.
Lemma foldM_last {A} (f : nat -> res A) (h : nat -> A) i c a : (1 <= c)%nat -> (forall j, (i <= j < i + c)%nat -> f j = Ok (h j)) ->
  foldM (fun _ j => f j) (seq i c) a = Ok (h (i + c - 1)%nat).
Proof.
  revert i a. induction c as [|c IH]; intros i a Hc H; [lia|]. cbn [seq foldM]. rewrite H by lia. cbn [bind]. destruct c as [|c].
  - cbn [seq foldM]. do 2 f_equal. lia.
  - rewrite IH by (try lia; intros; apply H; lia). do 2 f_equal. lia.
Qed.
Lemma choose_last r : (1 <= r)%nat -> IZR (choose r (r - 1)) = INR r.
Proof.
  intros H. rewrite INR_IZR_INZ. f_equal. induction r as [|r IH]; [lia|]. replace (S r - 1)%nat with r by lia. destruct r as [|r]; [reflexivity|].
  change (choose (S (S r)) (S r)) with (choose (S r) r + choose (S r) (S r))%Z. specialize (IH ltac:(lia)). replace (S r - 1)%nat with r in IH by lia. rewrite IH, choose_diag. lia.
Qed.
Lemma co_val r : (r < n)%nat -> r <> 1%nat -> momCoagC (N:=XR) (Fin (kC g)) (Fin (kSlip g)) p6 r = Ok (Fin (momCo g F r)).
Proof.
  intros Hr N1. unfold momCoagC, momCo. pose proof (kC_pos s g soot V) as PK. destruct r as [|[|r]]; [|lia|].
  - unfold cntP in HP. repeat (rewrite HP by lia; cbn [bind]). fin. do 2 f_equal. rewrite coMean_val. cbv zeta.
    cbn [Z.of_nat Z.mul Z.sub Pos.of_succ_nat Pos.succ Pos.mul Z.opp Z.add Z.pos_sub Pos.pred_double Z.double Z.succ_double Z.pred_double]. field.
  - set (R := S (S r)) in *. rewrite (foldM_last _ (fun q => Fin (IZR (choose R q) * (coMean g F q (R - q) / kC g)))).
    + cbn [bind]. rewrite nlit5. fin. do 2 f_equal. replace (1 + (R - 1) - 1)%nat with (R - 1)%nat by lia.
      replace (R - (R - 1))%nat with 1%nat by lia. rewrite choose_last by lia. field. lra.
    + lia.
    + intros j Hj. apply contTerm_val; lia.
Qed.
Lemma co_sign r : r <> 1%nat -> if Nat.eqb r 0 then momCo g F r < 0 else 0 < momCo g F r.
Proof.
  intros N1. destruct r as [|[|r]]; [|lia|]; cbn [Nat.eqb momCo].
  - pose proof (coMean_pos 0 0). lra.
  - set (R := S (S r)). pose proof (coMean_pos (R - 1) 1). assert (0 < INR R) by (apply lt_0_INR; unfold R; lia). pos.
Qed.
Lemma hm_nz r : r <> 1%nat -> momFM k g F r + momCo g F r <> 0.
Proof. intros N1. pose proof (fm_sign r N1) as A. pose proof (co_sign r N1) as B. destruct (Nat.eqb r 0); lra. Qed.
Lemma coagRates_val M0 : 0 < M0 -> momentCoag k ->
  momCoagRates (N:=XR) (with_f (mC k) (mF k)) s n p6 q6 (Fin M0) = Ok (map (fun r => Fin (momCoag k g F r)) (seq 0 n)).
Proof.
  intros P0 HC. unfold momCoagRates. change (@nleb XR (Fin M0) (nZ 0)) with (xleb (Fin M0) (Fin 0)). rewrite (xleb_false M0) by auto.
  rewrite (kfm_val s g soot V _ (mF k)) by (destruct (mC k); reflexivity). rewrite (kc_val s g soot V), (kslip_val s g soot V).
  assert (AF : mapM (fun r => if Nat.eqb r 1 then Ok (@nZ XR 0) else momCoagFM (N:=XR) (Fin (kFM (mF k) g)) q6 r) (seq 0 n) = Ok (map (fun r => Fin (momFM k g F r)) (seq 0 n))).
  { apply mapM_ok. intros r Hr. apply in_seq in Hr. destruct (Nat.eqb_spec r 1) as [->|N1]; [reflexivity|]. apply fm_val; lia. }
  assert (AC : mapM (fun r => if Nat.eqb r 1 then Ok (@nZ XR 0) else momCoagC (N:=XR) (Fin (kC g)) (Fin (kSlip g)) p6 r) (seq 0 n) = Ok (map (fun r => Fin (momCo g F r)) (seq 0 n))).
  { apply mapM_ok. intros r Hr. apply in_seq in Hr. destruct (Nat.eqb_spec r 1) as [->|N1]; [reflexivity|]. apply co_val; lia. }
  pose proof (fun r (H : (r < n)%nat) => nth_table (fun r => Fin (momFM k g F r)) n r (Fin 0) H) as NF.
  pose proof (fun r (H : (r < n)%nat) => nth_table (fun r => Fin (momCo g F r)) n r (Fin 0) H) as NC.
  unfold momCoag. destruct HC as [E|[E|E]]; rewrite E; cbn [co_mech with_f set_FM_multiplier newCoag]; rewrite ?AF, ?AC; cbn [bind]; f_equal;
    apply map_ext_in; intros r Hr; apply in_seq in Hr; destruct (Nat.eqb_spec r 1) as [->|N1]; try reflexivity; change (@nZ XR 0) with (Fin 0).
  - transitivity (nth r (map (fun r => Fin (momFM k g F r)) (seq 0 n)) (Fin 0)); [reflexivity|]. rewrite NF by lia. destruct r as [|[|r]]; [reflexivity|lia|reflexivity].
  - transitivity (nth r (map (fun r => Fin (momCo g F r)) (seq 0 n)) (Fin 0)); [reflexivity|]. rewrite NC by lia. destruct r as [|[|r]]; [reflexivity|lia|reflexivity].
  - transitivity (xdiv (xmul (nth r (map (fun r => Fin (momFM k g F r)) (seq 0 n)) (Fin 0)) (nth r (map (fun r => Fin (momCo g F r)) (seq 0 n)) (Fin 0)))
                      (xadd (nth r (map (fun r => Fin (momFM k g F r)) (seq 0 n)) (Fin 0)) (nth r (map (fun r => Fin (momCo g F r)) (seq 0 n)) (Fin 0)))); [reflexivity|].
    rewrite NF, NC by lia. cbn [xmul xadd]. rewrite xdiv_fin by now apply hm_nz. destruct r as [|[|r]]; [reflexivity|lia|reflexivity].
Qed.

(** one dimer against the distribution *)
Context (x : R) (X : 0 < x).
Lemma bracket_val : contBracket (N:=XR) (Fin x) (Fin (kSlip g)) p6 0 = Ok (Fin (condCo g x F / kC g)).
Proof.
  unfold contBracket. cbn [Nat.add]. unfold cntP in HP. repeat (rewrite HP by lia; cbn [bind]). rewrite !massPow_val by auto.
  change (@nZ XR 2) with (Fin 2). fin. do 2 f_equal. unfold condCo, hitsOf, meanOf, coTerms, tm. cbn [fold_right].
  assert (E0 : powers x 0 = 1) by (unfold powers; now apply six_0).
  change (fun p : Z => Rpower x (sixth p)) with (powers x). change (Rpower x (sixth 0)) with (powers x 0). change (Rpower x (sixth 2)) with (powers x 2).
  change (Rpower x (sixth (-2))) with (powers x (-2)). change (Rpower x (sixth (-4))) with (powers x (-4)). rewrite E0.
  cbn [Z.of_nat Z.mul Z.sub Pos.of_succ_nat Pos.succ Pos.mul Z.opp Z.add Z.pos_sub Pos.pred_double Z.double Z.succ_double Z.pred_double].
  pose proof (kC_pos s g soot V). field. lra.
Qed.
Lemma condCo_pos : 0 < condCo g x F.
Proof.
  unfold condCo. apply hits_pos; auto.
  - intros c p q. apply (co_terms_pos s g _ c p q V).
  - intros z. left. apply FP.
  - eexists. eexists. left. reflexivity.
Qed.
Lemma condFM_pos r : 0 < condFM k g x F r.
Proof. unfold condFM. pose proof (kFM_pos s g soot V (mF k) OF). pose proof (gridHalf_pos (powers x) F 0 (r - 1) r). pos. Qed.
Lemma ggrid_val r : (1 <= r < n)%nat -> g_grid (N:=XR) (Fin x) q6 (Z.of_nat r) = Ok (Fin (gridHalf (powers x) F 0 (r - 1) r)).
Proof.
  intros Hr. apply (g_grid_val q6 (Z.of_nat (cntQ n)) F HQ' FP x X r r eq_refl); [lia|].
  unfold cntQ. destruct (Nat.leb_spec r 2); [|destruct (Nat.leb_spec r 3)]; lia.
Qed.
End Rates.
