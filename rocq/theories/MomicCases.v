(** C38, C40, C57, C58: closure, coagulation sums and condensation of the interpolative model. *)
From Coq Require Import ZArith List Bool Reals Lra Lia.
From Verif Require Import Num Defs State Coag Nucl Growth Oxid Tar SootModel Momic Calls XR XRLemmas NumLaws SpecState SpecChem SpecCoag SpecValid SpecRates SpecGas SpecPah SpecPsd SpecSect SpecQmom SpecBinomial SpecLogn SpecMomic
  CoagProofs StateXR ValidProofs InterpProofs GasProofs RateProofs PsdProofs PahProofs PahMain MonoProofs MonoMain ChemAll SectProofs SectMain QmomRun LognProofs LognMain LognFinal LognCases MomicProofs MomicMain MomicRun MomicFinal.
Import ListNotations.
Local Open Scope R_scope.

(** ** C38 *)
Lemma C38_l M : (3 <= length M)%nat -> allPos M -> exists row, set_diffTable (N:=XR) (length M) (map Fin M) = Ok row /\
  (forall r, momMr (N:=XR) (length M) row (Fin r) = Fin (momentAt M r)) /\
  (forall j, (j < length M)%nat -> momMr (N:=XR) (length M) row (Fin (INR j)) = Fin (el M j)).
Proof.
  intros L P. eexists. split; [now apply table_val|]. split; intros; rewrite momMr_val by auto; [reflexivity|]. now rewrite moment_node.
Qed.
Lemma lognormal_pos n mu v p : 0 < n -> allPos (map (fun j => lognormalMoment n mu v (INR j)) (seq 0 p)).
Proof. intros Hn x Hx. apply in_map_iff in Hx. destruct Hx as (j & <- & _). unfold lognormalMoment. apply Rmult_lt_0_compat; [auto|apply exp_pos]. Qed.
Lemma C38_lognormal_l n mu v p r : 0 < n -> (3 <= p)%nat -> exists row,
  set_diffTable (N:=XR) p (map (fun j => Fin (lognormalMoment n mu v (INR j))) (seq 0 p)) = Ok row /\
  momMr (N:=XR) p row (Fin r) = Fin (lognormalMoment n mu v r).
Proof.
  intros Hn Hp. set (M := map (fun j => lognormalMoment n mu v (INR j)) (seq 0 p)).
  assert (L : length M = p) by (unfold M; now rewrite map_length, seq_length).
  destruct (C38_l M) as (row & E1 & E2 & _); [lia|now apply lognormal_pos|]. exists row. rewrite L in *.
  replace (map (fun j => Fin (lognormalMoment n mu v (INR j))) (seq 0 p)) with (map Fin M) by (unfold M; now rewrite map_map).
  split; [exact E1|]. rewrite E2. f_equal. now apply moment_lognormal.
Qed.
(** below order 0 only the first three moments count *)
Lemma C38_below_l M M' r : (3 <= length M)%nat -> (3 <= length M')%nat -> (forall j, (j < 3)%nat -> el M j = el M' j) -> r < 0 -> momentAt M r = momentAt M' r.
Proof.
  intros L L' H Hr. unfold momentAt, points. destruct (Rle_dec 0 r); [lra|]. f_equal. apply interp_local. intros j Hj. now rewrite H.
Qed.

(** ** sums over a population *)
Lemma mean_pop2 l w v x f g : length v = length w -> (forall z, f z = popMoment w x z) -> (forall z, g z = popMoment v x z) ->
  meanOf l f g = Sum (length w) (fun i => Sum (length w) (fun j => el w i * el v j * kernelOf l (el x i) (el x j))).
Proof.
  intros L Hf Hg. induction l as [|((c, p), q) l IH]; cbn [meanOf fold_right kernelOf].
  - symmetry. apply Sum_0. intros i _. apply Sum_0. intros j _. ring.
  - fold (meanOf l f g). rewrite IH. rewrite Hf, Hg. unfold popMoment. rewrite L. rewrite Rmult_assoc, (Rmult_comm (Sum _ _) (Sum _ _)), <- Sum_scal, <- Sum_scal, <- Sum_add.
    apply Sum_ext. intros i Hi.
    replace (c * (Sum (length w) (fun j => el v j * Rpower (el x j) (sixth q)) * (el w i * Rpower (el x i) (sixth p))))
      with (c * (el w i * Rpower (el x i) (sixth p)) * Sum (length w) (fun j => el v j * Rpower (el x j) (sixth q))) by ring.
    rewrite <- Sum_scal, <- Sum_add. apply Sum_ext. intros j Hj. fold (kernelOf l (el x i) (el x j)). ring.
Qed.
Lemma pop_weighted w x p z : (forall i, (i < length w)%nat -> 0 < el x i) ->
  popMoment w x (z + 6 * Z.of_nat p) = popMoment (map (fun i => el w i * el x i ^ p) (seq 0 (length w))) x z.
Proof.
  intros PX. rewrite pop_shift by auto. unfold popMoment. rewrite map_length, seq_length. apply Sum_ext. intros i Hi. rewrite el_seq by auto. f_equal. f_equal. rewrite <- INR_IZR_INZ. now apply Rpower_pow, PX.
Qed.
Lemma coMean_pop g w x p q : (forall i, (i < length w)%nat -> 0 < el x i) ->
  coMean g (popMoment w x) p q = Sum (length w) (fun i => Sum (length w) (fun j => el w i * el w j * kernelOf (coTerms g) (el x i) (el x j) * (el x i ^ p * el x j ^ q))).
Proof.
  intros PX. unfold coMean. rewrite (mean_pop2 _ (map (fun i => el w i * el x i ^ p) (seq 0 (length w))) (map (fun i => el w i * el x i ^ q) (seq 0 (length w))) x).
  - rewrite map_length, seq_length. apply Sum_ext. intros i Hi. apply Sum_ext. intros j Hj. rewrite !el_seq by auto. ring.
  - now rewrite !map_length.
  - intros z. now apply pop_weighted.
  - intros z. now apply pop_weighted.
Qed.
Lemma sumR_map_add {A} (f h : A -> R) l : SpecRates.sumR (map (fun a => f a + h a) l) = SpecRates.sumR (map f l) + SpecRates.sumR (map h l).
Proof. induction l as [|a l IH]; cbn; [ring|]. unfold SpecRates.sumR in *. cbn in *. rewrite IH. ring. Qed.
Lemma sumR_Sum {A} (F : A -> nat -> R) l n : SpecRates.sumR (map (fun a => Sum n (F a)) l) = Sum n (fun i => SpecRates.sumR (map (fun a => F a i) l)).
Proof.
  induction l as [|a l IH]; [symmetry; apply Sum_0; reflexivity|]. cbn [map]. unfold SpecRates.sumR in *. cbn [fold_right]. rewrite IH, <- Sum_add. reflexivity.
Qed.
Lemma sumR_scal {A} (f : A -> R) c l : SpecRates.sumR (map (fun a => c * f a) l) = c * SpecRates.sumR (map f l).
Proof. induction l as [|a l IH]; cbn; [ring|]. unfold SpecRates.sumR in *. cbn in *. rewrite IH. ring. Qed.
Lemma doc_pop g w x r : (forall i, (i < length w)%nat -> 0 < el x i) ->
  momCoDoc g (popMoment w x) r = 1 / 2 * Sum (length w) (fun i => Sum (length w) (fun j => el w i * el w j * kernelOf (coTerms g) (el x i) (el x j) * ((el x i + el x j) ^ r - el x i ^ r - el x j ^ r))).
Proof.
  intros PX. unfold momCoDoc. destruct r as [|[|r]].
  - rewrite coMean_pop by auto. rewrite (Ropp_mult_distr_l_reverse (1 / 2)), (Ropp_mult_distr_r (1 / 2)), <- Sum_opp. f_equal. apply Sum_ext. intros i Hi. rewrite <- Sum_opp. apply Sum_ext. intros j Hj. cbn [pow]. ring.
  - replace 0 with (1 / 2 * 0) at 1 by ring. f_equal. symmetry. apply Sum_0. intros i Hi. apply Sum_0. intros j Hj. ring.
  - set (R := S (S r)). f_equal.
    rewrite (map_ext _ (fun q => Sum (length w) (fun i => IZR (choose R q) * Sum (length w) (fun j => el w i * el w j * kernelOf (coTerms g) (el x i) (el x j) * (el x i ^ q * el x j ^ (R - q)))))).
    2:{ intros q. rewrite coMean_pop by auto. now rewrite Sum_scal. }
    rewrite sumR_Sum. apply Sum_ext. intros i Hi.
    rewrite (map_ext _ (fun q => Sum (length w) (fun j => el w i * el w j * kernelOf (coTerms g) (el x i) (el x j) * (IZR (choose R q) * el x i ^ q * el x j ^ (R - q))))).
    2:{ intros q. rewrite <- Sum_scal. apply Sum_ext. intros; ring. }
    rewrite sumR_Sum. apply Sum_ext. intros j Hj. rewrite sumR_scal. f_equal. apply inner_sum. unfold R. lia.
Qed.
Lemma doc_smol s g soot k w x r : valid s g soot -> mC k = C_CONTINUUM -> (forall i, (i < length w)%nat -> massCutoff < el x i) ->
  momCoDoc g (popMoment w x) r = smoluchowski k g w x r.
Proof.
  intros V HC PX. assert (P0 : forall i, (i < length w)%nat -> 0 < el x i) by (intros i Hi; specialize (PX i Hi); pose proof cut_pos; lra).
  rewrite doc_pop by auto. unfold smoluchowski. f_equal. apply Sum_ext. intros i Hi. apply Sum_ext. intros j Hj.
  rewrite (co_kernel s g soot) by auto. unfold kernel. rewrite HC. destruct (Rlt_dec massCutoff (el x i)) as [_|E]; [|destruct E; auto]. destruct (Rlt_dec massCutoff (el x j)) as [_|E]; [|destruct E; auto]. ring.
Qed.

(** ** C40 *)
Lemma C40_eq g M r : r = 0%nat \/ r = 1%nat \/ r = 2%nat -> momCo g M r = momCoDoc g M r.
Proof.
  intros [->|[->| ->]]; try reflexivity. unfold momCo, momCoDoc. change (seq 1 (2 - 1)) with [1%nat]. cbn [map]. unfold SpecRates.sumR. cbn [fold_right]. change (2 - 1)%nat with 1%nat. change (IZR (choose 2 1)) with 2. change (INR 2) with (1 + 1). ring.
Qed.
Lemma C40_lt s g soot M r : valid s g soot -> (forall z, 0 < M z) -> (3 <= r)%nat -> momCo g M r < momCoDoc g M r.
Proof.
  intros V FP Hr. unfold momCo, momCoDoc. destruct r as [|[|r]]; [lia|lia|]. set (R := S (S r)) in *.
  pose proof (coMean_pos s g soot M V FP) as CP.
  replace (R - 1)%nat with (S (R - 2)) by (unfold R; lia). rewrite seq_S, map_app. rewrite sumR_app. cbn [map]. unfold SpecRates.sumR at 2. cbn [fold_right].
  replace (1 + (R - 2))%nat with (R - 1)%nat by (unfold R; lia). replace (S (R - 2)) with (R - 1)%nat by (unfold R; lia). replace (R - (R - 1))%nat with 1%nat by (unfold R; lia). rewrite (choose_last 3 ltac:(lia)) by (unfold R; lia).
  assert (0 < SpecRates.sumR (map (fun q => IZR (choose R q) * coMean g M q (R - q)) (seq 1 (R - 2)))).
  { apply (sumR_pos 3 ltac:(lia)); [unfold R; lia|]. intros q Hq. apply Rmult_lt_0_compat; [apply choose_pos; lia|apply CP]. }
  lra.
Qed.

(** ** particles of one size *)
Lemma one_mom n x p z : 0 < n -> 0 < x -> (3 <= p)%nat -> momicMom (oneSize n x p) z = n * Rpower x (sixth z).
Proof.
  intros Hn Hx Hp. unfold momicMom. replace (oneSize n x p) with (map (fun j => lognormalMoment n (ln x) 0 (INR j)) (seq 0 p)).
  - rewrite moment_lognormal by auto. unfold lognormalMoment, Rpower. f_equal. f_equal. unfold Rdiv. ring.
  - unfold oneSize. apply map_ext. intros j. unfold lognormalMoment. f_equal. rewrite <- (Rpower_pow j x) by auto. unfold Rpower. f_equal. unfold Rdiv. ring.
Qed.
Lemma one_pop n x z : popMoment [n] [x] z = n * Rpower x (sixth z).
Proof. unfold popMoment. cbn [length]. rewrite Sum_S. unfold Sum at 1, SpecRates.sumR. cbn [map seq fold_right el nth]. unfold el. cbn [nth]. ring. Qed.
Lemma interp_linear n a b r : (2 <= n)%nat -> interpolate n (fun j => a + b * INR j) r = a + b * r.
Proof.
  intros H. destruct (Nat.le_gt_cases 3 n) as [H3|H3].
  - rewrite (interp_local _ _ (fun j => a + b * INR j + 0 * INR j ^ 2)) by (intros; ring). rewrite interp_quadratic by auto. ring.
  - replace n with 2%nat by lia. unfold interpolate. rewrite !Sum_S. unfold Sum, SpecRates.sumR. cbn [map seq fold_right gbin fdiff]. change (INR 1) with 1. change (INR 0) with 0. field.
Qed.
Lemma two_pow l : Sum (S l) (fun j => IZR (choose l j)) = 2 ^ l.
Proof. replace 2 with (1 + 1) by ring. rewrite binom_thm. apply Sum_ext. intros. rewrite !pow1. ring. Qed.
Lemma one_grid n x p q l : 0 < x -> gridInt (fun z => n * Rpower x (sixth z)) (fun z => n * Rpower x (sixth z)) p q l = 4 * n ^ 2 * Rpower x (INR (p + q) - 1 / 3) * (2 * x) ^ l.
Proof.
  intros Hx. unfold gridInt. rewrite (Sum_ext _ _ (fun j => 4 * n ^ 2 * Rpower x (INR (p + q) - 1 / 3) * x ^ l * IZR (choose l j))).
  - rewrite Sum_scal, two_pow, Rpow_mult_distr. ring.
  - intros j Hj. unfold pairSum. rewrite <- (Rpower_pow l x) by auto.
    assert (E : forall a b, (a + b = 6 * Z.of_nat (p + q + l) - 2)%Z -> Rpower x (sixth a) * Rpower x (sixth b) = Rpower x (INR (p + q) - 1 / 3) * Rpower x (INR l)).
    { intros a b H. rewrite <- !Rpower_plus. f_equal. unfold sixth. replace (IZR a / 6 + IZR b / 6) with (IZR (a + b) / 6) by (rewrite plus_IZR; field). rewrite H, minus_IZR, mult_IZR, <- INR_IZR_INZ, plus_INR. field. }
    pose proof (E (6 * Z.of_nat (p + j) - 3)%Z (6 * Z.of_nat (q + l - j) + 1)%Z ltac:(lia)) as E1. pose proof (E (6 * Z.of_nat (p + j) - 1)%Z (6 * Z.of_nat (q + l - j) - 1)%Z ltac:(lia)) as E2.
    pose proof (E (6 * Z.of_nat (p + j) + 1)%Z (6 * Z.of_nat (q + l - j) - 3)%Z ltac:(lia)) as E3.
    set (A1 := Rpower x (sixth (6 * Z.of_nat (p + j) - 3))) in *. set (A2 := Rpower x (sixth (6 * Z.of_nat (p + j) - 1))) in *. set (A3 := Rpower x (sixth (6 * Z.of_nat (p + j) + 1))) in *.
    set (B1 := Rpower x (sixth (6 * Z.of_nat (q + l - j) - 3))) in *. set (B2 := Rpower x (sixth (6 * Z.of_nat (q + l - j) - 1))) in *. set (B3 := Rpower x (sixth (6 * Z.of_nat (q + l - j) + 1))) in *.
    set (C := Rpower x (INR (p + q) - 1 / 3)) in *. set (D := Rpower x (INR l)) in *.
    replace (n * A1 * (n * B3) + 2 * (n * A2) * (n * B2) + n * A3 * (n * B1)) with (n ^ 2 * (A1 * B3 + 2 * (A2 * B2) + A3 * B1)) by ring. rewrite E1, E2, E3. ring.
Qed.
Lemma one_half n x p q y : 0 < n -> 0 < x -> gridHalf (fun z => n * Rpower x (sixth z)) (fun z => n * Rpower x (sixth z)) p q y = 4 * n ^ 2 * sqrt 2 * Rpower x (INR (p + q) + 1 / 6).
Proof.
  intros Hn Hx. unfold gridHalf. set (c := 4 * n ^ 2 * Rpower x (INR (p + q) - 1 / 3)).
  assert (Pc : 0 < c) by (unfold c; apply Rmult_lt_0_compat; [|apply exp_pos]; apply Rmult_lt_0_compat; [lra|apply pow_lt; auto]).
  rewrite (interp_local _ _ (fun l => ln c + ln (2 * x) * INR l)).
  - rewrite interp_linear by (destruct (Nat.leb y 2); [lia|destruct (Nat.leb y 3); lia]). rewrite exp_plus, exp_ln by auto. unfold c.
    replace (exp (ln (2 * x) * (1 / 2))) with (sqrt 2 * Rpower x (1 / 2)).
    + replace (INR (p + q) + 1 / 6) with (INR (p + q) - 1 / 3 + 1 / 2) by lra. rewrite Rpower_plus. ring.
    + rewrite <- Rpower_sqrt by lra. replace (/ 2) with (1 / 2) by lra. rewrite Rpower_mult_distr by lra. unfold Rpower. f_equal. ring.
  - intros l _. rewrite one_grid by auto. fold c. rewrite ln_mult by (try apply pow_lt; lra). rewrite <- Rpower_pow by lra. unfold Rpower. rewrite ln_exp. ring.
Qed.
Lemma kernel_one s g soot f x : valid s g soot -> 0 < x -> betaFM f (gT g) x x = kFM f g * (4 * sqrt 2 * Rpower x (1 / 6)).
Proof.
  intros V Hx. unfold betaFM, kFM. rewrite diam_split by auto.
  set (A := piC * boltzmann * gT g / 2). assert (PA : 0 <= A) by (pose proof piC_pos; pose proof (v_Tpos _ _ _ V); pose proof boltz_pos; unfold A; apply Rlt_le; pos).
  rewrite sqrt_mult_alt by exact PA. replace (1 / x + 1 / x) with (2 * (1 / x)) by (field; lra). rewrite (sqrt_mult_alt 2) by lra.
  assert (E : sqrt (1 / x) = Rpower x (- (1 / 2))).
  { rewrite <- Rpower_sqrt by (apply Rdiv_lt_0_compat; lra). unfold Rpower. f_equal. unfold Rdiv. rewrite Rmult_1_l, ln_Rinv by auto. field. }
  rewrite E. set (B := Rpower (6 / (piC * sootDensity)) (1 / 3)).
  assert (EB : Rpower (6 / (piC * sootDensity)) (2 / 3) = B * B) by (unfold B; rewrite <- Rpower_plus; f_equal; lra). rewrite EB.
  assert (EX : Rpower x (1 / 6) = Rpower x (- (1 / 2)) * (Rpower x (1 / 3) * Rpower x (1 / 3))) by (rewrite <- !Rpower_plus; f_equal; lra). rewrite EX. ring.
Qed.
Lemma sum_choose r : (2 <= r)%nat -> SpecRates.sumR (map (fun q => IZR (choose r q)) (seq 1 (r - 1))) = 2 ^ r - 2.
Proof.
  intros H. rewrite (map_ext _ (fun k => IZR (choose r k) * 1 ^ k * 1 ^ (r - k))) by (intros; rewrite !pow1; ring). rewrite inner_sum by auto. rewrite !pow1. replace (1 + 1) with 2 by ring. ring.
Qed.
Lemma gridInt_ext f f' p q l : (forall z, f z = f' z) -> gridInt f f p q l = gridInt f' f' p q l.
Proof. intros H. unfold gridInt. apply Sum_ext. intros. unfold pairSum. now rewrite !H. Qed.
Lemma gridHalf_ext f f' p q y : (forall z, f z = f' z) -> gridHalf f f p q y = gridHalf f' f' p q y.
Proof. intros H. unfold gridHalf. f_equal. apply interp_local. intros l _. now rewrite (gridInt_ext f f'). Qed.
(** the free-molecular rates are Smoluchowski's *)
Lemma one_FM s g soot k n x p r : valid s g soot -> mC k = C_FM -> 0 < n -> massCutoff < x -> (3 <= p)%nat ->
  momFM k g (momicMom (oneSize n x p)) r = smoluchowski k g [n] [x] r.
Proof.
  intros V HC Hn Hc Hp. assert (Hx : 0 < x) by (pose proof cut_pos; lra).
  assert (ES : smoluchowski k g [n] [x] r = 1 / 2 * (n * n * betaFM (mF k) (gT g) x x * ((x + x) ^ r - x ^ r - x ^ r))).
  { unfold smoluchowski. cbn [length]. rewrite !Sum_S. unfold Sum, SpecRates.sumR. cbn [map seq fold_right]. unfold el. cbn [nth]. unfold kernel. rewrite HC. destruct (Rlt_dec massCutoff x) as [_|E]; [|destruct E; auto]. ring. }
  rewrite ES, (kernel_one s g soot) by auto. unfold momFM.
  assert (G : forall a b y, gridHalf (momicMom (oneSize n x p)) (momicMom (oneSize n x p)) a b y = 4 * n ^ 2 * sqrt 2 * (x ^ (a + b) * Rpower x (1 / 6))).
  { intros a b y. rewrite (gridHalf_ext _ (fun z => n * Rpower x (sixth z))) by (intros; now apply one_mom). rewrite one_half by auto. f_equal. now rewrite Rpower_plus, Rpower_pow. }
  destruct r as [|[|r]].
  - rewrite G. cbn [pow Nat.add]. field.
  - cbn [pow]. ring.
  - set (R := S (S r)). rewrite (map_ext_in _ (fun q => 4 * n ^ 2 * sqrt 2 * (x ^ R * Rpower x (1 / 6)) * IZR (choose R q))).
    + rewrite sumR_scal, sum_choose by (unfold R; lia). replace (x + x) with (2 * x) by ring. rewrite Rpow_mult_distr. field.
    + intros q Hq. apply in_seq in Hq. rewrite G. replace (q + (R - q))%nat with R by lia. ring.
Qed.
(** the continuum rates: share r/(2^r-2) of Smoluchowski's *)
Lemma one_Co s g soot k n x p r : valid s g soot -> mC k = C_CONTINUUM -> 0 < n -> massCutoff < x -> (3 <= p)%nat -> (2 <= r)%nat ->
  momCo g (momicMom (oneSize n x p)) r * (2 ^ r - 2) = smoluchowski k g [n] [x] r * INR r.
Proof.
  intros V HC Hn Hc Hp Hr. assert (Hx : 0 < x) by (pose proof cut_pos; lra).
  assert (ES : smoluchowski k g [n] [x] r = 1 / 2 * (n * n * kernelOf (coTerms g) x x * ((x + x) ^ r - x ^ r - x ^ r))).
  { rewrite (co_kernel s g soot) by auto. unfold smoluchowski. cbn [length]. rewrite !Sum_S. unfold Sum, SpecRates.sumR. cbn [map seq fold_right]. unfold el. cbn [nth]. unfold kernel. rewrite HC. destruct (Rlt_dec massCutoff x) as [_|E]; [|destruct E; auto]. ring. }
  rewrite ES. unfold momCo. destruct r as [|[|r]]; [lia|lia|]. set (R := S (S r)).
  assert (CM : coMean g (momicMom (oneSize n x p)) (R - 1) 1 = n * n * kernelOf (coTerms g) x x * x ^ R).
  { transitivity (coMean g (popMoment [n] [x]) (R - 1) 1).
    - unfold coMean. unfold meanOf, coTerms. cbn [fold_right tm]. unfold tm. now rewrite !one_mom, !one_pop by auto.
    - rewrite coMean_pop. + cbn [length]. rewrite !Sum_S. unfold Sum, SpecRates.sumR. cbn [map seq fold_right]. unfold el. cbn [nth]. replace R with (S (R - 1)) at 2 by (unfold R; lia). cbn [pow]. ring.
      + intros i Hi. cbn [length] in Hi. replace i with 0%nat by lia. exact Hx. }
  rewrite CM. replace (x + x) with (2 * x) by ring. rewrite Rpow_mult_distr. field.
Qed.

(** ** C58 *)
Lemma C58_pop s g soot y w x r : valid s g soot -> 0 < y -> (forall i, (i < length w)%nat -> 0 < el x i) ->
  condCoDoc g y (popMoment w x) r = Sum (length w) (fun i => el w i * el x i ^ (r - 1) * betaC (slipLinear (gP g) (gRho g) (gMu g)) (gT g) (gMu g) y (el x i)) /\
  condCo g y (popMoment w x) = Sum (length w) (fun i => el w i * betaC (slipLinear (gP g) (gRho g) (gMu g)) (gT g) (gMu g) y (el x i)).
Proof.
  intros V Hy PX. unfold condCoDoc, condCo. split; rewrite hits_population by (auto; lia); apply Sum_ext; intros i Hi; rewrite (co_kernel s g soot) by auto.
  - rewrite <- INR_IZR_INZ, Rpower_pow by auto. reflexivity.
  - rewrite Rpower_O by auto. ring.
Qed.
Lemma C58_one s g soot y n x p r : valid s g soot -> 0 < y -> 0 < n -> 0 < x -> (3 <= p)%nat -> (2 <= r)%nat -> x <> 1 ->
  condCo g y (momicMom (oneSize n x p)) * x ^ (r - 1) = condCoDoc g y (momicMom (oneSize n x p)) r /\
  condCo g y (momicMom (oneSize n x p)) <> condCoDoc g y (momicMom (oneSize n x p)) r.
Proof.
  intros V Hy Hn Hx Hp Hr N1.
  assert (E : forall z, momicMom (oneSize n x p) z = popMoment [n] [x] z) by (intros; rewrite one_pop; now apply one_mom).
  assert (E1 : condCo g y (momicMom (oneSize n x p)) = condCo g y (popMoment [n] [x])) by (unfold condCo, hitsOf, meanOf, coTerms, tm; cbn [fold_right]; now rewrite !E).
  assert (E2 : condCoDoc g y (momicMom (oneSize n x p)) r = condCoDoc g y (popMoment [n] [x]) r) by (unfold condCoDoc, hitsOf, meanOf, coTerms, tm; cbn [fold_right]; now rewrite !E).
  destruct (C58_pop s g soot y [n] [x] r V Hy) as (D & C). { intros i Hi. cbn [length] in Hi. replace i with 0%nat by lia. exact Hx. }
  assert (PB : 0 < condCo g y (momicMom (oneSize n x p))).
  { apply (condCo_pos s g soot _ V (momicMom_pos _)). exact Hy. }
  assert (Q : condCo g y (momicMom (oneSize n x p)) * x ^ (r - 1) = condCoDoc g y (momicMom (oneSize n x p)) r).
  { rewrite E1, E2, D, C. cbn [length]. rewrite !Sum_S. unfold Sum, SpecRates.sumR. cbn [map seq fold_right]. unfold el. cbn [nth]. ring. }
  split; [exact Q|]. intros K. rewrite K in Q at 1. rewrite <- K in Q.
  assert (X1 : x ^ (r - 1) = 1) by (apply (Rmult_eq_reg_l (condCo g y (momicMom (oneSize n x p)))); [rewrite Rmult_1_r; exact Q|lra]).
  destruct (Rtotal_order x 1) as [L|[L|L]]; [|contradiction|].
  - assert (x ^ (r - 1) < 1); [|lra]. rewrite <- Rpower_pow by auto. unfold Rpower. rewrite <- exp_0. apply exp_increasing. assert (0 < INR (r - 1)) by (apply lt_0_INR; lia). assert (ln x < 0) by (rewrite <- ln_1; apply ln_increasing; lra). nra.
  - assert (1 < x ^ (r - 1)); [|lra]. rewrite <- Rpower_pow by auto. unfold Rpower. rewrite <- exp_0. apply exp_increasing. assert (0 < INR (r - 1)) by (apply lt_0_INR; lia). assert (0 < ln x) by (rewrite <- ln_1; apply ln_increasing; lra). nra.
Qed.

(** ** whole calls *)
Lemma nth_map_seq {A} (f : nat -> A) n r : (r < n)%nat -> nth_error (map f (seq 0 n)) r = Some (f r).
Proof. intros H. apply map_nth_error. rewrite (nth_error_nth' _ 0%nat) by now rewrite seq_length. now rewrite seq_nth. Qed.
Lemma C40_call_l (m : model (N:=XR)) s g k M st eig r : readyMomic m s g k M -> allPos M -> (isP k = true -> somePah g) -> mC k = C_CONTINUUM ->
  (3 <= r < length M)%nat -> exists m' s' y,
  setSourceTerms st eig m s = Ok (st, m', s') /\ nth_error (soots m') r = Some (Fin y) /\
  let o := nucl k g (momHits k g (dimerMass g) (momicMom M) 1) in
  let kk := kgrow k g (el M 0) (el M 1) - koxid k g (el M 0) (el M 1) in
  y < oJ o * nucMass (oGas o) ^ r + condPart k g (momicMom M) o r + surfPart kk M r + momCoDoc g (momicMom M) r.
Proof.
  intros RD AP HS HC Hr. destruct (momic_run m s g k M st eig RD AP HS) as (m' & E & S & _). exists m', (outS k g s). eexists. split; [exact E|]. split.
  - rewrite S. apply (nth_map_seq (fun r => Fin (momicSource k g M (nucl k g (momHits k g (dimerMass g) (momicMom M) 1)) r))). lia.
  - cbv zeta. unfold momicSource. destruct RD as (_ & _ & _ & _ & _ & V & _).
    assert (MC : momCoag k g (momicMom M) r = momCo g (momicMom M) r). { unfold momCoag. rewrite HC. destruct r as [|[|r]]; reflexivity. }
    rewrite MC. pose proof (C40_lt s g M (momicMom M) r V (momicMom_pos M) ltac:(lia)). lra.
Qed.
Lemma one_pos n x p : 0 < n -> 0 < x -> allPos (oneSize n x p).
Proof. intros Hn Hx y Hy. apply in_map_iff in Hy. destruct Hy as (j & <- & _). apply Rmult_lt_0_compat; [auto|now apply pow_lt]. Qed.
Lemma one_len n x p : length (oneSize n x p) = p. Proof. unfold oneSize. now rewrite map_length, seq_length. Qed.
Lemma one_el n x p j : (j < p)%nat -> el (oneSize n x p) j = n * x ^ j.
Proof. intros H. unfold oneSize. now rewrite el_seq. Qed.
Lemma one_at n x p r : 0 < n -> 0 < x -> (3 <= p)%nat -> momentAt (oneSize n x p) r = n * Rpower x r.
Proof.
  intros Hn Hx Hp. replace (oneSize n x p) with (map (fun j => lognormalMoment n (ln x) 0 (INR j)) (seq 0 p)).
  - rewrite moment_lognormal by auto. unfold lognormalMoment, Rpower. f_equal. f_equal. unfold Rdiv. ring.
  - unfold oneSize. apply map_ext. intros j. unfold lognormalMoment. f_equal. rewrite <- (Rpower_pow j x) by auto. unfold Rpower. f_equal. unfold Rdiv. ring.
Qed.
Lemma C57_call (m : model (N:=XR)) s g k n x p st eig : readyMomic m s g k (oneSize n x p) -> isP k = false -> 0 < n -> massCutoff < x ->
  mC k = C_FM \/ mC k = C_CONTINUUM -> exists m', setSourceTerms st eig m s = Ok (st, m', s) /\
  soots m' = map (fun r => Fin (oneSource k g n x (match mC k with C_FM => 1 | _ => if Nat.leb r 2 then 1 else INR r / (2 ^ r - 2) end) r)) (seq 0 p).
Proof.
  intros RD EP Hn Hc HC. assert (Hx : 0 < x) by (pose proof cut_pos; lra).
  destruct (momic_run m s g k _ st eig RD (one_pos n x p Hn Hx) ltac:(congruence)) as (m' & E & S & _). exists m'. unfold outS in E. rewrite EP in E. split; [exact E|].
  rewrite S, one_len. destruct RD as (_ & _ & _ & _ & _ & V & _ & L). rewrite one_len in L. apply map_ext_in. intros r Hr. apply in_seq in Hr. f_equal.
  unfold momicSource, oneSource, nucl. rewrite EP. cbn [oJ oGas]. rewrite !one_el by lia. replace (n * x ^ 0) with n by (cbn [pow]; ring). replace (n * x ^ 1) with (n * x) by (cbn [pow]; ring).
  unfold condPart, surfPart. rewrite EP.
  assert (EC : momCoag k g (momicMom (oneSize n x p)) r = (match mC k with C_FM => 1 | _ => if Nat.leb r 2 then 1 else INR r / (2 ^ r - 2) end) * smoluchowski k g [n] [x] r).
  { unfold momCoag. destruct HC as [HC|HC]; rewrite HC.
    - destruct r as [|[|r]]; rewrite <- (one_FM s g _ k n x p _ V HC Hn Hc) by lia; try (cbn [momFM]; ring).
    - assert (Q : (2 <= r)%nat -> momCo g (momicMom (oneSize n x p)) r = INR r / (2 ^ r - 2) * smoluchowski k g [n] [x] r).
      { intros H2. pose proof (one_Co s g _ k n x p r V HC Hn Hc ltac:(lia) H2) as Q. assert (2 < 2 ^ r). { destruct r as [|[|r]]; try lia. cbn [pow]. pose proof (pow_R1_Rle 2 r ltac:(lra)). lra. }
        apply (Rmult_eq_reg_r (2 ^ r - 2)); [|lra]. rewrite Q. field. lra. }
      assert (P1 : forall j, (j < length [n])%nat -> massCutoff < el [x] j) by (intros j Hj; cbn [length] in Hj; replace j with 0%nat by lia; exact Hc).
      assert (EX : forall j, momCoDoc g (momicMom (oneSize n x p)) j = momCoDoc g (popMoment [n] [x]) j).
      { intros j. assert (CE : forall a b, coMean g (momicMom (oneSize n x p)) a b = coMean g (popMoment [n] [x]) a b).
        { intros a b. unfold coMean, meanOf, coTerms, tm. cbn [fold_right]. now rewrite !one_mom, !one_pop by (auto; lia). }
        unfold momCoDoc. destruct j as [|[|j]]; [now rewrite CE|reflexivity|]. do 2 f_equal. apply map_ext. intros. now rewrite CE. }
      destruct r as [|[|[|r]]]; cbn [Nat.leb].
      + rewrite Rmult_1_l, <- (doc_smol s g _ k [n] [x] 0 V HC P1), <- EX. reflexivity.
      + rewrite Rmult_1_l, <- (doc_smol s g _ k [n] [x] 1 V HC P1), <- EX. reflexivity.
      + rewrite Rmult_1_l, <- (doc_smol s g _ k [n] [x] 2 V HC P1), <- EX. apply C40_eq. auto.
      + apply Q. lia. }
  rewrite EC. destruct r as [|r]; [cbn [pow INR]; ring|]. rewrite one_at by (auto; lia). ring.
Qed.

(** ** cases *)
Lemma momic_case nm co M : nm = N_LL \/ nm = N_PAH -> co = C_FM \/ co = C_CONTINUUM \/ co = C_HM -> (3 <= length M <= 7)%nat -> (forall y, In y M -> 0 <= y) ->
  exists (m : model (N:=XR)) s, constructEnum P_MOMIC (length M) nm G_LL O_LL co 0 T_NONE (Fin 2) 100 = Ok m /\
    call (newState (length M) 0) (argsOf demoGas M []) = SetOk s /\ readyMomic m s demoGas (mkMechs nm G_LL O_LL co 1) M.
Proof.
  intros Hn Hc HL HP.
  assert (HE : exists m : model (N:=XR), constructEnum (N:=XR) P_MOMIC (length M) nm G_LL O_LL co 0 T_NONE (Fin 2) 100 = Ok m /\ momicArrays m (length M)).
  { destruct HL as (L1 & L2). remember (length M) as q. clear -L1 L2 Hn Hc.
    do 8 (destruct q as [|q]; [try lia; destruct Hn as [->| ->], Hc as [->|[->| ->]]; eexists; (split; [reflexivity|]); (eexists; eexists; eexists; eexists; split; [reflexivity|split; reflexivity])|]). lia. }
  destruct HE as (m & E & MA).
  destruct (demo_any (newState (length M) 0) M []) as (s & C & V & _); try reflexivity; auto. { intros ? []. }
  exists m, s. split; [exact E|]. split; [exact C|]. destruct (built _ _ _ _ _ _ _ _ _ _ _ E) as (H & Hp & _).
  do 3 (split; [assumption|]). split; [|split; [exact Hc|split; [exact V|split; [|exact HL]]]].
  - split; [destruct Hn as [->| ->]; [left; repeat split; discriminate|right; reflexivity]|]. cbn [mN mG mO mC mF]. split; [destruct Hn as [->| ->]; discriminate|]. split; [discriminate|]. split; [discriminate|].
    split; [destruct Hc as [->|[->| ->]]; discriminate|lra].
  - intros [H1|H1]; discriminate.
Qed.
