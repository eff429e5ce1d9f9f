(** Free-molecular collisions of a population. *)
From Coq Require Import ZArith List Bool Reals Lra Lia.
From Verif Require Import Num Defs State Coag Nucl Growth Oxid Tar SootModel Momic Calls XR XRLemmas SpecBinomial SpecGas SpecPah PahProofs MonoProofs MonoMain SpecChem SpecCoag SpecValid SpecRates SpecPsd SpecSect SpecQmom SpecLogn SpecMomic SpecPairs
  CoagProofs StateXR ValidProofs SectProofs SectMain QmomRun LognProofs LognMain LognFinal LognCases MomicProofs MomicMain MomicRun MomicFinal MomicCases.
Import ListNotations.
Local Open Scope R_scope.

Lemma pairs_ext w x h h' : (forall i j, (i < length w)%nat -> (j < length w)%nat -> h (el x i) (el x j) = h' (el x i) (el x j)) -> pairs w x h = pairs w x h'.
Proof. intros H. unfold pairs. apply Sum_ext. intros i Hi. apply Sum_ext. intros j Hj. now rewrite H. Qed.
Lemma pairs_add w x h h' : pairs w x (fun a b => h a b + h' a b) = pairs w x h + pairs w x h'.
Proof. unfold pairs. rewrite <- Sum_add. apply Sum_ext. intros i Hi. rewrite <- Sum_add. apply Sum_ext. intros. ring. Qed.
Lemma pairs_scal w x c h : pairs w x (fun a b => c * h a b) = c * pairs w x h.
Proof. unfold pairs. rewrite <- Sum_scal. apply Sum_ext. intros i Hi. rewrite <- Sum_scal. apply Sum_ext. intros. ring. Qed.
Lemma pairs_Sum w x n (h : nat -> R -> R -> R) : pairs w x (fun a b => Sum n (fun l => h l a b)) = Sum n (fun l => pairs w x (h l)).
Proof.
  induction n as [|n IH]; [unfold Sum at 2, sumR; cbn [map seq fold_right]|rewrite Sum_S, <- IH, <- pairs_add; apply pairs_ext; intros; now rewrite Sum_S].
  unfold pairs. apply Sum_0. intros i _. apply Sum_0. intros j _. unfold Sum, sumR. cbn [map seq fold_right]. ring.
Qed.
Lemma pairs_pos w x h : somePopulation w x -> (forall a b, 0 < a -> 0 < b -> 0 < h a b) -> 0 < pairs w x h.
Proof.
  intros (L & P) H. unfold pairs. apply Sum_pos; [exact L|]. intros i Hi. apply Sum_pos; [exact L|]. intros j Hj. destruct (P i Hi), (P j Hj).
  apply Rmult_lt_0_compat; [now apply Rmult_lt_0_compat|now apply H].
Qed.
(** product of two moments *)
Lemma pop_prod w x a b : popMoment w x a * popMoment w x b = pairs w x (fun u v => Rpower u (sixth a) * Rpower v (sixth b)).
Proof.
  unfold popMoment, pairs. rewrite <- Sum_scalr. apply Sum_ext. intros i Hi. rewrite <- Sum_scal. apply Sum_ext. intros j Hj. ring.
Qed.
Lemma weight_sum a b p q : 0 < a -> 0 < b ->
  Rpower a (sixth (6 * Z.of_nat p - 3)) * Rpower b (sixth (6 * Z.of_nat q + 1)) + 2 * (Rpower a (sixth (6 * Z.of_nat p - 1)) * Rpower b (sixth (6 * Z.of_nat q - 1)))
  + Rpower a (sixth (6 * Z.of_nat p + 1)) * Rpower b (sixth (6 * Z.of_nat q - 3)) = a ^ p * b ^ q * pairWeight a b.
Proof.
  intros Ha Hb. rewrite <- !Rpower_pow by auto. unfold pairWeight.
  assert (E : forall u n z c, IZR z = 6 * c -> Rpower u (sixth (6 * Z.of_nat n + z)) = Rpower u (INR n) * Rpower u c).
  { intros u n z c Hz. rewrite <- Rpower_plus. f_equal. unfold sixth. rewrite plus_IZR, mult_IZR, <- INR_IZR_INZ, Hz. field. }
  assert (E3 : forall u n, Rpower u (sixth (6 * Z.of_nat n - 3)) = Rpower u (INR n) * Rpower u (- (1 / 2))) by (intros; apply (E u n (-3)%Z); lra).
  assert (E1 : forall u n, Rpower u (sixth (6 * Z.of_nat n - 1)) = Rpower u (INR n) * (Rpower u (1 / 3) * Rpower u (- (1 / 2)))) by (intros; rewrite <- (Rpower_plus (1 / 3)); apply (E u n (-1)%Z); lra).
  assert (E0 : forall u n, Rpower u (sixth (6 * Z.of_nat n + 1)) = Rpower u (INR n) * (Rpower u (1 / 3) * Rpower u (1 / 3) * Rpower u (- (1 / 2)))) by (intros; rewrite <- (Rpower_plus (1 / 3) (1 / 3)), <- (Rpower_plus (1 / 3 + 1 / 3)); apply (E u n 1%Z); lra).
  rewrite !E3, !E1, !E0. ring.
Qed.
Lemma pair_pop w x p q : (forall i, (i < length w)%nat -> 0 < el x i) ->
  pairSum (popMoment w x) (popMoment w x) (6 * Z.of_nat p) (6 * Z.of_nat q) = pairs w x (fun a b => a ^ p * b ^ q * pairWeight a b).
Proof.
  intros P. unfold pairSum. rewrite !Rmult_assoc, !pop_prod, <- pairs_scal, <- !pairs_add. apply pairs_ext. intros i j Hi Hj. apply weight_sum; auto.
Qed.
Lemma grid_pop w x p q l : (forall i, (i < length w)%nat -> 0 < el x i) ->
  gridInt (popMoment w x) (popMoment w x) p q l = collisions w x p q (INR l).
Proof.
  intros P. unfold gridInt, collisions. rewrite (Sum_ext _ _ (fun j => pairs w x (fun a b => IZR (choose l j) * (a ^ (p + j) * b ^ (q + l - j) * pairWeight a b)))).
  - rewrite <- pairs_Sum. apply pairs_ext. intros i j Hi Hj. set (a := el x i). set (b := el x j). assert (Pa : 0 < a) by (apply P; auto). assert (Pb : 0 < b) by (apply P; auto).
    rewrite Rpower_pow, binom_thm by lra. rewrite <- Sum_scal, <- Sum_scalr. apply Sum_ext. intros z Hz.
    rewrite pow_add. replace (q + l - z)%nat with (q + (l - z))%nat by lia. rewrite pow_add. ring.
  - intros j Hj. rewrite pair_pop by auto. rewrite pairs_scal. reflexivity.
Qed.
Lemma fm_split s g soot f a b : valid s g soot -> 0 < a -> 0 < b -> betaFM f (gT g) a b = kFM f g * (Rpower (a + b) (1 / 2) * pairWeight a b).
Proof.
  intros V Ha Hb. unfold betaFM, kFM, pairWeight. rewrite !diam_split by auto.
  set (A := piC * boltzmann * gT g / 2). assert (PA : 0 <= A) by (pose proof piC_pos; pose proof (v_Tpos _ _ _ V); pose proof boltz_pos; unfold A; apply Rlt_le; pos).
  rewrite sqrt_mult_alt by exact PA.
  assert (E : sqrt (1 / a + 1 / b) = Rpower (a + b) (1 / 2) * (Rpower a (- (1 / 2)) * Rpower b (- (1 / 2)))).
  { rewrite <- Rpower_sqrt by pos. replace (/ 2) with (1 / 2) by lra. replace (1 / a + 1 / b) with ((a + b) * (/ a * / b)) by (field; lra).
    assert (0 < / a) by (now apply Rinv_0_lt_compat). assert (0 < / b) by (now apply Rinv_0_lt_compat).
    rewrite <- Rpower_mult_distr, <- Rpower_mult_distr by (try apply Rmult_lt_0_compat; lra). unfold Rpower. rewrite !ln_Rinv by auto.
    do 2 f_equal; f_equal; ring. }
  rewrite E. set (B := Rpower (6 / (piC * sootDensity)) (1 / 3)).
  assert (EB : Rpower (6 / (piC * sootDensity)) (2 / 3) = B * B) by (unfold B; rewrite <- Rpower_plus; f_equal; lra). rewrite EB. ring.
Qed.
Lemma fm_pairs s g soot f w x p q : valid s g soot -> (forall i, (i < length w)%nat -> 0 < el x i) ->
  pairs w x (fun a b => a ^ p * b ^ q * betaFM f (gT g) a b) = kFM f g * collisions w x p q (1 / 2).
Proof.
  intros V P. unfold collisions. rewrite <- pairs_scal. apply pairs_ext. intros i j Hi Hj. rewrite (fm_split s g soot) by auto. ring.
Qed.

(** ** Cauchy-Schwarz *)
Lemma cs_quad A B C : (forall t, 0 <= A + 2 * t * B + t ^ 2 * C) -> 0 <= C -> B ^ 2 <= A * C.
Proof.
  intros H HC. destruct (Rle_lt_or_eq_dec _ _ HC) as [P|Z].
  - specialize (H (- B / C)). assert (E : A + 2 * (- B / C) * B + (- B / C) ^ 2 * C = (A * C - B ^ 2) / C) by (field; lra). rewrite E in H.
    apply (Rmult_le_compat_r C) in H; [|lra]. unfold Rdiv in H. rewrite Rmult_assoc, Rinv_l in H by lra. lra.
  - subst C. assert (B = 0). { destruct (Req_dec B 0) as [|N]; auto. specialize (H (- (A + 1) / (2 * B))). exfalso. assert (2 * (- (A + 1) / (2 * B)) * B = - (A + 1)) by (field; auto). nra. }
    subst B. rewrite Rmult_0_r. lra.
Qed.
Lemma pairs_cs w x h f e : (forall i, (i < length w)%nat -> 0 <= el w i) -> (forall i j, (i < length w)%nat -> (j < length w)%nat -> 0 <= h (el x i) (el x j)) ->
  pairs w x (fun a b => h a b * (f a b * e a b)) ^ 2 <= pairs w x (fun a b => h a b * f a b ^ 2) * pairs w x (fun a b => h a b * e a b ^ 2).
Proof.
  intros PW PH. apply cs_quad.
  - intros t. assert (E : pairs w x (fun a b => h a b * f a b ^ 2) + 2 * t * pairs w x (fun a b => h a b * (f a b * e a b)) + t ^ 2 * pairs w x (fun a b => h a b * e a b ^ 2)
      = pairs w x (fun a b => h a b * (f a b + t * e a b) ^ 2)).
    { rewrite <- !pairs_scal, <- !pairs_add. apply pairs_ext. intros; ring. }
    rewrite E. unfold pairs. apply Sum_nneg. intros i Hi. apply Sum_nneg. intros j Hj. pose proof (PW i Hi). pose proof (PW j Hj). pose proof (PH i j Hi Hj).
    apply Rmult_le_pos; [now apply Rmult_le_pos|]. apply Rmult_le_pos; [auto|apply pow2_ge_0].
  - unfold pairs. apply Sum_nneg. intros i Hi. apply Sum_nneg. intros j Hj. pose proof (PW i Hi). pose proof (PW j Hj). pose proof (PH i j Hi Hj).
    apply Rmult_le_pos; [now apply Rmult_le_pos|]. apply Rmult_le_pos; [auto|apply pow2_ge_0].
Qed.
Section Conv.
Context (w x : list R) (p q : nat) (HP : somePopulation w x).
Let f := collisions w x p q.
Lemma f_pos s : 0 < f s.
Proof. apply pairs_pos; [exact HP|]. intros a b Ha Hb. unfold pairWeight. pose proof (exp_pos (s * ln (a + b))). apply Rmult_lt_0_compat; [|].
  - apply Rmult_lt_0_compat; [|apply exp_pos]. apply Rmult_lt_0_compat; now apply pow_lt.
  - apply Rmult_lt_0_compat; [|apply exp_pos]. apply Rmult_lt_0_compat; [|apply exp_pos]. apply pow_lt. apply Rplus_lt_0_compat; apply exp_pos.
Qed.
(** midpoint log-convexity in the exponent *)
Lemma f_mid s t : f ((s + t) / 2) ^ 2 <= f s * f t.
Proof.
  destruct HP as (_ & P). unfold f, collisions.
  pose proof (pairs_cs w x (fun a b => a ^ p * b ^ q * pairWeight a b) (fun a b => Rpower (a + b) (s / 2)) (fun a b => Rpower (a + b) (t / 2))) as C.
  assert (E : forall u, pairs w x (fun a b => a ^ p * b ^ q * pairWeight a b * Rpower (a + b) (u / 2) ^ 2) = pairs w x (fun a b => a ^ p * b ^ q * Rpower (a + b) u * pairWeight a b)).
  { intros u. apply pairs_ext. intros i j Hi Hj. replace (Rpower (el x i + el x j) u) with (Rpower (el x i + el x j) (u / 2) ^ 2); [ring|].
    cbn [pow]. rewrite Rmult_1_r, <- Rpower_plus. f_equal. field. }
  cbv beta in C. rewrite !E in C. eapply Rle_trans; [|apply C].
  - right. f_equal. apply pairs_ext. intros i j Hi Hj. rewrite <- Rpower_plus. replace (s / 2 + t / 2) with ((s + t) / 2) by field. ring.
  - intros i Hi. apply Rlt_le, P, Hi.
  - intros i j Hi Hj. destruct (P i Hi) as (_ & A), (P j Hj) as (_ & B). unfold pairWeight. apply Rlt_le. apply Rmult_lt_0_compat; [apply Rmult_lt_0_compat; now apply pow_lt|].
    apply Rmult_lt_0_compat; [|apply exp_pos]. apply Rmult_lt_0_compat; [|apply exp_pos]. apply pow_lt. apply Rplus_lt_0_compat; apply exp_pos.
Qed.
Lemma f_log s t : 2 * ln (f ((s + t) / 2)) <= ln (f s) + ln (f t).
Proof.
  pose proof (f_mid s t) as H. pose proof (f_pos s) as A. pose proof (f_pos t) as B. pose proof (f_pos ((s + t) / 2)) as C.
  rewrite <- ln_mult by auto. replace (2 * ln (f ((s + t) / 2))) with (ln (f ((s + t) / 2) ^ 2)) by (cbn [pow]; rewrite Rmult_1_r, ln_mult by auto; ring).
  destruct H as [H|H]; [left; apply ln_increasing; [now apply pow_lt|exact H]|right; now rewrite H].
Qed.
Lemma upper : f (1 / 2) <= sqrt (f 0 * f 1).
Proof.
  pose proof (f_mid 0 1) as H. replace ((0 + 1) / 2) with (1 / 2) in H by field. pose proof (f_pos (1 / 2)). rewrite <- (sqrt_pow2 (f (1 / 2))) by lra. now apply sqrt_le_1_alt.
Qed.
Lemma lower : Rpower (f 1) (3 / 2) * Rpower (f 2) (- (1 / 2)) <= f (1 / 2).
Proof.
  pose proof (f_log (1 / 2) (3 / 2)) as A. replace ((1 / 2 + 3 / 2) / 2) with 1 in A by field. pose proof (f_log 1 2) as B. replace ((1 + 2) / 2) with (3 / 2) in B by field.
  unfold Rpower. rewrite <- exp_plus. rewrite <- (exp_ln (f (1 / 2))) by apply f_pos.
  assert (3 / 2 * ln (f 1) + - (1 / 2) * ln (f 2) <= ln (f (1 / 2))) as [H|H] by lra; [left; now apply exp_increasing|right; now rewrite H].
Qed.
Lemma sqrt_exp : sqrt (f 0 * f 1) = exp (1 / 2 * (ln (f 0) + ln (f 1))).
Proof. pose proof (f_pos 0). pose proof (f_pos 1). rewrite <- Rpower_sqrt by now apply Rmult_lt_0_compat. unfold Rpower. rewrite ln_mult by auto. f_equal. field. Qed.
Let G l : gridInt (popMoment w x) (popMoment w x) p q l = f (INR l).
Proof. apply grid_pop. intros i Hi. apply HP, Hi. Qed.
Lemma two_points y : (4 <= y)%nat -> gridHalf (popMoment w x) (popMoment w x) p q y = sqrt (f 0 * f 1).
Proof.
  intros Hy. unfold gridHalf. destruct (Nat.leb_spec y 2); [lia|]. destruct (Nat.leb_spec y 3); [lia|]. unfold interpolate. rewrite !Sum_S. unfold Sum, sumR. cbn [map seq fold_right gbin fdiff].
  rewrite !G, sqrt_exp. cbn [INR]. f_equal. field.
Qed.
Lemma three_points : gridHalf (popMoment w x) (popMoment w x) p q 3 = exp (3 / 8 * ln (f 0) + 3 / 4 * ln (f 1) - 1 / 8 * ln (f 2)).
Proof.
  unfold gridHalf. cbn [Nat.leb]. unfold interpolate. rewrite !Sum_S. unfold Sum, sumR. cbn [map seq fold_right gbin fdiff].
  rewrite !G. cbn [INR]. replace (1 + 1) with 2 by ring. f_equal. field.
Qed.
Lemma three_bracket : Rpower (f 1) (3 / 2) * Rpower (f 2) (- (1 / 2)) <= gridHalf (popMoment w x) (popMoment w x) p q 3 <= sqrt (f 0 * f 1).
Proof.
  rewrite three_points, sqrt_exp. unfold Rpower. rewrite <- exp_plus. pose proof (f_log 0 2) as B. replace ((0 + 2) / 2) with 1 in B by field. split.
  - assert (3 / 2 * ln (f 1) + - (1 / 2) * ln (f 2) <= 3 / 8 * ln (f 0) + 3 / 4 * ln (f 1) - 1 / 8 * ln (f 2)) as [H|H] by lra; [left; now apply exp_increasing|right; now rewrite H].
  - assert (3 / 8 * ln (f 0) + 3 / 4 * ln (f 1) - 1 / 8 * ln (f 2) <= 1 / 2 * (ln (f 0) + ln (f 1))) as [H|H] by lra; [left; now apply exp_increasing|right; now rewrite H].
Qed.
End Conv.
Lemma two_over w x p q y : somePopulation w x -> (4 <= y)%nat -> collisions w x p q (1 / 2) <= gridHalf (popMoment w x) (popMoment w x) p q y.
Proof. intros HP Hy. rewrite two_points by auto. now apply upper. Qed.
Lemma three_both w x p q : somePopulation w x ->
  let lo := Rpower (collisions w x p q 1) (3 / 2) * Rpower (collisions w x p q 2) (- (1 / 2)) in
  let hi := sqrt (collisions w x p q 0 * collisions w x p q 1) in
  lo <= collisions w x p q (1 / 2) <= hi /\ lo <= gridHalf (popMoment w x) (popMoment w x) p q 3 <= hi.
Proof. intros HP lo hi. split; [split; [now apply lower|now apply upper]|now apply three_bracket]. Qed.

(** ** signs *)
Lemma momic_signs m s g k M : readyMomic m s g k M ->
  momCoag k g (momicMom M) 0 < 0 /\ momCoag k g (momicMom M) 1 = 0 /\ forall r, (2 <= r)%nat -> 0 < momCoag k g (momicMom M) r.
Proof.
  intros (_ & _ & _ & OM & HC & V & _ & HL). pose proof OM as (_ & _ & _ & _ & _ & OF). pose proof (momicMom_pos M) as PF.
  assert (A : forall r, r <> 1%nat -> if Nat.eqb r 0 then momCoag k g (momicMom M) r < 0 else 0 < momCoag k g (momicMom M) r).
  { intros r Hr. pose proof (fm_sign s g k M (length M) (momicMom M) V OF HL r Hr) as F. pose proof (co_sign s g M (length M) (momicMom M) V HL PF r Hr) as C.
    unfold momCoag. destruct r as [|[|r]]; [|lia|]; cbn [Nat.eqb] in *; destruct HC as [E|[E|E]]; rewrite E; auto.
    - unfold harm. set (a := momFM k g (momicMom M) 0) in *. set (b := momCo g (momicMom M) 0) in *. replace (a * b / (a + b)) with (- ((- a) * (- b) / ((- a) + (- b)))) by (field; lra).
      pose proof (harm_pos (- a) (- b) ltac:(lra) ltac:(lra)). unfold harm in *. lra.
    - now apply harm_pos. }
  split; [exact (A 0%nat ltac:(lia))|]. split; [apply momCoag_1|]. intros r Hr. specialize (A r ltac:(lia)). destruct (Nat.eqb_spec r 0); [lia|exact A].
Qed.
(** ** a call with coagulation alone *)
Lemma pure_source k g M o r : mN k = N_NONE -> mG k = G_NONE -> mO k = O_NONE -> o = nucl k g (momHits k g (dimerMass g) (momicMom M) 1) ->
  momicSource k g M o r = momCoag k g (momicMom M) r.
Proof.
  intros EN EG EO ->. unfold momicSource, nucl, condPart, surfPart, isP. rewrite EN. cbn [oJ oGas]. rewrite (J_none k g EN), (kg_none _ _ _ _ EG), (ko_none _ _ _ _ EO).
  destruct r; ring.
Qed.
Lemma pure_call (m : model (N:=XR)) s g k M st eig : readyMomic m s g k M -> allPos M -> mN k = N_NONE -> mG k = G_NONE -> mO k = O_NONE ->
  exists m' y, setSourceTerms st eig m s = Ok (st, m', s) /\ soots m' = map Fin y /\ length y = length M /\
    el y 0 < 0 /\ el y 1 = 0 /\ forall r, (2 <= r < length M)%nat -> 0 < el y r.
Proof.
  intros RD AP EN EG EO. destruct (momic_run m s g k M st eig RD AP) as (m' & E & S & _). { unfold isP. now rewrite EN. }
  exists m', (map (momCoag k g (momicMom M)) (seq 0 (length M))).
  pose proof (momic_signs m s g k M RD) as (A & B & C). pose proof RD as (_ & _ & _ & _ & _ & _ & _ & HL).
  split; [rewrite E; unfold outS, isP; now rewrite EN|]. split; [rewrite S, map_map; apply map_ext; intros r; now rewrite (pure_source k g M _ r EN EG EO eq_refl)|].
  split; [now rewrite map_length, seq_length|]. rewrite !el_seq by lia. split; [exact A|]. split; [exact B|]. intros r Hr. rewrite el_seq by lia. apply C. lia.
Qed.
Lemma pure_case co M : co = C_FM \/ co = C_CONTINUUM \/ co = C_HM -> (3 <= length M <= 7)%nat -> (forall y, In y M -> 0 <= y) ->
  exists (m : model (N:=XR)) s, constructEnum P_MOMIC (length M) N_NONE G_NONE O_NONE co 0 T_NONE (Fin 2) 100 = Ok m /\
    readyMomic m s demoGas (mkMechs N_NONE G_NONE O_NONE co 1) M.
Proof.
  intros Hc HL HP.
  assert (HE : exists m : model (N:=XR), constructEnum (N:=XR) P_MOMIC (length M) N_NONE G_NONE O_NONE co 0 T_NONE (Fin 2) 100 = Ok m /\ momicArrays m (length M)).
  { destruct HL as (L1 & L2). remember (length M) as q. clear -L1 L2 Hc.
    do 8 (destruct q as [|q]; [try lia; destruct Hc as [->|[->| ->]]; eexists; (split; [reflexivity|]); (eexists; eexists; eexists; eexists; split; [reflexivity|split; reflexivity])|]). lia. }
  destruct HE as (m & E & MA).
  destruct (demo_any (newState (length M) 0) M []) as (s & C & V & _); try reflexivity; auto. { intros ? []. }
  exists m, s. split; [exact E|]. destruct (built _ _ _ _ _ _ _ _ _ _ _ E) as (H & Hp & _).
  do 3 (split; [assumption|]). split; [|split; [exact Hc|split; [exact V|split; [|exact HL]]]].
  - split; [left; repeat split; discriminate|]. cbn [mN mG mO mC mF]. do 3 (split; [discriminate|]). split; [destruct Hc as [->|[->| ->]]; discriminate|lra].
  - intros [H1|H1]; discriminate.
Qed.
