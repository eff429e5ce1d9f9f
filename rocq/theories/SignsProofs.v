(** The direction of each process. *)
From Coq Require Import ZArith List Bool Reals Lra Lia.
From Verif Require Import Num Defs State Coag Nucl Growth Oxid Tar SootModel Mono Qmom Momic Calls XR XRLemmas NumLaws SpecConfig SpecChem SpecCoag SpecValid SpecRates SpecGas SpecPah SpecPsd SpecSect SpecQmom SpecBinomial SpecLogn SpecMomic SpecFrame SpecFinite SpecScale SpecSigns
  ConfigProofs CoagProofs StateXR ValidProofs InterpProofs GasProofs RateProofs PsdProofs PahProofs PahMain MonoProofs MonoMain ChemAll SectProofs SectMain SectBins SectCases SectFinal QmomProofs QmomRun QmomMain QmomFinal LognProofs LognMain LognFinal MomicProofs MomicMain MomicRun MomicFinal.
Import ListNotations.
Local Open Scope R_scope.

(** ** powers *)
Lemma four_nn a b c d : 0 <= a -> 0 <= b -> 0 <= c -> 0 <= d -> 0 <= a * b * c * d.
Proof. intros. repeat (apply Rmult_le_pos; [|assumption]). assumption. Qed.
Lemma pow_le_both x y r : 0 <= x <= y -> x ^ r <= y ^ r.
Proof. intros. now apply pow_incr. Qed.
Lemma pow_nn x r : 0 <= x -> 0 <= x ^ r. Proof. intros. now apply pow_le. Qed.
Lemma pow_super x y r : 0 <= x -> 0 <= y -> x ^ S r + y ^ S r <= (x + y) ^ S r.
Proof.
  intros Hx Hy. induction r as [|r IH]; [lra|]. change (x * x ^ S r + y * y ^ S r <= (x + y) * (x + y) ^ S r).
  pose proof (pow_nn x (S r) Hx). pose proof (pow_nn y (S r) Hy). set (u := x ^ S r) in *. set (v := y ^ S r) in *. set (w := (x + y) ^ S r) in *. nra.
Qed.
Lemma pow_cross a b r : 0 <= a -> 0 <= b -> 0 <= (a - b) * (a ^ r - b ^ r).
Proof.
  intros Ha Hb. destruct (Rle_lt_dec a b) as [H|H].
  - pose proof (pow_le_both a b r ltac:(lra)). nra.
  - pose proof (pow_le_both b a r ltac:(lra)). nra.
Qed.
Lemma pow_convex s t a b r : 0 <= s -> 0 <= t -> s + t = 1 -> 0 <= a -> 0 <= b -> (s * a + t * b) ^ r <= s * a ^ r + t * b ^ r.
Proof.
  intros Hs Ht E Ha Hb. induction r as [|r IH]; [cbn; lra|]. change ((s * a + t * b) * (s * a + t * b) ^ r <= s * (a * a ^ r) + t * (b * b ^ r)).
  pose proof (pow_cross a b r Ha Hb) as X. set (u := a ^ r) in *. set (v := b ^ r) in *. assert (P : 0 <= s * a + t * b) by nra.
  apply Rle_trans with ((s * a + t * b) * (s * u + t * v)); [now apply Rmult_le_compat_l|].
  assert (Y : s * (a * u) + t * (b * v) - (s * a + t * b) * (s * u + t * v) = s * t * ((a - b) * (u - v))).
  { replace t with (1 - s) by lra. ring. }
  assert (0 <= s * t * ((a - b) * (u - v))) by (apply Rmult_le_pos; [now apply Rmult_le_pos|exact X]). lra.
Qed.

(** ** bins *)
Lemma Sum_last n f : (1 <= n)%nat -> Sum n f = Sum (n - 1) f + f (n - 1)%nat.
Proof. intros H. destruct n; [lia|]. rewrite Sum_S. now replace (S n - 1)%nat with n by lia. Qed.
Section Bins.
Context (b : list R) (G : goodBins b).
Let ns := length b.
Lemma up_moment phi r : Sum ns (fun j => phi j * moveUp b r j) =
  Sum (ns - 1) (fun j => r j * ((phi (S j) - phi j) / (el b (S j) - el b j))) + phi (ns - 1)%nat * (r (ns - 1)%nat / el b (ns - 1)).
Proof.
  destruct G as (L & _). fold ns in L. unfold moveUp. fold ns.
  rewrite (Sum_ext ns _ (fun j => phi j * (if Nat.eqb j 0 then 0 else r (j - 1)%nat / (el b j - el b (j - 1))) + phi j * (if Nat.eqb (S j) ns then r j / el b j else - (r j / (el b (S j) - el b j))))) by (intros; ring).
  rewrite Sum_add. rewrite (Sum_first ns) by lia. rewrite (Sum_last ns) by lia. change (Nat.eqb 0 0) with true. cbv iota beta. replace (S (ns - 1)) with ns by lia. rewrite Nat.eqb_refl.
  match goal with |- ?z + ?u + (?v + ?w) = _ => transitivity ((u + v) + w); [ring|] end. f_equal. rewrite <- Sum_add. apply Sum_ext. intros j Hj.
  replace (S j - 1)%nat with j by lia. destruct (Nat.eqb_spec (S j) ns); [lia|]. change (Nat.eqb (S j) 0) with false. cbv iota. unfold Rdiv. ring.
Qed.
Lemma down_moment phi r : Sum ns (fun j => phi j * moveDown b r j) =
  - (Sum (ns - 1) (fun j => r (S j) * ((phi (S j) - phi j) / (el b (S j) - el b j))) + phi 0%nat * (r 0%nat / el b 0)).
Proof.
  destruct G as (L & _). fold ns in L. unfold moveDown. fold ns.
  rewrite (Sum_ext ns _ (fun j => phi j * (if Nat.eqb (S j) ns then 0 else r (S j) / (el b (S j) - el b j)) + - (phi j * (if Nat.eqb j 0 then r 0%nat / el b 0 else r j / (el b j - el b (j - 1)))))) by (intros; ring).
  rewrite Sum_add, Sum_opp. rewrite (Sum_first ns (fun j => phi j * (if Nat.eqb j 0 then _ else _))) by lia. rewrite (Sum_last ns) by lia. change (Nat.eqb 0 0) with true. cbv iota beta. replace (S (ns - 1)) with ns by lia. rewrite Nat.eqb_refl.
  match goal with |- ?u + ?z + - (?w + ?v) = _ => transitivity (- ((- u + v) + w)); [ring|] end. f_equal. f_equal. rewrite <- Sum_opp, <- Sum_add. apply Sum_ext. intros j Hj.
  replace (S j - 1)%nat with j by lia. destruct (Nat.eqb_spec (S j) ns); [lia|]. change (Nat.eqb (S j) 0) with false. cbv iota. unfold Rdiv. ring.
Qed.
Lemma slope_nn r j : (j < ns - 1)%nat -> 0 <= (el b (S j) ^ r - el b j ^ r) / (el b (S j) - el b j).
Proof.
  intros Hj. pose proof (bins_lt b G j (S j) ltac:(lia) ltac:(unfold ns in *; lia)) as D. pose proof (bins_pos b G j ltac:(unfold ns in *; lia)).
  apply Rmult_le_pos; [|apply Rlt_le, Rinv_0_lt_compat; lra]. pose proof (pow_le_both (el b j) (el b (S j)) r ltac:(lra)). lra.
Qed.
Lemma up_nneg r f : (forall j, 0 <= f j) -> 0 <= Sum ns (fun j => el b j ^ r * moveUp b f j).
Proof.
  intros H. pose proof G as (L & _). fold ns in L. rewrite (up_moment (fun j => el b j ^ r)). apply Rplus_le_le_0_compat.
  - apply Sum_nneg. intros j Hj. apply Rmult_le_pos; [auto|now apply slope_nn].
  - pose proof (bins_pos b G (ns - 1) ltac:(unfold ns in *; lia)). apply Rmult_le_pos; [apply pow_nn; lra|]. apply Rmult_le_pos; [auto|]. now apply Rlt_le, Rinv_0_lt_compat.
Qed.
Lemma down_npos r f : (forall j, 0 <= f j) -> Sum ns (fun j => el b j ^ r * moveDown b f j) <= 0.
Proof.
  intros H. pose proof G as (L & _). fold ns in L. rewrite (down_moment (fun j => el b j ^ r)).
  match goal with |- - ?x <= 0 => assert (0 <= x); [|lra] end. apply Rplus_le_le_0_compat.
  - apply Sum_nneg. intros j Hj. apply Rmult_le_pos; [auto|now apply slope_nn].
  - pose proof (bins_pos b G 0 ltac:(unfold ns in *; lia)). apply Rmult_le_pos; [apply pow_nn; lra|]. apply Rmult_le_pos; [auto|]. now apply Rlt_le, Rinv_0_lt_compat.
Qed.
(** collisions *)
Context (s : state (N:=XR)) (g : gas) (k : mechs) (n : list R) (V : valid s g n) (OM : okAll k) (c : R).
Let h i j := kernel k g (el b i) (el b j) * el n i * el n j.
Let pm i j := el b i + el b j.
Definition brackets : Prop := forall i j, (i < length b)%nat -> (j < length b)%nat -> let m := el b i + el b j in let t := binOf c b m in
  ((t < lastBin b)%nat -> el b t <= m < el b (S t)) /\ ((lastBin b <= t)%nat -> el b (lastBin b) <= m).
Lemma h_sym i j : h i j = h j i.
Proof. pose proof OM as (_ & _ & _ & _ & OC & OF). unfold h. rewrite (kernel_sym s g n k (el b i) (el b j) V OC OF). ring. Qed.
Lemma h_nn i j : 0 <= h i j.
Proof. pose proof OM as (_ & _ & _ & _ & OC & OF). unfold h. repeat apply Rmult_le_pos; try apply (nel_nn s g n V). now apply (kernel_nneg s g n). Qed.
Lemma coag_moment phi : Sum ns (fun l => phi l * coagAt k g b n c l) =
  1 / 2 * Sum ns (fun i => Sum ns (fun j => h i j * (Sum ns (fun l => phi l * credit b (binOf c b (pm i j)) (pm i j) l) - phi i - phi j))).
Proof.
  unfold coagAt. cbv zeta. fold ns. fold h.
  rewrite (Sum_ext ns _ (fun l => 1 / 2 * Sum ns (fun i => Sum ns (fun j => h i j * (phi l * credit b (binOf c b (pm i j)) (pm i j) l))) + - Sum ns (fun j => h l j * phi l))).
  - rewrite Sum_add, Sum_opp, Sum_scal.
    set (Q := Sum ns (fun i => Sum ns (fun j => h i j * phi i))).
    rewrite (Sum_swap ns ns (fun l i => Sum ns (fun j => h i j * (phi l * credit b (binOf c b (pm i j)) (pm i j) l)))).
    rewrite (Sum_ext ns (fun i => Sum ns (fun j => h i j * (Sum ns (fun l => phi l * credit b (binOf c b (pm i j)) (pm i j) l) - phi i - phi j)))
      (fun i => Sum ns (fun l => Sum ns (fun j => h i j * (phi l * credit b (binOf c b (pm i j)) (pm i j) l))) + (- Sum ns (fun j => h i j * phi i) + - Sum ns (fun j => h j i * phi j)))).
    + rewrite Sum_add, Sum_add, !Sum_opp. fold Q. rewrite (Sum_swap ns ns (fun i j => h j i * phi j)). fold Q. field.
    + intros i Hi. rewrite (Sum_swap ns ns). rewrite <- !Sum_opp, <- !Sum_add. apply Sum_ext. intros j Hj. rewrite Sum_scal, (h_sym j i). ring.
  - intros l Hl. unfold Rminus. rewrite Rmult_plus_distr_l. apply f_equal2.
    + change (fun i => Sum ns (fun l0 => kernel k g (el b i) (el b l0) * el n i * el n l0 * credit b (binOf c b (el b i + el b l0)) (el b i + el b l0) l))
        with (fun i => Sum ns (fun j => h i j * credit b (binOf c b (pm i j)) (pm i j) l)).
      rewrite <- Rmult_assoc, (Rmult_comm (phi l)), Rmult_assoc. f_equal. rewrite <- Sum_scal. apply Sum_ext. intros i _.
      rewrite <- Sum_scal. apply Sum_ext. intros j _. ring.
    + change (Sum ns (fun l0 => kernel k g (el b l) (el b l0) * el n l * el n l0)) with (Sum ns (h l)).
      rewrite Sum_scalr. ring.
Qed.
Lemma credit_moment phi t m : Sum ns (fun l => phi l * credit b t m l) =
  if Nat.leb (lastBin b) t then phi (lastBin b) * (m / el b (lastBin b)) else shareLow b t m * phi t + (1 - shareLow b t m) * phi (S t).
Proof.
  destruct G as (L & _). fold ns in L. unfold credit. destruct (Nat.leb_spec (lastBin b) t) as [Ht|Ht].
  - rewrite (Sum_one _ (lastBin b)); [now rewrite Nat.eqb_refl|unfold lastBin; fold ns; lia|]. intros j _ E. apply Nat.eqb_neq in E. rewrite E. ring.
  - unfold lastBin in Ht. fold ns in Ht. rewrite (Sum_ext _ _ (fun j => (if Nat.eqb j t then shareLow b t m * phi t else 0) + (if Nat.eqb j (S t) then (1 - shareLow b t m) * phi (S t) else 0))).
    + rewrite Sum_add, !Sum_at by lia. reflexivity.
    + intros j _. destruct (Nat.eqb_spec j t) as [->|E1].
      * destruct (Nat.eqb_spec t (S t)); [lia|]. ring.
      * destruct (Nat.eqb_spec j (S t)) as [->|E2]; ring.
Qed.
Lemma pair_signs i j r : brackets -> (i < ns)%nat -> (j < ns)%nat -> let D := Sum ns (fun l => el b l ^ r * credit b (binOf c b (pm i j)) (pm i j) l) - el b i ^ r - el b j ^ r in
  (r = 0%nat -> D <= 0) /\ (r = 1%nat -> D = 0) /\ ((2 <= r)%nat -> 0 <= D).
Proof.
  intros BK Hi Hj D. unfold D. clear D. rewrite (credit_moment (fun l => el b l ^ r)). destruct (BK i j Hi Hj) as (B1 & B2). cbv zeta in B1, B2. fold (pm i j) in *. set (t := binOf c b (pm i j)) in *.
  pose proof G as (L & _). fold ns in L. assert (Pl : 0 < el b (lastBin b)) by (apply (bins_pos b G); unfold lastBin; fold ns; unfold ns in *; lia).
  pose proof (bins_pos b G i Hi) as Pi. pose proof (bins_pos b G j Hj) as Pj.
  assert (Le : forall q, (q < ns)%nat -> el b q <= el b (lastBin b)).
  { intros q Hq. unfold ns in Hq. destruct (Nat.eq_dec q (lastBin b)) as [->|NE]; [lra|]. apply Rlt_le, (bins_lt b G); unfold lastBin in *; lia. }
  destruct (Nat.leb_spec (lastBin b) t) as [Ht|Ht].
  - pose proof (Le i Hi) as Li. pose proof (Le j Hj) as Lj. set (z := el b (lastBin b)) in *. unfold pm in *. set (x := el b i) in *. set (y := el b j) in *. split; [|split].
    + intros ->. cbn [pow]. assert ((x + y) / z <= 2); [|lra]. apply Rmult_le_reg_r with z; [auto|]. unfold Rdiv. rewrite Rmult_assoc, Rinv_l by lra. lra.
    + intros ->. cbn [pow]. field. lra.
    + intros Hr. destruct r as [|r]; [lia|]. replace (z ^ S r * ((x + y) / z)) with (x * z ^ r + y * z ^ r) by (cbn [pow]; field; lra). cbn [pow].
      pose proof (pow_le_both x z r ltac:(lra)). pose proof (pow_le_both y z r ltac:(lra)). nra.
  - destruct (B1 Ht) as (B3 & B4). assert (TT : (S t < ns)%nat) by (unfold lastBin in Ht; fold ns in Ht; lia). pose proof (bins_pos b G t ltac:(unfold ns in *; lia)) as Pt. pose proof (bins_lt b G t (S t) ltac:(lia) TT) as Lt.
    set (sh := shareLow b t (pm i j)). assert (S0 : 0 <= sh <= 1 /\ sh * el b t + (1 - sh) * el b (S t) = pm i j).
    { unfold sh, shareLow. set (x := el b t) in *. set (y := el b (S t)) in *. split; [|field; lra]. split; [apply Rmult_le_pos; [lra|apply Rlt_le, Rinv_0_lt_compat; lra]|].
      apply Rmult_le_reg_r with (y - x); [lra|]. unfold Rdiv. rewrite Rmult_assoc, Rinv_l by lra. lra. }
    destruct S0 as (S1 & S2). split; [|split].
    + intros ->. cbn [pow]. lra.
    + intros ->. cbn [pow]. rewrite !Rmult_1_r, S2. unfold pm. ring.
    + intros Hr. destruct r as [|r]; [lia|]. pose proof (pow_convex sh (1 - sh) (el b t) (el b (S t)) (S r) ltac:(lra) ltac:(lra) ltac:(ring) ltac:(lra) ltac:(lra)) as X. rewrite S2 in X.
      pose proof (pow_super (el b i) (el b j) r ltac:(lra) ltac:(lra)) as Y. unfold pm in X. lra.
Qed.
Lemma coag_signs r : brackets -> let D := Sum ns (fun l => el b l ^ r * coagAt k g b n c l) in
  (r = 0%nat -> D <= 0) /\ (r = 1%nat -> D = 0) /\ ((2 <= r)%nat -> 0 <= D).
Proof.
  intros BK D. unfold D. clear D. rewrite (coag_moment (fun l => el b l ^ r)). split; [|split]; intros Hr.
  - match goal with |- 1 / 2 * ?x <= 0 => assert (0 <= - x); [|lra] end. rewrite <- Sum_opp. apply Sum_nneg. intros i Hi. rewrite <- Sum_opp. apply Sum_nneg. intros j Hj.
    destruct (pair_signs i j r BK Hi Hj) as (A & _). specialize (A Hr). rewrite Ropp_mult_distr_r. apply Rmult_le_pos; [apply h_nn|lra].
  - rewrite (Sum_0 ns); [ring|]. intros i Hi. apply Sum_0. intros j Hj. destruct (pair_signs i j r BK Hi Hj) as (_ & A & _). rewrite (A Hr). ring.
  - apply Rmult_le_pos; [lra|]. apply Sum_nneg. intros i Hi. apply Sum_nneg. intros j Hj. destruct (pair_signs i j r BK Hi Hj) as (_ & _ & A). apply Rmult_le_pos; [apply h_nn|exact (A Hr)].
Qed.
End Bins.

(** ** rates and moments *)
Section Rates.
Context (s : state (N:=XR)) (g : gas) (k : mechs) (soot : list R) (V : valid s g soot) (OM : okAll k).
Lemma kg_nn M0 M1 : 0 <= kgrow k g M0 M1. Proof. eapply growFormula_nneg; eauto. Qed.
Lemma ko_nn M0 M1 : 0 <= koxid k g M0 M1. Proof. eapply oxidFormula_nneg; eauto. Qed.
Lemma J_nn : 0 <= Jnuc k g. Proof. eapply nuclFormula_nneg; eauto. Qed.
Lemma nucMass_nn : 0 <= nucMass g.
Proof.
  unfold nucMass. pose proof (v_cMinpos _ _ _ V). pose proof unit_pos as U. pose proof avo_pos.
  replace (gCMin g * massC / avogadro) with (gCMin g * (massC / avogadro)) by (field; lra). apply Rmult_le_pos; lra.
Qed.
Lemma A_nn r : 0 <= momA k g r.
Proof. unfold momA. apply Rmult_le_pos; [exact J_nn|]. apply pow_nn, nucMass_nn. Qed.
Lemma sectA_nn b r : goodBins b -> 0 <= Sum (length b) (fun j => el b j ^ r * sectA k g b j).
Proof.
  intros G. apply Sum_nneg. intros j Hj. pose proof (bins_pos b G j Hj). apply Rmult_le_pos; [apply pow_nn; lra|]. unfold sectA. destruct (Nat.eqb j 0); [|lra].
  destruct G as (L & P0 & _). apply Rmult_le_pos; [apply Rmult_le_pos; [exact J_nn|exact nucMass_nn]|]. now apply Rlt_le, Rinv_0_lt_compat.
Qed.
Lemma area_nn : 0 <= areaCoef.
Proof. unfold areaCoef. pose proof piC_pos. apply Rmult_le_pos; [lra|]. unfold Rpower. apply Rlt_le, exp_pos. Qed.
Lemma smol_signs w x r : (forall y, In y w -> 0 <= y) -> (forall y, In y x -> 0 <= y) ->
  (r = 0%nat -> smoluchowski k g w x r <= 0) /\ (r = 1%nat -> smoluchowski k g w x r = 0) /\ ((2 <= r)%nat -> 0 <= smoluchowski k g w x r).
Proof.
  intros Hw Hx. pose proof OM as (_ & _ & _ & _ & OC & OF). assert (N : forall l, (forall y, In y l -> 0 <= y) -> forall i, 0 <= el l i).
  { intros l Hl i. unfold el. destruct (Nat.lt_ge_cases i (length l)); [apply Hl; now apply nth_In|]. rewrite nth_overflow by auto. lra. }
  assert (K : forall i j, 0 <= kernel k g (el x i) (el x j) * el w i * el w j) by (intros; repeat apply Rmult_le_pos; auto; now apply (kernel_nneg s g soot)).
  unfold smoluchowski. split; [|split]; intros Hr.
  - match goal with |- 1 / 2 * ?x <= 0 => assert (0 <= - x); [|lra] end. rewrite <- Sum_opp. apply Sum_nneg. intros i Hi. rewrite <- Sum_opp. apply Sum_nneg. intros j Hj.
    subst r. cbn [pow]. pose proof (K i j). lra.
  - rewrite (Sum_0 (length w)); [ring|]. intros i Hi. apply Sum_0. intros j Hj. subst r. cbn [pow]. ring.
  - apply Rmult_le_pos; [lra|]. apply Sum_nneg. intros i Hi. apply Sum_nneg. intros j Hj. apply Rmult_le_pos; [apply K|]. destruct r as [|r]; [lia|].
    pose proof (pow_super (el x i) (el x j) r (N x Hx i) (N x Hx j)). lra.
Qed.
Lemma frac_nn w x r : (forall y, In y w -> 0 <= y) -> 0 <= fracMoment w x r.
Proof.
  intros Hw. unfold fracMoment. destruct (SpecQmom.allPos w x); [|lra]. apply Sum_nneg. intros i Hi. apply Rmult_le_pos; [apply Hw; now apply nth_In|]. unfold Rpower. apply Rlt_le, exp_pos.
Qed.
Lemma harm_nn x y : 0 <= x -> 0 <= y -> 0 <= harm x y.
Proof.
  intros. unfold harm, Rdiv. destruct (Req_dec (x + y) 0) as [Z|Z]; [rewrite Z; assert (I : / 0 = 0) by exact Rinv_0; rewrite I; lra|].
  apply Rmult_le_pos; [nra|]. apply Rlt_le, Rinv_0_lt_compat. lra.
Qed.
Lemma logn_signs M : (forall z, 0 <= M z) -> lognC0 k g M <= 0 /\ 0 <= lognC2 k g M.
Proof.
  intros H. pose proof OM as (_ & _ & _ & _ & _ & OF).
  assert (F : forall a b, (forall z, 0 <= a z) -> (forall z, 0 <= b z) -> 0 <= meanOf (fmTerms (mF k) g) a b) by (intros; apply mean_nn; auto; intros; apply Rlt_le; eapply fm_terms_pos; eauto).
  assert (C : forall a b, (forall z, 0 <= a z) -> (forall z, 0 <= b z) -> 0 <= meanOf (coTerms g) a b) by (intros; apply mean_nn; auto; intros; apply Rlt_le; eapply co_terms_pos; eauto).
  unfold lognC0, lognC2, lossOf, gainOf. cbv zeta. pose proof (F M M H H). pose proof (C M M H H). pose proof (F (fun p => M (p + 6)%Z) (fun p => M (p + 6)%Z) (fun z => H (z + 6)%Z) (fun z => H (z + 6)%Z)). pose proof (C (fun p => M (p + 6)%Z) (fun p => M (p + 6)%Z) (fun z => H (z + 6)%Z) (fun z => H (z + 6)%Z)).
  destruct (mC k); split; try lra. destruct (Rlt_dec _ _); [now apply harm_nn|lra].
Qed.
Lemma momic_dirs M : momentCoag k -> (3 <= length M <= 7)%nat ->
  momCoag k g (momicMom M) 0 <= 0 /\ momCoag k g (momicMom M) 1 = 0 /\ forall r, (2 <= r)%nat -> 0 <= momCoag k g (momicMom M) r.
Proof.
  intros HC HL. pose proof OM as (_ & _ & _ & _ & _ & OF). pose proof (momicMom_pos M) as PF.
  assert (A : forall r, r <> 1%nat -> if Nat.eqb r 0 then momCoag k g (momicMom M) r <= 0 else 0 <= momCoag k g (momicMom M) r).
  { intros r Hr. pose proof (fm_sign s g k soot (length M) (momicMom M) V OF HL r Hr) as F. pose proof (co_sign s g soot (length M) (momicMom M) V HL PF r Hr) as C.
    unfold momCoag. destruct r as [|[|r]]; [|lia|]; cbn [Nat.eqb] in *; destruct HC as [E|[E|E]]; rewrite E; try (apply Rlt_le; assumption).
    - unfold harm. set (a := momFM k g (momicMom M) 0) in *. set (b := momCo g (momicMom M) 0) in *. replace (a * b / (a + b)) with (- ((- a) * (- b) / ((- a) + (- b)))) by (field; lra).
      pose proof (harm_nn (- a) (- b) ltac:(lra) ltac:(lra)). unfold harm in *. lra.
    - apply harm_nn; lra. }
  split; [exact (A 0%nat ltac:(lia))|]. split; [apply momCoag_1|]. intros r Hr. specialize (A r ltac:(lia)). destruct (Nat.eqb_spec r 0); [lia|exact A].
Qed.
Lemma mom_nn M0 M1 M2 z : 0 <= M0 -> 0 <= M1 -> 0 <= mom M0 M1 M2 z.
Proof. intros. unfold mom. destruct (Z.eqb z 0); [auto|]. destruct (Z.eqb z 6); [auto|]. apply closure_nn. Qed.
End Rates.
