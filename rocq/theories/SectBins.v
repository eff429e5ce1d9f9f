(** Located bins, shares and signs for the sectional model (C31, C32). *)
From Coq Require Import ZArith List Bool Reals Lra Lia.
From Verif Require Import Num Defs State Coag Nucl Growth Oxid Tar SootModel Sect Calls XR XRLemmas NumLaws
  SpecChem SpecCoag SpecValid SpecRates SpecGas SpecPah SpecPsd SpecSect CoagProofs StateXR ValidProofs InterpProofs GasProofs RateProofs PsdProofs PahProofs MonoProofs MonoMain ChemAll SectProofs SectRun SectMain SectCases.
Import ListNotations.
Local Open Scope R_scope.

Lemma double_gt1 F : doubleAbove1 F -> 1 < F.
Proof. unfold doubleAbove1. intros H. assert (0 < / 2 ^ 52) by (apply Rinv_0_lt_compat; apply pow_lt; lra). lra. Qed.
Lemma ln_double F : doubleAbove1 F -> / 2 ^ 53 <= ln F.
Proof.
  intros H. pose proof (double_gt1 F H) as H1.
  assert (E : ln F = - ln (/ F)) by (rewrite ln_Rinv by lra; ring). rewrite E.
  assert (P : 0 < / F) by (apply Rinv_0_lt_compat; lra).
  assert (L : ln (/ F) <= / F - 1).
  { destruct (Rle_lt_dec (ln (/ F)) (/ F - 1)) as [A|A]; [exact A|exfalso].
    pose proof (exp_increasing _ _ A) as B. rewrite exp_ln in B by auto. pose proof (exp_ineq1_le (/ F - 1)). lra. }
  assert (Q : / F <= 1 - / 2 ^ 53); [|lra].
  apply Rmult_le_reg_l with F; [lra|]. rewrite Rinv_r by lra.
  unfold doubleAbove1 in H. set (e := / 2 ^ 53). assert (E2 : / 2 ^ 52 = 2 * e) by (unfold e; rewrite !pow_IZR; cbn; lra).
  rewrite E2 in H. assert (0 < e) by (unfold e; apply Rinv_0_lt_compat, pow_lt; lra).
  assert (e <= 1 / 2) by (unfold e; rewrite pow_IZR; cbn; lra). nra.
Qed.
Lemma ln2_lt1 : ln 2 < 1.
Proof. rewrite <- (ln_exp 1). apply ln_increasing; [lra|]. pose proof (exp_ineq1 1). lra. Qed.

Section Geo.
Context (c0 : Z) (F : R) (ns : nat) (Hc : (0 < c0)%Z) (HF : doubleAbove1 F) (Hs : sane ns).
Let b := geometric c0 F ns.
Let c := / ln F.
Lemma F1 : 1 < F. Proof. now apply double_gt1. Qed.
Lemma lnF_pos : 0 < ln F.
Proof. rewrite <- ln_1. apply ln_increasing; [lra|exact F1]. Qed.
Lemma G_geo : goodBins b. Proof. destruct Hs. apply geo_good; auto. exact F1. Qed.
Lemma Fpow_pos j : 0 < F ^ j. Proof. pose proof F1. apply pow_lt; lra. Qed.
Lemma unitc : 0 < IZR c0 * (massC / avogadro).
Proof. apply Rmult_lt_0_compat; [now apply (IZR_lt 0)|exact unit_pos]. Qed.
Lemma geo_ratio i j : (i < ns)%nat -> (j < ns)%nat -> (el b i + el b j) / el b 0 = F ^ i + F ^ j.
Proof.
  intros Hi Hj. unfold b. rewrite !geo_el by lia. pose proof unitc as U. pose proof unit_pos. apply (IZR_lt 0) in Hc. cbn [pow]. field.
  repeat split; nz.
Qed.
Lemma ln_pow j : ln (F ^ j) = INR j * ln F.
Proof. pose proof F1. induction j as [|j IH]; [cbn; rewrite ln_1; ring|]. cbn [pow]. rewrite ln_mult, IH, S_INR by (try lra; apply Fpow_pos). ring. Qed.
Lemma pow_mono i j : (i <= j)%nat -> F ^ i <= F ^ j.
Proof. intros. apply Rle_pow; [pose proof F1; lra|auto]. Qed.
Let x i j := c * ln ((el b i + el b j) / el b 0).
Lemma x_val i j : (i < ns)%nat -> (j < ns)%nat -> x i j * ln F = ln (F ^ i + F ^ j).
Proof. intros. unfold x, c. rewrite geo_ratio by auto. pose proof lnF_pos. field. lra. Qed.
Lemma x_nneg i j : (i < ns)%nat -> (j < ns)%nat -> 0 <= x i j.
Proof.
  intros Hi Hj. pose proof (x_val i j Hi Hj) as E. pose proof lnF_pos. pose proof (pow_mono 0 i ltac:(lia)) as A. cbn in A. pose proof (Fpow_pos j).
  assert (0 <= ln (F ^ i + F ^ j)). { rewrite <- ln_1. destruct (Req_dec 1 (F ^ i + F ^ j)) as [<-|]; [lra|]. apply Rlt_le, ln_increasing; lra. }
  destruct (Rle_lt_dec 0 (x i j)); [auto|]. nra.
Qed.
Lemma x_lt i j : (i < ns)%nat -> (j < ns)%nat -> x i j < IZR (2 ^ 64).
Proof.
  intros Hi Hj. pose proof (x_val i j Hi Hj) as E. pose proof lnF_pos as L. pose proof (ln_double F HF) as L53. destruct Hs as (S1 & S2).
  assert (U : ln (F ^ i + F ^ j) <= ln 2 + INR ns * ln F).
  { rewrite <- ln_pow, <- ln_mult by (try lra; apply Fpow_pos). pose proof (pow_mono i ns ltac:(lia)). pose proof (pow_mono j ns ltac:(lia)).
    pose proof (Fpow_pos i). pose proof (Fpow_pos j). destruct (Req_dec (F ^ i + F ^ j) (2 * F ^ ns)) as [->|]; [lra|]. apply Rlt_le, ln_increasing; lra. }
  pose proof ln2_lt1 as L2. rewrite INR_IZR_INZ in U. apply IZR_le in S2.
  assert (D : ln 2 < IZR (2 ^ 53) * ln F).
  { apply Rlt_le_trans with 1; [exact L2|]. rewrite pow_IZR in L53.
    replace 1 with (IZR (2 ^ 53) * / IZR (2 ^ 53)) by (field; apply not_0_IZR; lia). apply Rmult_le_compat_l; [apply (IZR_le 0); lia|].
    exact L53. }
  assert (D2 : IZR (Z.of_nat ns) * ln F <= IZR (2 ^ 62) * ln F) by (apply Rmult_le_compat_r; lra).
  assert (x i j * ln F < (IZR (2 ^ 53) + IZR (2 ^ 62)) * ln F) by (rewrite E; lra).
  apply Rlt_trans with (IZR (2 ^ 53) + IZR (2 ^ 62)).
  - apply Rmult_lt_reg_r with (ln F); auto.
  - rewrite <- plus_IZR. apply IZR_lt. reflexivity.
Qed.
Lemma geo_fits : fits c b.
Proof. intros i j Hi Hj. unfold b in Hi, Hj. rewrite geo_len in Hi, Hj. split; [|now apply x_lt]. pose proof (x_nneg i j Hi Hj). unfold x in *. lra. Qed.

Lemma bin_brackets i j : (i < ns)%nat -> (j < ns)%nat -> let t := binOf c b (el b i + el b j) in
  F ^ t <= F ^ i + F ^ j < F ^ S t.
Proof.
  intros Hi Hj t. pose proof (x_nneg i j Hi Hj) as N. pose proof (x_val i j Hi Hj) as E. pose proof lnF_pos as L.
  unfold t, binOf. fold (x i j). destruct (base_Int_part (x i j)) as (I1 & I2).
  assert (I0 : (0 <= Int_part (x i j))%Z). { assert (K : -1 < IZR (Int_part (x i j))) by lra. apply (lt_IZR (-1)) in K. lia. }
  set (p := Z.to_nat (Int_part (x i j))). assert (EP : IZR (Int_part (x i j)) = INR p) by (unfold p; rewrite INR_IZR_INZ, Z2Nat.id; auto).
  rewrite EP in *. pose proof (Fpow_pos i). pose proof (Fpow_pos j). split.
  - destruct (Rle_lt_dec (F ^ p) (F ^ i + F ^ j)) as [A|A]; [auto|exfalso].
    apply ln_increasing in A; [|lra]. rewrite ln_pow, <- E in A. apply Rmult_lt_reg_r in A; lra.
  - destruct (Rlt_le_dec (F ^ i + F ^ j) (F ^ S p)) as [A|A]; [auto|exfalso].
    assert (B : ln (F ^ S p) <= ln (F ^ i + F ^ j)). { destruct A as [A| ->]; [|lra]. apply Rlt_le, ln_increasing; auto. apply Fpow_pos. }
    rewrite ln_pow, <- E, S_INR in B. apply Rmult_le_reg_r in B; lra.
Qed.
Lemma scale i : (i < ns)%nat -> el b i = F ^ i * (IZR c0 * (massC / avogadro)).
Proof. intros. unfold b. rewrite geo_el by auto. ring. Qed.

Lemma C31_bracket i j : (i < ns)%nat -> (j < ns)%nat -> let m := el b i + el b j in let t := binOf c b m in
  ((t < lastBin b)%nat -> el b t <= m < el b (S t) /\ 0 < shareLow b t m <= 1) /\
  ((lastBin b <= t)%nat -> el b (lastBin b) <= m).
Proof.
  intros Hi Hj m t. pose proof (bin_brackets i j Hi Hj) as B. cbv zeta in B. fold m t in B. pose proof unitc as U.
  assert (EL : lastBin b = (ns - 1)%nat) by (unfold lastBin, b; now rewrite geo_len). destruct Hs as (S1 & _). rewrite EL.
  assert (EM : m = (F ^ i + F ^ j) * (IZR c0 * (massC / avogadro))) by (unfold m; rewrite !scale by auto; ring). split; intros Ht.
  - assert (BB : el b t <= m < el b (S t)).
    { rewrite EM, !scale by lia. destruct B as (B1 & B2). split; [apply Rmult_le_compat_r; lra|apply Rmult_lt_compat_r; auto]. }
    split; [exact BB|]. unfold shareLow. pose proof (bins_lt b G_geo t (S t) ltac:(lia) ltac:(unfold b; rewrite geo_len; lia)).
    split; [apply Rmult_lt_0_compat; [lra|apply Rinv_0_lt_compat; lra]|]. apply Rmult_le_reg_r with (el b (S t) - el b t); [lra|].
    unfold Rdiv. rewrite Rmult_assoc, Rinv_l by lra. lra.
  - rewrite EM, scale by lia. apply Rmult_le_compat_r; [lra|]. apply Rle_trans with (F ^ t); [now apply pow_mono|tauto].
Qed.
Lemma credit_nneg i j l : (i < ns)%nat -> (j < ns)%nat -> let m := el b i + el b j in 0 <= credit b (binOf c b m) m l.
Proof.
  intros Hi Hj m. destruct (C31_bracket i j Hi Hj) as (A & B). fold m in A, B. cbv zeta in A, B. unfold credit.
  assert (P : forall q, (q < ns)%nat -> 0 < el b q) by (intros; apply (bins_pos b G_geo); unfold b; now rewrite geo_len).
  destruct Hs as (S1 & _). destruct (Nat.leb_spec (lastBin b) (binOf c b m)) as [Q|Q].
  - destruct (Nat.eqb l (lastBin b)); [|lra]. pose proof (P _ Hi). pose proof (P _ Hj). 
    assert (0 < el b (lastBin b)) by (apply P; unfold lastBin, b; rewrite geo_len; lia). unfold m. apply Rlt_le, Rmult_lt_0_compat; [lra|now apply Rinv_0_lt_compat].
  - destruct (A Q) as (_ & A1). destruct (Nat.eqb l _); [lra|]. destruct (Nat.eqb l _); lra.
Qed.
End Geo.

(** ** signs *)
Section Sign.
Context (s : state (N:=XR)) (g : gas) (k : mechs) (n : list R) (V : valid s g n) (OM : okAll k).
Lemma conc_nn i : 0 <= i -> 0 <= dimerConc g i.
Proof.
  intros Hi. unfold dimerConc. destruct (Rlt_dec 0 (pahTotal g)) as [H|H]; [|lra].
  apply steady_nneg; auto; [|lra]. apply betaSelf_pos; [exact (v_Tpos _ _ _ V)|]. eapply dimerMass_pos; eauto.
Qed.
Lemma oN1_nn i : 0 <= i -> 0 <= oN1 (nucl k g i).
Proof.
  intros Hi. unfold oN1, nucl. destruct (isP k) eqn:EP; cbn [oJ oGas].
  - assert (0 <= pahNuclRate g i).
    { unfold pahNuclRate. unfold dimerConc. destruct (Rlt_dec 0 (pahTotal g)) as [H|H]; [|lra].
      pose proof (betaSelf_pos (gT g) (dimerMass g) (v_Tpos _ _ _ V) (dimerMass_pos s g n V H)) as B.
      apply Rmult_le_pos; [lra|]. apply pow2_ge_0. }
    apply Rmult_le_pos; auto. unfold nucMass, gasCMin. cbn [gCMin]. pose proof (pahCMin_pos s g n V). pose proof avo_pos. pose proof unit_pos as U.
    replace (pahCMin g * massC / avogadro) with (pahCMin g * (massC / avogadro)) by (field; lra). apply Rmult_le_pos; lra.
  - apply Rmult_le_pos; [eapply nuclFormula_nneg; eauto|]. unfold nucMass. pose proof (v_cMinpos _ _ _ V). pose proof unit_pos as U. pose proof avo_pos.
    replace (gCMin g * massC / avogadro) with (gCMin g * (massC / avogadro)) by (field; lra). apply Rmult_le_pos; lra.
Qed.
Lemma sphere_nn x : 0 <= sphere x.
Proof. unfold sphere. destruct (Rlt_dec 0 x); [|lra]. pose proof piC_pos. apply Rmult_le_pos; [lra|]. apply pow2_ge_0. Qed.
Lemma mass_nn i : 0 <= oMass (nucl k g i).
Proof.
  unfold nucl. destruct (isP k); cbn [oMass]; [|lra]. unfold dimerMass at 1. destruct (Rlt_dec 0 (pahTotal g)) as [H|H]; [|lra].
  pose proof (dimerMass_pos s g n V H) as D. unfold dimerMass in D. destruct (Rlt_dec 0 (pahTotal g)); [lra|contradiction].
Qed.
Lemma oConc_nn i : 0 <= i -> 0 <= oConc (nucl k g i).
Proof. intros. unfold nucl. destruct (isP k); cbn [oConc]; [now apply conc_nn|lra]. Qed.
End Sign.

(** ** C32 *)
Section Empty.
Context (c0 : Z) (F : R) (ns : nat) (Hc : (0 < c0)%Z) (HF : doubleAbove1 F) (Hs : sane ns).
Context (s : state (N:=XR)) (g : gas) (k : mechs) (n : list R) (V : valid s g n) (OM : okAll k) (Ln : length n = ns).
Let b := geometric c0 F ns.
Let c := / ln F.
Lemma GB : goodBins b. Proof. now apply G_geo. Qed.
Lemma up_nn r j : (j < ns)%nat -> (forall l, 0 <= r l) -> r j = 0 -> 0 <= moveUp b r j.
Proof.
  intros Hj Hr E. unfold moveUp. rewrite E. unfold Rdiv. rewrite !Rmult_0_l, Ropp_0.
  assert (0 <= (if Nat.eqb j 0 then 0 else r (j - 1)%nat * / (el b j - el b (j - 1)))).
  { destruct (Nat.eqb_spec j 0); [lra|]. apply Rmult_le_pos; auto. apply Rlt_le, Rinv_0_lt_compat.
    pose proof (bins_lt b GB (j - 1) j ltac:(lia) ltac:(unfold b; rewrite geo_len; lia)). lra. }
  destruct (Nat.eqb (S j) (length b)); lra.
Qed.
Lemma down_nn r j : (j < ns)%nat -> (forall l, 0 <= r l) -> r j = 0 -> 0 <= moveDown b r j.
Proof.
  intros Hj Hr E. unfold moveDown.
  assert (E0 : (if Nat.eqb j 0 then r 0%nat / el b 0 else r j / (el b j - el b (j - 1))) = 0).
  { destruct (Nat.eqb_spec j 0) as [->|]; rewrite E; unfold Rdiv; ring. } rewrite E0.
  assert (EL : length b = ns) by apply geo_len. rewrite EL.
  destruct (Nat.eqb_spec (S j) ns); [lra|].
  pose proof (bins_lt b GB j (S j) ltac:(lia) ltac:(lia)).
  assert (0 <= r (S j) / (el b (S j) - el b j)); [|lra]. apply Rmult_le_pos; auto. apply Rlt_le, Rinv_0_lt_compat. lra.
Qed.
Lemma nel_nn j : 0 <= el n j.
Proof.
  unfold el. destruct (Nat.lt_ge_cases j (length n)) as [H|H].
  - apply (v_sootpos _ _ _ V). now apply nth_In.
  - rewrite nth_overflow by auto. lra.
Qed.
Lemma coag_nn j : (j < ns)%nat -> el n j = 0 -> 0 <= coagAt k g b n c j.
Proof.
  intros Hj E. pose proof OM as (_ & _ & _ & _ & OC & OF). unfold coagAt. cbv zeta. assert (EL : length b = ns) by apply geo_len. rewrite EL.
  rewrite (Sum_0 ns (fun l => kernel k g (el b j) (el b l) * el n j * el n l)) by (intros; rewrite E; ring).
  match goal with |- 0 <= 1 / 2 * ?S - _ => assert (0 <= S); [|lra] end.
  apply Sum_nneg. intros i Hi. apply Sum_nneg. intros l Hl. apply Rmult_le_pos.
  - repeat apply Rmult_le_pos; try apply nel_nn. eapply kernel_nneg; eauto.
  - apply (credit_nneg c0 F ns Hc HF Hs); auto.
Qed.
Lemma source_nn j : (j < ns)%nat -> el n j = 0 ->
  0 <= sectSource k g b n c (nucl k g (dimerHits k g b n)) j.
Proof.
  intros Hj E. pose proof OM as (_ & _ & _ & _ & OC & OF). unfold sectSource. cbv zeta.
  assert (EL : length b = ns) by apply geo_len.
  assert (HI : 0 <= dimerHits k g b n). { apply Sum_nneg. intros l _. apply Rmult_le_pos; [|apply nel_nn]. eapply kernel_nneg; eauto. }
  set (o := nucl k g (dimerHits k g b n)).
  assert (HA : forall l, 0 <= binArea b n l) by (intros; unfold binArea; apply Rmult_le_pos; [apply nel_nn|apply sphere_nn]).
  assert (EA : binArea b n j = 0) by (unfold binArea; rewrite E; ring).
  assert (0 <= (if Nat.eqb j 0 then oN1 o / el b 0 else 0)).
  { destruct (Nat.eqb j 0); [|lra]. apply Rmult_le_pos; [now apply (oN1_nn s g k n V)|]. apply Rlt_le, Rinv_0_lt_compat, (bins_pos b GB). lia. }
  assert (0 <= moveUp b (fun l => kgrow k g (number n) (mass b n) * binArea b n l) j).
  { apply up_nn; auto; [|rewrite EA; ring]. intros. apply Rmult_le_pos; auto. eapply growFormula_nneg; eauto. }
  assert (0 <= moveUp b (condensed k g b n o) j).
  { apply up_nn; auto; [|unfold condensed; rewrite E; ring]. intros. unfold condensed. 
    apply Rmult_le_pos; [|now apply (mass_nn s g k n V)]. apply Rmult_le_pos; [|now apply (oConc_nn s g k n V)].
    apply Rmult_le_pos; [|apply nel_nn]. eapply kernel_nneg; eauto. }
  assert (0 <= moveDown b (fun l => koxid k g (number n) (mass b n) * binArea b n l) j).
  { apply down_nn; auto; [|rewrite EA; ring]. intros. apply Rmult_le_pos; auto. eapply oxidFormula_nneg; eauto. }
  pose proof (coag_nn j Hj E). lra.
Qed.
End Empty.
