(** Bounds on exponentials, and uniqueness of the nearest double: lemmas of C78. *)
From Coq Require Import ZArith List Bool Lia Reals Lra.
From Coq.Floats Require Import SpecFloat.
From Flocq Require Import Core IEEE754.BinarySingleNaN.
From Verif Require Import Num F64 SpecBinomial SpecRound SpecSections RoundProofs.
Local Open Scope R_scope.

(** ** the nearest double *)
Lemma near_same d r x : isDouble d -> sfVal d = r -> sfVal d <> 0 -> nearestTo x r -> x = d.
Proof.
  intros D E NZ [X N]. specialize (N d D). rewrite E in N. replace (r - r) with 0 in N by ring. rewrite Rabs_R0 in N. pose proof (Rabs_pos (sfVal x - r)).
  assert (V : sfVal x = sfVal d). { destruct (Req_dec (sfVal x - r) 0) as [Z|Z]; [lra|]. pose proof (Rabs_pos_lt _ Z). lra. }
  destruct (ofDouble x X) as (b & <- & F). destruct (ofDouble d D) as (c & <- & G). rewrite !val_B in *. f_equal. apply B2R_inj; [| |exact V].
  - destruct b; try discriminate F; [cbn in V; exfalso; apply NZ; symmetry; exact V|reflexivity].
  - destruct c; try discriminate G; [cbn in NZ; exfalso; apply NZ; reflexivity|reflexivity].
Qed.
Lemma near_unique m e r x : isDouble (S754_finite false m e) -> (2 ^ 52 < Zpos m < 2 ^ 53 - 1)%Z ->
  (IZR (Zpos m) - / 2) * bpow radix2 e < r < (IZR (Zpos m) + / 2) * bpow radix2 e -> nearestTo x r -> x = S754_finite false m e.
Proof.
  intros D [L H] [A B] [X N]. set (d := S754_finite false m e) in *. pose proof (N d D) as Nd.
  assert (Vd : sfVal d = IZR (Zpos m) * bpow radix2 e) by (unfold d; cbn [sfVal cond_Zopp]; rewrite <- (bpow_powerRZ radix2); reflexivity).
  pose proof (bpow_gt_0 radix2 e) as P. apply IZR_lt in L. apply IZR_lt in H. rewrite minus_IZR in H.
  assert (I : Rabs (sfVal x - sfVal d) < bpow radix2 e).
  { replace (sfVal x - sfVal d) with ((sfVal x - r) + (r - sfVal d)) by ring. apply Rle_lt_trans with (1 := Rabs_triang _ _).
    rewrite (Rabs_minus_sym r). assert (Rabs (sfVal d - r) < / 2 * bpow radix2 e) by (apply Rabs_def1; lra). lra. }
  apply Rabs_def2 in I. destruct I as [I1 I2].
  assert (XP : bpow radix2 (52 + e) < sfVal x). { rewrite bpow_plus. change (bpow radix2 52) with (IZR (2 ^ 52)). assert (IZR (2 ^ 52) + 1 <= IZR (Zpos m)) by (rewrite <- plus_IZR; apply IZR_le; apply lt_IZR in L; lia). nra. }
  destruct X as [XV XF]. destruct x as [s|s| |s m' e']; try discriminate XF; cbn [sfVal] in XP, I1, I2; [exfalso; pose proof (bpow_gt_0 radix2 (52 + e)); lra|].
  rewrite <- (bpow_powerRZ radix2) in XP, I1, I2. change (IZR radix2) with 2 in *.
  assert (s = false). { destruct s; [|reflexivity]. exfalso. cbn [cond_Zopp] in XP. pose proof (bpow_gt_0 radix2 (52 + e)). pose proof (bpow_gt_0 radix2 e'). assert (IZR (- Zpos m') < 0) by (apply IZR_lt; lia). nra. }
  subst s. cbn [cond_Zopp] in XP, I1, I2.
  assert (M' : (Zpos m' < 2 ^ 53)%Z).
  { cbn [valid_binary] in XV. unfold bounded, canonical_mantissa in XV. apply andb_prop in XV. destruct XV as [C _]. apply Zeq_bool_eq in C.
    rewrite Zpos_digits2_pos in C. unfold SpecFloat.fexp, SpecFloat.emin, prec64, emax64 in C. assert (Q : (Zdigits radix2 (Zpos m') <= 53)%Z) by lia.
    pose proof (Zpower_gt_Zdigits radix2 53 (Zpos m') Q) as G. cbn [Z.abs] in G. exact G. }
  assert (E : (e <= e')%Z).
  { destruct (Z.le_gt_cases e e') as [Q|Q]; [exact Q|exfalso]. assert (bpow radix2 e' <= bpow radix2 (e - 1)) by (apply bpow_le; lia).
    assert (IZR (Zpos m') * bpow radix2 e' <= bpow radix2 53 * bpow radix2 (e - 1)). { apply Rmult_le_compat; [apply IZR_le; lia|apply bpow_ge_0| |assumption]. change (bpow radix2 53) with (IZR (2 ^ 53)). apply IZR_le. lia. }
    rewrite <- bpow_plus in H1. replace (53 + (e - 1))%Z with (52 + e)%Z in H1 by lia. lra. }
  assert (Z : (Zpos m' * 2 ^ (e' - e) = Zpos m)%Z).
  { assert (Q : IZR (Zpos m') * bpow radix2 e' = IZR (Zpos m' * 2 ^ (e' - e)) * bpow radix2 e).
    { rewrite mult_IZR, (IZR_Zpower radix2) by lia. rewrite Rmult_assoc, <- bpow_plus. f_equal. f_equal. lia. }
    rewrite Q, Vd in I1, I2. set (z := (Zpos m' * 2 ^ (e' - e))%Z) in *. rewrite <- Rmult_minus_distr_r, <- minus_IZR in I1, I2.
    assert (J1 : IZR (z - Zpos m) < 1) by (apply Rmult_lt_reg_r with (bpow radix2 e); lra). assert (J2 : -1 < IZR (z - Zpos m)) by (apply Rmult_lt_reg_r with (bpow radix2 e); lra).
    apply lt_IZR in J1. apply lt_IZR in J2. lia. }
  apply (near_same d (sfVal d)); [exact D|reflexivity| |].
  - rewrite Vd. apply Rgt_not_eq. apply Rmult_lt_0_compat; [apply IZR_lt; lia|exact P].
  - split; [split; [exact XV|reflexivity]|]. intros y _. cbn [sfVal cond_Zopp]. rewrite <- (bpow_powerRZ radix2). change (IZR radix2) with 2. rewrite Vd, <- Z, mult_IZR, (IZR_Zpower radix2) by lia.
    rewrite Rmult_assoc, <- bpow_plus. replace (e' - e + e)%Z with e' by lia. replace (_ - _) with 0 by ring. rewrite Rabs_R0. apply Rabs_pos.
Qed.
(** the nearest double stays on the same side of any other double *)
Lemma near_between x r lo hi : nearestTo x r -> isDouble lo -> isDouble hi -> sfVal lo <= r <= sfVal hi -> sfVal lo <= sfVal x <= sfVal hi.
Proof.
  intros [X N] L H B. pose proof (N lo L) as N1. pose proof (N hi H) as N2. split.
  - destruct (Rle_or_lt (sfVal lo) (sfVal x)) as [Q|Q]; [exact Q|]. rewrite !Rabs_left1 in N1 by lra. lra.
  - destruct (Rle_or_lt (sfVal x) (sfVal hi)) as [Q|Q]; [exact Q|]. rewrite !Rabs_pos_eq in N2 by lra. lra.
Qed.

(** ** partial sums of the exponential *)
Fixpoint hs (n : nat) (k : Z) (x : R) : R := match n with O => 1 | S n' => 1 + x / IZR k * hs n' (k + 1) x end.
Definition eterm (x : R) (i : nat) : R := / INR (fact i) * x ^ i.
Lemma eterm_S x i : eterm x (S i) = eterm x i * (x / IZR (Z.of_nat (S i))).
Proof. unfold eterm. rewrite fact_simpl, mult_INR, <- INR_IZR_INZ. cbn [pow]. pose proof (INR_fact_neq_0 i). assert (INR (S i) <> 0) by (apply not_0_INR; lia). field. auto. Qed.
Lemma hs_tail x n : forall a, sum_f_R0 (fun i => eterm x (a + i)) n = eterm x a * hs n (Z.of_nat (S a)) x.
Proof.
  induction n as [|n IH]; intros a; cbn [sum_f_R0 hs].
  - rewrite Nat.add_0_r. ring.
  - rewrite <- tech5. rewrite decomp_sum by lia. cbn [pred]. rewrite (sum_eq _ (fun i => eterm x (S a + i))) by (intros i _; f_equal; lia).
    rewrite IH, Nat.add_0_r, eterm_S. replace (Z.of_nat (S a) + 1)%Z with (Z.of_nat (S (S a))) by lia. ring.
Qed.
Lemma hs_sum x n : sum_f_R0 (eterm x) n = hs n 1 x.
Proof. change (sum_f_R0 (fun i => eterm x (0 + i)) n = hs n 1 x). rewrite hs_tail. change (Z.of_nat 1) with 1%Z. replace (eterm x 0) with 1 by (unfold eterm; cbn; field). apply Rmult_1_l. Qed.
Lemma exp_cv x : Un_cv (fun n => sum_f_R0 (eterm x) n) (exp x).
Proof. unfold exp. destruct (exist_exp x) as [l H]. cbn. exact H. Qed.
Lemma exp_lo n x : 0 <= x -> hs n 1 x <= exp x.
Proof.
  intros H. rewrite <- hs_sum. apply sum_incr; [apply exp_cv|]. intros i. unfold eterm. apply Rmult_le_pos; [apply Rlt_le, Rinv_0_lt_compat, INR_fact_lt_0|apply pow_le; exact H].
Qed.
Lemma exp_neg_lo p x : 0 <= x <= 1 -> hs (S (2 * p)) 1 (- x) <= exp (- x).
Proof.
  intros H. rewrite <- hs_sum.
  assert (E : forall n, sum_f_R0 (eterm (- x)) n = sum_f_R0 (tg_alt (eterm x)) n).
  { intros n. apply sum_eq. intros i _. unfold tg_alt, eterm. replace (- x) with (-1 * x) by ring. rewrite Rpow_mult_distr. ring. }
  rewrite E. apply (alternated_series_ineq (eterm x) (exp (- x)) p).
  - intros n. rewrite eterm_S. rewrite <- (Rmult_1_r (eterm x n)) at 2. apply Rmult_le_compat_l; [apply Rmult_le_pos; [apply Rlt_le, Rinv_0_lt_compat, INR_fact_lt_0|apply pow_le; lra]|].
    assert (1 <= IZR (Z.of_nat (S n))) by (apply IZR_le; lia). apply Rmult_le_reg_r with (IZR (Z.of_nat (S n))); [lra|]. unfold Rdiv. rewrite Rmult_assoc, Rinv_l by lra. lra.
  - intros eps HE. destruct (cv_speed_pow_fact x eps HE) as [M HM]. exists M. intros n Hn. specialize (HM n Hn). unfold eterm. rewrite Rmult_comm. exact HM.
  - intros eps HE. destruct (exp_cv (- x) eps HE) as [M HM]. exists M. intros n Hn. rewrite <- E. apply HM. exact Hn.
Qed.
(** the same for n copies of x *)
Lemma exp_times n x : exp (INR n * x) = exp x ^ n.
Proof. induction n as [|n IH]; [cbn; rewrite Rmult_0_l; apply exp_0|]. rewrite S_INR, Rmult_plus_distr_r, exp_plus, IH, Rmult_1_l. cbn. ring. Qed.
Lemma ln_lo p n y x : 0 <= y <= 1 -> 0 < x -> 0 < hs (S (2 * p)) 1 (- y) -> / x < hs (S (2 * p)) 1 (- y) ^ n -> INR n * y < ln x.
Proof.
  intros Y X H0 H. apply exp_lt_inv. rewrite exp_ln by exact X. pose proof (exp_neg_lo p y Y) as L. pose proof (exp_pos (INR n * y)) as E.
  assert (Q : / x < exp (- (INR n * y))).
  { replace (- (INR n * y)) with (INR n * - y) by ring. rewrite exp_times. apply Rlt_le_trans with (1 := H). apply pow_incr. lra. }
  rewrite exp_Ropp in Q. destruct (Rle_or_lt x (exp (INR n * y))) as [W|W]; [|exact W]. exfalso. pose proof (Rinv_le_contravar _ _ X W). lra.
Qed.
Lemma ln_hi p n y x : 0 <= y -> 0 < x -> 0 <= hs p 1 y -> x < hs p 1 y ^ n -> ln x < INR n * y.
Proof.
  intros Y X H0 H. apply exp_lt_inv. rewrite exp_ln by exact X. rewrite exp_times. apply Rlt_le_trans with (1 := H). apply pow_incr. split; [exact H0|apply exp_lo; exact Y].
Qed.
