(** A mathematical library meeting the accuracy assumption of C71, and arguments meeting its range assumptions. *)
From Coq Require Import ZArith List Bool Reals Lra Lia.
From Coq.Floats Require Import SpecFloat.
From Flocq Require Import Core BinarySingleNaN.
From Verif Require Import Num XR F64 SpecBinomial SpecRound RoundProofs RoundExpr.
Local Open Scope R_scope.

Local Instance prec64_pos' : FLX.Prec_gt_0 prec64 := eq_refl _.
Local Instance prec64_lt' : Prec_lt_emax prec64 emax64 := eq_refl _.
Notation fexp64 := (SpecFloat.fexp prec64 emax64).

(** the double nearest to a real number *)
Definition nearest (r : R) : spec_float :=
  SpecFloat.binary_normalize prec64 emax64 (ZnearestE (scaled_mantissa radix2 fexp64 r)) (cexp radix2 fexp64 r) false.
Lemma nearest_val r : Rabs r <= bpow radix2 1022 -> isDouble (nearest r) /\ sfVal (nearest r) = round radix2 fexp64 (round_mode mode_NE) r.
Proof.
  intro H. destruct (round_any r H) as (O & _). unfold nearest. rewrite normalize_same.
  pose proof (binary_normalize_correct prec64 emax64 prec64_pos' prec64_lt' mode_NE (ZnearestE (scaled_mantissa radix2 fexp64 r)) (cexp radix2 fexp64 r) false) as C. cbv zeta in C.
  change (F2R {| Fnum := ZnearestE (scaled_mantissa radix2 fexp64 r); Fexp := cexp radix2 fexp64 r |}) with (round radix2 fexp64 (round_mode mode_NE) r) in C.
  rewrite (round_generic radix2 fexp64 (round_mode mode_NE) (round radix2 fexp64 (round_mode mode_NE) r)) in C.
  - rewrite O in C. destruct C as (E & F & _). split; [apply toDouble; exact F|]. rewrite val_B. exact E.
  - apply generic_format_round; [apply fexp_correct; reflexivity|apply valid_rnd_round_mode].
Qed.
Lemma nearest_within r : bpow radix2 (-1022) <= Rabs r <= bpow radix2 1022 -> within 1 (nearest r) r.
Proof.
  intros [L H]. destruct (nearest_val r H) as [D E]. split; [exact D|]. rewrite E. assert (HH : bpow radix2 1022 <= bpow radix2 1023) by (apply bpow_le; lia).
  destruct (round_near r ltac:(lra)) as (_ & e & E1 & E2). rewrite E2. replace (r * (1 + e) - r) with (e * r) by ring. rewrite Rabs_mult. apply Rmult_le_compat_r; [apply Rabs_pos|].
  change (/ 2 ^ 52) with unitE. rewrite unitE_half in E1. pose proof unitE_pos. lra.
Qed.
Definition exactLibm : libm := mkLibm (fun x => nearest (exp (sfVal x))) (fun x => x) (fun x => x) (fun x => x)
  (fun x y => match x with S754_zero _ => S754_zero false | _ => nearest (Rpower (sfVal x) (sfVal y)) end).

Lemma exp_le_ x y : x <= y -> exp x <= exp y.
Proof. intros [H|H]; [left; apply exp_increasing; exact H|rewrite H; lra]. Qed.
Lemma exp_nat n x : exp (INR n * x) = exp x ^ n.
Proof. induction n as [|n IH]; [rewrite Rmult_0_l, exp_0; reflexivity|]. rewrite S_INR, Rmult_plus_distr_r, exp_plus, IH, Rmult_1_l. cbn [pow]. ring. Qed.
Lemma exp_div n : (0 < n)%nat -> exp 1 = exp (/ INR n) ^ n.
Proof. intro H. rewrite <- exp_nat. f_equal. symmetry. apply Rinv_r. apply not_0_INR. lia. Qed.
Lemma pow_ratio (p q : Z) n (N D : Z) : (0 < q)%Z -> (0 < D)%Z -> (p ^ Z.of_nat n * D <=? N * q ^ Z.of_nat n)%Z = true -> (IZR p / IZR q) ^ n <= IZR N / IZR D.
Proof.
  intros Q P H. apply Z.leb_le, IZR_le in H. rewrite !mult_IZR, <- !pow_IZR in H. assert (QQ : 0 < IZR q) by (apply IZR_lt; exact Q). assert (PP : 0 < IZR D) by (apply IZR_lt; exact P).
  assert (QN : 0 < IZR q ^ n) by (apply pow_lt; exact QQ). unfold Rdiv. rewrite Rpow_mult_distr, pow_inv. apply (Rmult_le_reg_r (IZR q ^ n * IZR D)); [apply Rmult_lt_0_compat; assumption|].
  replace (IZR p ^ n * / IZR q ^ n * (IZR q ^ n * IZR D)) with (IZR p ^ n * IZR D) by (field; lra). replace (IZR N * / IZR D * (IZR q ^ n * IZR D)) with (IZR N * IZR q ^ n) by (field; lra). exact H.
Qed.
Lemma pow_ratio' (p q : Z) n (N D : Z) : (0 < q)%Z -> (0 < D)%Z -> (N * q ^ Z.of_nat n <=? p ^ Z.of_nat n * D)%Z = true -> IZR N / IZR D <= (IZR p / IZR q) ^ n.
Proof.
  intros Q P H. apply Z.leb_le, IZR_le in H. rewrite !mult_IZR, <- !pow_IZR in H. assert (QQ : 0 < IZR q) by (apply IZR_lt; exact Q). assert (PP : 0 < IZR D) by (apply IZR_lt; exact P).
  assert (QN : 0 < IZR q ^ n) by (apply pow_lt; exact QQ). unfold Rdiv. rewrite Rpow_mult_distr, pow_inv. apply (Rmult_le_reg_r (IZR q ^ n * IZR D)); [apply Rmult_lt_0_compat; assumption|].
  replace (IZR p ^ n * / IZR q ^ n * (IZR q ^ n * IZR D)) with (IZR p ^ n * IZR D) by (field; lra). replace (IZR N * / IZR D * (IZR q ^ n * IZR D)) with (IZR N * IZR q ^ n) by (field; lra). exact H.
Qed.
Lemma e_hi : exp 1 <= 11 / 4.
Proof.
  rewrite (exp_div 64) by lia. apply Rle_trans with ((64 / 63) ^ 64).
  - apply pow_incr. split; [left; apply exp_pos|]. rewrite INR_IZR_INZ. change (Z.of_nat 64) with 64%Z.
    pose proof (exp_ineq1_le (- / 64)) as E. rewrite exp_Ropp in E. pose proof (exp_pos (/ 64)) as P. apply (Rmult_le_reg_l (/ exp (/ 64))); [apply Rinv_0_lt_compat; exact P|]. rewrite Rinv_l by lra. lra.
  - apply pow_ratio; [lia|lia|]. vm_compute. reflexivity.
Qed.
Lemma exp700 : exp 700 = exp 1 ^ 700.
Proof. rewrite <- exp_nat. f_equal. rewrite INR_IZR_INZ. change (Z.of_nat 700) with 700%Z. ring. Qed.
Lemma exp_hi : exp 700 <= bpow radix2 1022.
Proof.
  rewrite exp700. apply Rle_trans with ((11 / 4) ^ 700).
  - apply pow_incr. split; [left; apply exp_pos|apply e_hi].
  - replace (bpow radix2 1022) with (IZR (2 ^ 1022) / 1) by (unfold Rdiv; rewrite Rinv_1, Rmult_1_r; reflexivity). apply pow_ratio; [lia|lia|]. vm_compute. reflexivity.
Qed.
Lemma exp_lo : exp (-700) <= / 2 ^ 901.
Proof.
  change (-700) with (- (700)). rewrite exp_Ropp, exp700. apply Rinv_le_contravar; [apply pow_lt; lra|]. apply Rle_trans with ((5 / 2) ^ 700).
  - replace (2 ^ 901) with (IZR (2 ^ 901) / 1) by (unfold Rdiv; rewrite Rinv_1, Rmult_1_r, pow_IZR; reflexivity). apply pow_ratio'; [lia|lia|]. vm_compute. reflexivity.
  - apply pow_incr. split; [lra|]. rewrite (exp_div 8) by lia. apply Rle_trans with ((9 / 8) ^ 8); [lra|]. apply pow_incr. rewrite INR_IZR_INZ. change (Z.of_nat 8) with 8%Z. pose proof (exp_ineq1_le (/ 8)). lra.
Qed.
Lemma exp_in x : -700 <= x <= 700 -> bpow radix2 (-1022) <= Rabs (exp x) <= bpow radix2 1022.
Proof.
  intros [L H]. pose proof (exp_pos x). rewrite Rabs_pos_eq by lra. split.
  - apply Rle_trans with (exp (-700)); [|apply exp_le_; exact L]. change (-1022)%Z with (- (1022))%Z. rewrite bpow_opp. change (-700) with (- (700)). rewrite exp_Ropp.
    apply Rinv_le_contravar; [apply exp_pos|apply exp_hi].
  - apply Rle_trans with (exp 700); [apply exp_le_; exact H|apply exp_hi].
Qed.
Lemma accurate_some : accurate exactLibm.
Proof.
  split.
  - intros x D B. cbn [lm_exp exactLibm]. apply nearest_within, exp_in. exact B.
  - intros x D B. cbn [lm_exp exactLibm]. pose proof (exp_pos (sfVal x)) as P. pose proof exp_lo as L. assert (E : exp (sfVal x) <= exp (-700)) by (apply exp_le_; lra).
    assert (S : / 2 ^ 901 <= bpow radix2 1022). { apply Rle_trans with 1; [|change 1 with (bpow radix2 0); apply bpow_le; lia]. rewrite <- Rinv_1 at 1. apply Rinv_le_contravar; [lra|apply pow_R1_Rle; lra]. }
    assert (A : Rabs (exp (sfVal x)) <= bpow radix2 1022) by (rewrite Rabs_pos_eq; lra).
    destruct (nearest_val _ A) as [DD V]. split; [exact DD|]. rewrite V.
    assert (W : Valid_rnd (round_mode mode_NE)) by apply valid_rnd_round_mode. assert (X : Valid_exp fexp64) by (apply fexp_correct; reflexivity). split.
    + rewrite <- (round_0 radix2 fexp64 (round_mode mode_NE)). apply round_le; [assumption|assumption|lra].
    + destruct (round_any _ A) as (_ & R). rewrite (Rabs_pos_eq (exp (sfVal x))) in R by lra. replace (/ 2 ^ 900) with (2 * / 2 ^ 901) by (rewrite <- (tech_pow_Rmult 2 900); field; apply pow_nonzero; lra).
      assert (T : bpow radix2 (-1000) <= / 2 ^ 901 * / 4).
      { rewrite <- Rinv_mult. change (-1000)%Z with (- (1000))%Z. rewrite bpow_opp. apply Rinv_le_contravar; [apply Rmult_lt_0_compat; [apply pow_lt; lra|lra]|].
        rewrite pow_IZR, <- mult_IZR. change (bpow radix2 1000) with (IZR (2 ^ 1000)). apply IZR_le, Z.leb_le. vm_compute. reflexivity. }
      assert (U : / 2 ^ 53 <= / 4) by (rewrite unitE_half; pose proof (units_small 1 ltac:(lia)); lra).
      assert (P9 : 0 < / 2 ^ 901) by (apply Rinv_0_lt_compat, pow_lt; lra).
      assert (/ 2 ^ 53 * exp (sfVal x) <= / 4 * / 2 ^ 901) by (apply Rmult_le_compat; [left; apply Rinv_0_lt_compat, pow_lt; lra|lra|exact U|lra]).
      apply Rabs_le_inv in R. lra.
  - intros x y Dx Dy P B. cbn [lm_pow exactLibm]. destruct x; try (apply nearest_within; unfold Rpower; apply exp_in; lra). cbn in P. lra.
  - intros b y Dy P. reflexivity.
Qed.
