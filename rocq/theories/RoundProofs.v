(** Rounding errors of binary64: the SpecFloat operations are those of Flocq. *)
From Coq Require Import ZArith List Bool Reals Lra Lia.
From Coq.Floats Require Import SpecFloat.
From Flocq Require Import Core BinarySingleNaN Relative Plus_error.
From Verif Require Import Num XR F64 SpecBinomial SpecRound.
Local Open Scope R_scope.

Local Instance prec64_pos : FLX.Prec_gt_0 prec64 := eq_refl _.
Local Instance prec64_lt : Prec_lt_emax prec64 emax64 := eq_refl _.

(** as in Flocq.IEEE754.PrimFloat, without the primitive floats *)
Lemma rne_same s m l : round_nearest_even m l = choice_mode mode_NE s m l.
Proof. case l; [reflexivity|intro c]. case c; [|reflexivity..]. now simpl; unfold Round.cond_incr; case Z.even. Qed.
Lemma aux_same sx mx ex lx : SpecFloat.binary_round_aux prec64 emax64 sx mx ex lx = BinarySingleNaN.binary_round_aux prec64 emax64 mode_NE sx mx ex lx.
Proof.
  unfold SpecFloat.binary_round_aux, BinarySingleNaN.binary_round_aux. set (q := shr_fexp _ _ _ _ _). case q. intros mrs e; simpl.
  now rewrite (rne_same sx).
Qed.
Lemma round_same s m e : SpecFloat.binary_round prec64 emax64 s m e = BinarySingleNaN.binary_round prec64 emax64 mode_NE s m e.
Proof.
  unfold SpecFloat.binary_round, BinarySingleNaN.binary_round, shl_align_fexp. set (q := shl_align _ _ _). case q. intros. apply aux_same.
Qed.
Lemma normalize_same m e z : SpecFloat.binary_normalize prec64 emax64 m e z = B2SF (BinarySingleNaN.binary_normalize prec64 emax64 _ _ mode_NE m e z).
Proof. case m as [|p|p]; [reflexivity| |]; simpl; rewrite B2SF_SF2B; apply round_same. Qed.

Notation B := (binary_float prec64 emax64).
Lemma mul_same (x y : B) : SFmul prec64 emax64 (B2SF x) (B2SF y) = B2SF (Bmult mode_NE x y).
Proof. destruct x, y; try reflexivity. simpl. rewrite B2SF_SF2B. apply aux_same. Qed.
Lemma add_same (x y : B) : SFadd prec64 emax64 (B2SF x) (B2SF y) = B2SF (Bplus mode_NE x y).
Proof. destruct x, y; try reflexivity; try (simpl; destruct (eqb _ _); reflexivity). apply normalize_same. Qed.
Lemma sub_same (x y : B) : SFsub prec64 emax64 (B2SF x) (B2SF y) = B2SF (Bminus mode_NE x y).
Proof.
  destruct x, y; try reflexivity; try (simpl; destruct (eqb _ _); reflexivity).
  simpl. unfold Zminus. rewrite <- cond_Zopp_negb. apply normalize_same.
Qed.
Lemma div_same (x y : B) : SFdiv prec64 emax64 (B2SF x) (B2SF y) = B2SF (Bdiv mode_NE x y).
Proof.
  destruct x, y; try reflexivity. simpl. rewrite B2SF_SF2B. set (q := SFdiv_core_binary _ _ _ _ _ _). case q as [[mz ez] lz]. apply aux_same.
Qed.
Lemma sqrt_same (x : B) : SFsqrt prec64 emax64 (B2SF x) = B2SF (Bsqrt mode_NE x).
Proof.
  destruct x as [s|s| |s m e h]; try reflexivity; destruct s; try reflexivity. simpl. rewrite B2SF_SF2B.
  set (q := SFsqrt_core_binary _ _ _ _). case q as [[mz ez] lz]. apply aux_same.
Qed.

Lemma val_same (x : spec_float) : sfVal x = SF2R radix2 x.
Proof. destruct x; try reflexivity. unfold sfVal, SF2R, F2R; simpl. rewrite bpow_powerRZ. reflexivity. Qed.
Lemma val_B (x : B) : sfVal (B2SF x) = B2R x.
Proof. rewrite val_same. apply SF2R_B2SF. Qed.
Lemma ofDouble x : isDouble x -> exists b : B, B2SF b = x /\ is_finite b = true.
Proof.
  intros [V F]. exists (SF2B x V). split; [apply B2SF_SF2B|]. rewrite is_finite_SF2B. destruct x; try discriminate F; reflexivity.
Qed.
Lemma toDouble (b : B) : is_finite b = true -> isDouble (B2SF b).
Proof. intro F. split; [apply valid_binary_B2SF|]. destruct b; try discriminate F; reflexivity. Qed.

(** one rounding *)
Lemma round_near z : bpow radix2 (-1022) <= Rabs z <= bpow radix2 1023 ->
  Rlt_bool (Rabs (round radix2 (SpecFloat.fexp prec64 emax64) (round_mode mode_NE) z)) (bpow radix2 emax64) = true /\
  exists e, Rabs e <= / 2 ^ 53 /\ round radix2 (SpecFloat.fexp prec64 emax64) (round_mode mode_NE) z = z * (1 + e).
Proof.
  intros [L H]. assert (X : exists e, Rabs e <= / 2 ^ 53 /\ round radix2 (SpecFloat.fexp prec64 emax64) (round_mode mode_NE) z = z * (1 + e)).
  { destruct (relative_error_N_FLT_ex radix2 (SpecFloat.emin prec64 emax64) prec64 prec64_pos (fun x => negb (Z.even x)) z) as (e & E1 & E2).
    - exact L.
    - exists e. split; [|exact E2]. replace (/ 2 ^ 53) with (/ 2 * bpow radix2 (- prec64 + 1)); [exact E1|].
      change (bpow radix2 (- prec64 + 1)) with (/ IZR (2 ^ 52)). replace (2 ^ 53) with (2 * IZR (2 ^ 52)); [field; apply Rgt_not_eq, IZR_lt; reflexivity|].
      change (2 ^ 53) with (2 * 2 ^ 52). rewrite (pow_IZR 2 52). reflexivity. }
  split; [|exact X]. destruct X as (e & E1 & ->). apply Rlt_bool_true. rewrite Rabs_mult.
  assert (P : 0 < / 2 ^ 53 <= / 2). { split; [apply Rinv_0_lt_compat, pow_lt; lra|]. apply Rinv_le_contravar; [lra|]. apply Rle_trans with (2 ^ 1); [lra|apply Rle_pow; [lra|lia]]. }
  assert (Rabs (1 + e) < 2). { unfold Rabs in *. destruct (Rcase_abs (1 + e)), (Rcase_abs e); lra. }
  change emax64 with (1 + 1023)%Z. rewrite bpow_plus. change (bpow radix2 1) with 2.
  apply Rle_lt_trans with (bpow radix2 1023 * Rabs (1 + e)). { apply Rmult_le_compat_r; [apply Rabs_pos|exact H]. }
  rewrite Rmult_comm. apply Rmult_lt_compat_r; [apply bpow_gt_0|assumption].
Qed.

Lemma mul_round x y : isDouble x -> isDouble y -> bpow radix2 (-1022) <= Rabs (sfVal x * sfVal y) <= bpow radix2 1023 ->
  isDouble (SFmul prec64 emax64 x y) /\ exists e, Rabs e <= / 2 ^ 53 /\ sfVal (SFmul prec64 emax64 x y) = sfVal x * sfVal y * (1 + e).
Proof.
  intros Dx Dy H. destruct (ofDouble x Dx) as (a & <- & Fa). destruct (ofDouble y Dy) as (b & <- & Fb). rewrite !val_B in *. rewrite mul_same.
  pose proof (Bmult_correct prec64 emax64 prec64_pos prec64_lt mode_NE a b) as C. destruct (round_near _ H) as (O & e & E1 & E2). rewrite O in C.
  destruct C as (C1 & C2 & _). rewrite Fa, Fb in C2. split; [apply toDouble; exact C2|]. exists e. split; [exact E1|]. rewrite val_B, C1. exact E2.
Qed.
Lemma add_round x y : isDouble x -> isDouble y -> bpow radix2 (-1022) <= Rabs (sfVal x + sfVal y) <= bpow radix2 1023 ->
  isDouble (SFadd prec64 emax64 x y) /\ exists e, Rabs e <= / 2 ^ 53 /\ sfVal (SFadd prec64 emax64 x y) = (sfVal x + sfVal y) * (1 + e).
Proof.
  intros Dx Dy H. destruct (ofDouble x Dx) as (a & <- & Fa). destruct (ofDouble y Dy) as (b & <- & Fb). rewrite !val_B in *. rewrite add_same.
  pose proof (Bplus_correct prec64 emax64 prec64_pos prec64_lt mode_NE a b Fa Fb) as C. destruct (round_near _ H) as (O & e & E1 & E2). rewrite O in C.
  destruct C as (C1 & C2 & _). split; [apply toDouble; exact C2|]. exists e. split; [exact E1|]. rewrite val_B, C1. exact E2.
Qed.
Lemma sub_round x y : isDouble x -> isDouble y -> bpow radix2 (-1022) <= Rabs (sfVal x - sfVal y) <= bpow radix2 1023 ->
  isDouble (SFsub prec64 emax64 x y) /\ exists e, Rabs e <= / 2 ^ 53 /\ sfVal (SFsub prec64 emax64 x y) = (sfVal x - sfVal y) * (1 + e).
Proof.
  intros Dx Dy H. destruct (ofDouble x Dx) as (a & <- & Fa). destruct (ofDouble y Dy) as (b & <- & Fb). rewrite !val_B in *. rewrite sub_same.
  pose proof (Bminus_correct prec64 emax64 prec64_pos prec64_lt mode_NE a b Fa Fb) as C. destruct (round_near _ H) as (O & e & E1 & E2). rewrite O in C.
  destruct C as (C1 & C2 & _). split; [apply toDouble; exact C2|]. exists e. split; [exact E1|]. rewrite val_B, C1. exact E2.
Qed.
Lemma div_round x y : isDouble x -> isDouble y -> sfVal y <> 0 -> bpow radix2 (-1022) <= Rabs (sfVal x / sfVal y) <= bpow radix2 1023 ->
  isDouble (SFdiv prec64 emax64 x y) /\ exists e, Rabs e <= / 2 ^ 53 /\ sfVal (SFdiv prec64 emax64 x y) = sfVal x / sfVal y * (1 + e).
Proof.
  intros Dx Dy NZ H. destruct (ofDouble x Dx) as (a & <- & Fa). destruct (ofDouble y Dy) as (b & <- & Fb). rewrite !val_B in *. rewrite div_same.
  pose proof (Bdiv_correct prec64 emax64 prec64_pos prec64_lt mode_NE a b NZ) as C. destruct (round_near _ H) as (O & e & E1 & E2). rewrite O in C.
  destruct C as (C1 & C2 & _). rewrite Fa in C2. split; [apply toDouble; exact C2|]. exists e. split; [exact E1|]. rewrite val_B, C1. exact E2.
Qed.
Lemma sqrt_round x : isDouble x -> 0 < sfVal x -> bpow radix2 (-1022) <= Rabs (sqrt (sfVal x)) <= bpow radix2 1023 ->
  isDouble (SFsqrt prec64 emax64 x) /\ exists e, Rabs e <= / 2 ^ 53 /\ sfVal (SFsqrt prec64 emax64 x) = sqrt (sfVal x) * (1 + e).
Proof.
  intros Dx P H. destruct (ofDouble x Dx) as (a & <- & Fa). rewrite !val_B in *. rewrite sqrt_same.
  pose proof (Bsqrt_correct prec64 emax64 prec64_pos prec64_lt mode_NE a) as C. destruct (round_near _ H) as (O & e & E1 & E2).
  destruct C as (C1 & C2 & _).
  assert (F : is_finite (Bsqrt mode_NE a) = true).
  { rewrite C2. destruct a as [s|s| |s m0 e0 h]; try discriminate Fa; try reflexivity. destruct s; [|reflexivity]. exfalso. simpl in P.
    apply (Rlt_irrefl 0). eapply Rlt_trans; [exact P|]. apply F2R_lt_0. reflexivity. }
  split; [apply toDouble; exact F|]. exists e. split; [exact E1|]. rewrite val_B, C1. exact E2.
Qed.

(** one rounding, also where the result underflows *)
Lemma round_any z : Rabs z <= bpow radix2 1022 ->
  Rlt_bool (Rabs (round radix2 (SpecFloat.fexp prec64 emax64) (round_mode mode_NE) z)) (bpow radix2 emax64) = true /\
  Rabs (round radix2 (SpecFloat.fexp prec64 emax64) (round_mode mode_NE) z - z) <= / 2 ^ 53 * Rabs z + bpow radix2 (-1000).
Proof.
  intro H. destruct (Rle_dec (bpow radix2 (-1022)) (Rabs z)) as [L|L].
  - assert (HH : bpow radix2 1022 <= bpow radix2 1023) by (apply bpow_le; lia).
    destruct (round_near z) as (O & e & E1 & E2); [lra|]. split; [exact O|]. rewrite E2.
    replace (z * (1 + e) - z) with (e * z) by ring. rewrite Rabs_mult. pose proof (bpow_ge_0 radix2 (-1000)). pose proof (Rmult_le_compat_r (Rabs z) _ _ (Rabs_pos z) E1). lra.
  - assert (L' : Rabs z <= bpow radix2 (-1022)) by lra.
    assert (G : generic_format radix2 (SpecFloat.fexp prec64 emax64) (bpow radix2 (-1022))) by (apply generic_format_bpow; vm_compute; discriminate).
    assert (R : Rabs (round radix2 (SpecFloat.fexp prec64 emax64) (round_mode mode_NE) z) <= bpow radix2 (-1022)).
    { apply abs_round_le_generic; [apply (fexp_correct prec64 emax64 prec64_pos)|apply valid_rnd_round_mode|exact G|exact L']. }
    split; [apply Rlt_bool_true; eapply Rle_lt_trans; [exact R|apply bpow_lt; reflexivity]|].
    assert (T : bpow radix2 (-1022) * 2 <= bpow radix2 (-1000)). { change 2 with (bpow radix2 1). rewrite <- bpow_plus. apply bpow_le. lia. }
    eapply Rle_trans; [apply Rabs_triang|]. rewrite Rabs_Ropp.
    assert (0 <= / 2 ^ 53 * Rabs z). { apply Rmult_le_pos; [left; apply Rinv_0_lt_compat, pow_lt; lra|apply Rabs_pos]. }
    lra.
Qed.
Lemma mul_any x y : isDouble x -> isDouble y -> Rabs (sfVal x * sfVal y) <= bpow radix2 1022 ->
  isDouble (SFmul prec64 emax64 x y) /\ Rabs (sfVal (SFmul prec64 emax64 x y) - sfVal x * sfVal y) <= / 2 ^ 53 * Rabs (sfVal x * sfVal y) + bpow radix2 (-1000).
Proof.
  intros Dx Dy H. destruct (ofDouble x Dx) as (a & <- & Fa). destruct (ofDouble y Dy) as (b & <- & Fb). rewrite !val_B in *. rewrite mul_same.
  pose proof (Bmult_correct prec64 emax64 prec64_pos prec64_lt mode_NE a b) as C. destruct (round_any _ H) as (O & E). rewrite O in C.
  destruct C as (C1 & C2 & _). rewrite Fa, Fb in C2. split; [apply toDouble; exact C2|]. rewrite val_B, C1. exact E.
Qed.
(** additions never underflow *)
Lemma add_any x y : isDouble x -> isDouble y -> Rabs (sfVal x + sfVal y) <= bpow radix2 1022 ->
  isDouble (SFadd prec64 emax64 x y) /\ exists e, Rabs e <= / 2 ^ 53 /\ sfVal (SFadd prec64 emax64 x y) = (sfVal x + sfVal y) * (1 + e).
Proof.
  intros Dx Dy H. destruct (ofDouble x Dx) as (a & <- & Fa). destruct (ofDouble y Dy) as (b & <- & Fb). rewrite !val_B in *. rewrite add_same.
  pose proof (Bplus_correct prec64 emax64 prec64_pos prec64_lt mode_NE a b Fa Fb) as C. destruct (round_any _ H) as (O & _). rewrite O in C.
  destruct C as (C1 & C2 & _). split; [apply toDouble; exact C2|]. rewrite val_B, C1.
  destruct (FLT_plus_error_N_ex radix2 (SpecFloat.emin prec64 emax64) prec64 (fun x => negb (Z.even x)) (B2R a) (B2R b)) as (e & E1 & E2); try (apply generic_format_B2R).
  exists e. split; [|exact E2]. eapply Rle_trans; [exact E1|]. unfold u_ro.
  assert (U : / 2 * bpow radix2 (- prec64 + 1) = / 2 ^ 53).
  { change (bpow radix2 (- prec64 + 1)) with (/ IZR (2 ^ 52)). replace (2 ^ 53) with (2 * IZR (2 ^ 52)); [field; apply Rgt_not_eq, IZR_lt; reflexivity|].
    change (2 ^ 53) with (2 * 2 ^ 52). rewrite (pow_IZR 2 52). reflexivity. }
  rewrite U. assert (P : 0 < / 2 ^ 53) by (apply Rinv_0_lt_compat, pow_lt; lra). apply (Rmult_le_reg_r (1 + / 2 ^ 53)); [lra|]. unfold Rdiv. rewrite Rmult_assoc, Rinv_l, Rmult_1_r by lra.
  pose proof (Rmult_lt_0_compat _ _ P P). lra.
Qed.
