(** An analysis of rounding errors: expressions evaluated in binary64 and over the reals. *)
From Coq Require Import ZArith List Bool Reals Lra Lia.
From Coq.Floats Require Import SpecFloat.
From Flocq Require Import Core.
From Verif Require Import Num XR F64 SpecBinomial SpecRound RoundProofs.
Local Open Scope R_scope.

(** one unit of relative error *)
Definition unitE : R := / 2 ^ 52.
Lemma unitE_pos : 0 < unitE.
Proof. apply Rinv_0_lt_compat, pow_lt; lra. Qed.
Lemma unitE_half : / 2 ^ 53 = unitE / 2.
Proof. unfold unitE. change (2 ^ 53) with (2 * 2 ^ 52). rewrite Rinv_mult. lra. Qed.
Lemma units_small k : (0 <= k <= 2 ^ 40)%Z -> 0 <= IZR k * unitE <= / 4.
Proof.
  intros [K0 K1]. pose proof unitE_pos. apply IZR_le in K0, K1. split; [apply Rmult_le_pos; lra|].
  apply Rle_trans with (IZR (2 ^ 40) * unitE); [apply Rmult_le_compat_r; lra|].
  unfold unitE. rewrite (pow_IZR 2 52). apply (Rmult_le_reg_r (IZR (2 ^ 52))); [apply IZR_lt; reflexivity|].
  change (Z.of_nat 52) with 52%Z. rewrite Rmult_assoc, Rinv_l, Rmult_1_r by (apply Rgt_not_eq, IZR_lt; reflexivity).
  apply Rle_trans with (IZR (2 ^ 50)); [apply IZR_le; discriminate|]. change (2 ^ 52)%Z with (4 * 2 ^ 50)%Z. rewrite mult_IZR. lra.
Qed.

Lemma exp_near t : Rabs t <= / 2 -> Rabs (exp t - 1) <= 2 * Rabs t.
Proof.
  intro H. assert (A : -/2 <= t <= /2) by (unfold Rabs in H; destruct (Rcase_abs t); lra).
  pose proof (exp_ineq1_le t). pose proof (exp_ineq1_le (- t)) as B. rewrite exp_Ropp in B. pose proof (exp_pos t) as P.
  assert (U : exp t * (1 - t) <= 1). { apply (Rmult_le_compat_l (exp t)) in B; [|lra]. rewrite Rinv_r in B by lra. lra. }
  unfold Rabs at 2. destruct (Rcase_abs t).
  - assert (exp t <= 1) by nra. rewrite Rabs_left1 by lra. lra.
  - rewrite Rabs_right by lra. nra.
Qed.
Lemma ln_near e : Rabs e <= / 2 -> Rabs (ln (1 + e)) <= 2 * Rabs e.
Proof.
  intro H. assert (A : -/2 <= e <= /2) by (unfold Rabs in H; destruct (Rcase_abs e); lra).
  assert (L : forall x, 0 < x -> ln x <= x - 1). { intros x X. pose proof (exp_ineq1_le (ln x)) as Q. rewrite exp_ln in Q by exact X. lra. }
  assert (U := L (1 + e) ltac:(lra)). assert (V := L (/ (1 + e)) ltac:(apply Rinv_0_lt_compat; lra)).
  rewrite ln_Rinv in V by lra. assert (Q : / (1 + e) - 1 <= 2 * Rabs e).
  { apply (Rmult_le_reg_r (1 + e)); [lra|]. rewrite Rmult_minus_distr_r, Rinv_l by lra. unfold Rabs. destruct (Rcase_abs e); nra. }
  unfold Rabs at 1. destruct (Rcase_abs (ln (1 + e))); [lra|]. unfold Rabs. destruct (Rcase_abs e); lra.
Qed.
Lemma factor e h : 0 <= h <= / 2 -> Rabs e <= h -> exists t, Rabs t <= 2 * h /\ 1 + e = exp t.
Proof.
  intros H E. exists (ln (1 + e)). assert (A : Rabs e <= / 2) by lra. split; [pose proof (ln_near e A); lra|].
  rewrite exp_ln; [reflexivity|]. unfold Rabs in A. destruct (Rcase_abs e); lra.
Qed.
Lemma exp_range t : Rabs t <= / 4 -> / 2 <= exp t <= 2.
Proof. intro H. pose proof (exp_near t ltac:(lra)) as Q. unfold Rabs in Q at 1. destruct (Rcase_abs (exp t - 1)); lra. Qed.
Lemma Rabs_exp t : Rabs (exp t) = exp t.
Proof. apply Rabs_right. left. apply exp_pos. Qed.

(** ** Abstract values *)
Record av := mkAv { av_neg : bool; av_mz : bool; av_k : Z; av_lo : Z; av_hi : Z }.
Definition okAv (a : av) : bool :=
  ((0 <=? av_k a) && (av_k a <=? 2 ^ 40) && (-900 <=? av_lo a) && (av_lo a <=? av_hi a) && (av_hi a <=? 900))%Z.
(** not zero *)
Definition relP (a : av) (x : spec_float) (r : R) : Prop :=
  isDouble x /\ (if av_neg a then r < 0 else 0 < r) /\ bpow radix2 (av_lo a) <= Rabs r <= bpow radix2 (av_hi a) /\
  exists t, Rabs t <= IZR (av_k a) * unitE /\ sfVal x = r * exp t.
Definition rel (a : av) (x : spec_float) (r : R) : Prop :=
  (av_mz a = true /\ r = 0 /\ exists b, x = S754_zero b) \/ relP a x r.

Lemma okAv_spec a : okAv a = true -> (0 <= av_k a <= 2 ^ 40)%Z /\ (-900 <= av_lo a <= av_hi a)%Z /\ (av_hi a <= 900)%Z.
Proof. unfold okAv. rewrite !andb_true_iff, !Z.leb_le. lia. Qed.
Lemma relP_nz a x r : relP a x r -> r <> 0.
Proof. intros (_ & H & _). destruct (av_neg a); lra. Qed.
Lemma relP_val_nz a x r : relP a x r -> sfVal x <> 0.
Proof. intros R. pose proof (relP_nz _ _ _ R). destruct R as (_ & _ & _ & t & _ & ->). apply Rmult_integral_contrapositive. split; [assumption|]. apply Rgt_not_eq, exp_pos. Qed.
Lemma relP_sign a x r : relP a x r -> av_neg a = false -> 0 < sfVal x.
Proof. intros (_ & H & _ & t & _ & ->) E. rewrite E in H. apply Rmult_lt_0_compat; [exact H|apply exp_pos]. Qed.

(** the exact result of an operation on computed arguments, then rounded *)
Lemma in_range k lo hi r t : (0 <= k <= 2 ^ 40)%Z -> (-900 <= lo)%Z -> (hi <= 900)%Z -> bpow radix2 lo <= Rabs r <= bpow radix2 hi ->
  Rabs t <= IZR k * unitE -> bpow radix2 (-1022) <= Rabs (r * exp t) <= bpow radix2 1023.
Proof.
  intros K L H [R1 R2] T. pose proof (units_small _ K) as U. pose proof (exp_range t ltac:(lra)) as X. rewrite Rabs_mult, Rabs_exp.
  assert (P := bpow_gt_0 radix2 lo). split.
  - apply Rle_trans with (bpow radix2 lo * / 2).
    + change (/ 2) with (bpow radix2 (-1)). rewrite <- bpow_plus. apply bpow_le. lia.
    + apply Rmult_le_compat; lra.
  - apply Rle_trans with (bpow radix2 hi * 2).
    + apply Rmult_le_compat; lra.
    + replace (bpow radix2 hi * 2) with (bpow radix2 (hi + 1)) by (rewrite bpow_plus; reflexivity). apply bpow_le. lia.
Qed.
Lemma rounded k r t z w e : (0 <= k <= 2 ^ 40)%Z -> Rabs t <= IZR k * unitE ->
  z = r * exp t -> Rabs e <= / 2 ^ 53 -> sfVal w = z * (1 + e) -> exists t', Rabs t' <= IZR (k + 1) * unitE /\ sfVal w = r * exp t'.
Proof.
  intros K T Z E W. rewrite unitE_half in E. pose proof unitE_pos. pose proof (units_small 1 ltac:(lia)).
  destruct (factor e (unitE / 2)) as (t0 & T0 & F); [lra|exact E|]. exists (t + t0). split.
  - rewrite plus_IZR. eapply Rle_trans; [apply Rabs_triang|]. lra.
  - rewrite W, Z, F, exp_plus. ring.
Qed.

Section Ops.
Variables (a b : av) (x y : spec_float) (r q : R).
Hypothesis (OA : okAv a = true) (OB : okAv b = true).

Definition mulA : av := mkAv (xorb (av_neg a) (av_neg b)) (av_mz a || av_mz b) (av_k a + av_k b + 1) (av_lo a + av_lo b) (av_hi a + av_hi b).
Lemma sign_mul (s t : bool) u v : (if s then u < 0 else 0 < u) -> (if t then v < 0 else 0 < v) -> if xorb s t then u * v < 0 else 0 < u * v.
Proof. destruct s, t; cbn [xorb]; intros; nra. Qed.
Lemma dbl_cases z : isDouble z -> (exists s, z = S754_zero s) \/ (exists s m e, z = S754_finite s m e).
Proof. intros [_ F]. destruct z; try discriminate F; eauto 6. Qed.
Lemma mulP : okAv mulA = true -> relP a x r -> relP b y q -> relP mulA (SFmul prec64 emax64 x y) (r * q).
Proof.
  intros OM RA RB. destruct RA as (Dx & Sx & Bx & t & T & Vx). destruct RB as (Dy & Sy & By & u & U & Vy).
  apply okAv_spec in OA, OB, OM. cbn [mulA av_k av_lo av_hi] in OM.
  assert (Z : sfVal x * sfVal y = r * q * exp (t + u)). { rewrite Vx, Vy, exp_plus. ring. }
  assert (BB : bpow radix2 (av_lo a + av_lo b) <= Rabs (r * q) <= bpow radix2 (av_hi a + av_hi b)).
  { rewrite Rabs_mult, !bpow_plus. pose proof (bpow_gt_0 radix2 (av_lo a)). pose proof (bpow_gt_0 radix2 (av_lo b)). split; apply Rmult_le_compat; lra. }
  assert (TT : Rabs (t + u) <= IZR (av_k a + av_k b) * unitE). { rewrite plus_IZR. eapply Rle_trans; [apply Rabs_triang|]. lra. }
  destruct (mul_round x y Dx Dy) as (D & e & E & V).
  { rewrite Z. apply (in_range (av_k a + av_k b) (av_lo a + av_lo b) (av_hi a + av_hi b)); [lia|lia|lia|exact BB|exact TT]. }
  split; [exact D|]. split; [apply sign_mul; assumption|]. split; [exact BB|].
  apply (rounded (av_k a + av_k b) (r * q) (t + u) (sfVal x * sfVal y) _ e); [lia|exact TT|exact Z|exact E|exact V].
Qed.
Lemma mul_zero z s : isDouble z -> exists s', SFmul prec64 emax64 (S754_zero s) z = S754_zero s' /\ SFmul prec64 emax64 z (S754_zero s) = S754_zero (xorb (match z with S754_zero s | S754_infinity s | S754_finite s _ _ => s | S754_nan => false end) s).
Proof. intro D. destruct (dbl_cases z D) as [[s1 ->]|(s1 & m & e & ->)]; eexists; split; reflexivity. Qed.
Lemma rel_double c z s : rel c z s -> isDouble z.
Proof. intros [(_ & _ & b0 & ->)|(D & _)]; [split; reflexivity|exact D]. Qed.
Lemma mulR : okAv mulA = true -> rel a x r -> rel b y q -> rel mulA (SFmul prec64 emax64 x y) (r * q).
Proof.
  intros OM RA RB. destruct RA as [(M & -> & s & ->)|RA].
  - left. cbn [mulA av_mz]. rewrite M. split; [reflexivity|]. split; [ring|]. destruct (mul_zero y s (rel_double _ _ _ RB)) as (s' & -> & _). eauto.
  - destruct RB as [(M & -> & s & ->)|RB].
    + left. cbn [mulA av_mz]. rewrite M, orb_true_r. split; [reflexivity|]. split; [ring|]. destruct RA as (D & _). destruct (mul_zero x s D) as (s' & _ & ->). eauto.
    + right. apply mulP; assumption.
Qed.

Definition divA : option av := if av_mz b then None else Some (mkAv (xorb (av_neg a) (av_neg b)) (av_mz a) (av_k a + av_k b + 1) (av_lo a - av_hi b) (av_hi a - av_lo b)).
Lemma divR c : divA = Some c -> okAv c = true -> rel a x r -> rel b y q -> rel c (SFdiv prec64 emax64 x y) (r / q).
Proof.
  unfold divA. destruct (av_mz b) eqn:EM; [discriminate|]. intros E OM. assert (C : c = mkAv (xorb (av_neg a) (av_neg b)) (av_mz a) (av_k a + av_k b + 1) (av_lo a - av_hi b) (av_hi a - av_lo b)) by congruence. subst c. clear E.
  intros RA [(M & _)|RB]; [congruence|].
  destruct RA as [(M & -> & s & ->)|RA].
  - left. cbn [av_mz]. rewrite M. split; [reflexivity|]. split; [unfold Rdiv; ring|]. pose proof (relP_val_nz _ _ _ RB) as NZ. destruct RB as (D & _).
    destruct (dbl_cases y D) as [[s1 ->]|(s1 & m & e & ->)]; [exfalso; apply NZ; reflexivity|]. eexists. reflexivity.
  - right. pose proof (relP_val_nz _ _ _ RB) as NZ. pose proof (relP_nz _ _ _ RB) as NQ.
    destruct RA as (Dx & Sx & Bx & t & T & Vx). destruct RB as (Dy & Sy & By & u & U & Vy).
    apply okAv_spec in OA, OB, OM. cbn [av_k av_lo av_hi] in OM.
    assert (Z : sfVal x / sfVal y = r / q * exp (t - u)). { unfold Rminus. rewrite Vx, Vy, exp_plus, exp_Ropp. field. split; [apply Rgt_not_eq, exp_pos|exact NQ]. }
    assert (PQ : 0 < Rabs q) by (apply Rabs_pos_lt; exact NQ).
    assert (BB : bpow radix2 (av_lo a - av_hi b) <= Rabs (r / q) <= bpow radix2 (av_hi a - av_lo b)).
    { unfold Rdiv, Z.sub. rewrite Rabs_mult, !bpow_plus, !bpow_opp, Rabs_inv. pose proof (bpow_gt_0 radix2 (av_lo a)). pose proof (bpow_gt_0 radix2 (av_lo b)). pose proof (bpow_gt_0 radix2 (av_hi b)).
      split; apply Rmult_le_compat; try lra; try (left; apply Rinv_0_lt_compat; lra); apply Rinv_le_contravar; lra. }
    assert (TT : Rabs (t - u) <= IZR (av_k a + av_k b) * unitE). { rewrite plus_IZR. unfold Rminus. eapply Rle_trans; [apply Rabs_triang|]. rewrite Rabs_Ropp. lra. }
    destruct (div_round x y Dx Dy NZ) as (D & e & E & V).
    { rewrite Z. apply (in_range (av_k a + av_k b) (av_lo a - av_hi b) (av_hi a - av_lo b)); [lia|lia|lia|exact BB|exact TT]. }
    split; [exact D|]. split.
    { unfold Rdiv. cbn [av_neg]. apply sign_mul; [exact Sx|]. destruct (av_neg b); [apply Rinv_lt_0_compat|apply Rinv_0_lt_compat]; exact Sy. }
    split; [exact BB|].
    apply (rounded (av_k a + av_k b) (r / q) (t - u) (sfVal x / sfVal y) _ e); [lia|exact TT|exact Z|exact E|exact V].
Qed.

Definition addA : option av := if eqb (av_neg a) (av_neg b) then
  Some (mkAv (av_neg a) (av_mz a && av_mz b) (Z.max (av_k a) (av_k b) + 1) (Z.min (av_lo a) (av_lo b)) (Z.max (av_hi a) (av_hi b) + 1)) else None.
Lemma relP_weak c d z s : av_neg c = av_neg d -> (av_k c <= av_k d)%Z -> (av_lo d <= av_lo c)%Z -> (av_hi c <= av_hi d)%Z -> relP c z s -> relP d z s.
Proof.
  intros E K L H (D & S & B & t & T & V). split; [exact D|]. rewrite <- E. split; [exact S|]. split.
  - split; [eapply Rle_trans; [apply bpow_le; exact L|apply B]|eapply Rle_trans; [apply B|apply bpow_le; exact H]].
  - exists t. split; [|exact V]. eapply Rle_trans; [exact T|]. apply Rmult_le_compat_r; [left; apply unitE_pos|]. apply IZR_le. exact K.
Qed.
Lemma mix u v s t K : 0 < u -> 0 < v -> Rabs s <= K -> Rabs t <= K -> exists w, Rabs w <= K /\ u * exp s + v * exp t = (u + v) * exp w.
Proof.
  intros U V S T. assert (M : forall z, Rabs z <= K -> exp (- K) <= exp z <= exp K).
  { intros z Z. unfold Rabs in Z. destruct (Rcase_abs z); split; apply Raux.exp_le; lra. }
  pose proof (M s S) as M1. pose proof (M t T) as M2. set (w := (u * exp s + v * exp t) / (u + v)).
  assert (W : exp (- K) <= w <= exp K).
  { unfold w. split.
    - apply (Rmult_le_reg_r (u + v)); [lra|]. unfold Rdiv. rewrite Rmult_assoc, Rinv_l, Rmult_1_r by lra. nra.
    - apply (Rmult_le_reg_r (u + v)); [lra|]. unfold Rdiv. rewrite Rmult_assoc, Rinv_l, Rmult_1_r by lra. nra. }
  assert (P : 0 < w) by (pose proof (exp_pos (- K)); lra).
  exists (ln w). split.
  - assert (L : forall u v, 0 < u -> u <= v -> ln u <= ln v). { intros u' v' P1 [P2| ->]; [left; apply ln_increasing; assumption|right; reflexivity]. }
    assert (A : - K <= ln w <= K). { split; [rewrite <- (ln_exp (- K))|rewrite <- (ln_exp K)]; apply L; [apply exp_pos|apply W|exact P|apply W]. }
    unfold Rabs. destruct (Rcase_abs (ln w)); lra.
  - rewrite exp_ln by exact P. unfold w. field. lra.
Qed.
Lemma add_zero z s : isDouble z -> sfVal z <> 0 -> SFadd prec64 emax64 (S754_zero s) z = z /\ SFadd prec64 emax64 z (S754_zero s) = z.
Proof. intros D NZ. destruct (dbl_cases z D) as [[s1 ->]|(s1 & m & e & ->)]; [exfalso; apply NZ; reflexivity|]. split; reflexivity. Qed.
Lemma addR c : addA = Some c -> okAv c = true -> rel a x r -> rel b y q -> rel c (SFadd prec64 emax64 x y) (r + q).
Proof.
  unfold addA. destruct (eqb (av_neg a) (av_neg b)) eqn:EN; [|discriminate]. apply eqb_prop in EN. intros E OM.
  assert (C : c = mkAv (av_neg a) (av_mz a && av_mz b) (Z.max (av_k a) (av_k b) + 1) (Z.min (av_lo a) (av_lo b)) (Z.max (av_hi a) (av_hi b) + 1)) by congruence. subst c. clear E.
  intros RA RB. destruct RA as [(M & -> & s & ->)|RA], RB as [(M' & -> & s' & ->)|RB].
  - left. cbn [av_mz]. rewrite M, M'. split; [reflexivity|]. split; [ring|]. destruct s, s'; eexists; reflexivity.
  - right. rewrite Rplus_0_l. destruct (add_zero y s) as [-> _]; [apply RB|apply (relP_val_nz _ _ _ RB)|]. apply (relP_weak b); cbn [av_neg av_k av_lo av_hi]; [congruence|lia|lia|lia|exact RB].
  - right. rewrite Rplus_0_r. destruct (add_zero x s') as [_ ->]; [apply RA|apply (relP_val_nz _ _ _ RA)|]. apply (relP_weak a); cbn [av_neg av_k av_lo av_hi]; [congruence|lia|lia|lia|exact RA].
  - right. destruct RA as (Dx & Sx & Bx & t & T & Vx). destruct RB as (Dy & Sy & By & u & U & Vy). rewrite <- EN in Sy.
    apply okAv_spec in OA, OB, OM. cbn [av_k av_lo av_hi] in OM. set (K := Z.max (av_k a) (av_k b)) in *.
    assert (UP := unitE_pos).
    assert (KA : Rabs t <= IZR K * unitE). { eapply Rle_trans; [exact T|]. apply Rmult_le_compat_r; [lra|]. apply IZR_le. unfold K. lia. }
    assert (KB : Rabs u <= IZR K * unitE). { eapply Rle_trans; [exact U|]. apply Rmult_le_compat_r; [lra|]. apply IZR_le. unfold K. lia. }
    assert (Z : exists w, Rabs w <= IZR K * unitE /\ sfVal x + sfVal y = (r + q) * exp w).
    { rewrite Vx, Vy. destruct (av_neg a).
      - destruct (mix (- r) (- q) t u (IZR K * unitE)) as (w & W1 & W2); [lra|lia || lra|exact KA|exact KB|]. exists w. split; [exact W1|]. lra.
      - apply mix; [lra|lra|exact KA|exact KB]. }
    destruct Z as (w & W & Z).
    assert (AB : Rabs (r + q) = Rabs r + Rabs q). { destruct (av_neg a); [rewrite !Rabs_left by lra; ring|rewrite !Rabs_right by lra; ring]. }
    assert (BB : bpow radix2 (Z.min (av_lo a) (av_lo b)) <= Rabs (r + q) <= bpow radix2 (Z.max (av_hi a) (av_hi b) + 1)).
    { rewrite AB. split.
      - apply Rle_trans with (bpow radix2 (av_lo a)); [apply bpow_le; lia|]. pose proof (Rabs_pos q). lra.
      - rewrite bpow_plus. change (bpow radix2 1) with 2. assert (bpow radix2 (av_hi a) <= bpow radix2 (Z.max (av_hi a) (av_hi b))) by (apply bpow_le; lia).
        assert (bpow radix2 (av_hi b) <= bpow radix2 (Z.max (av_hi a) (av_hi b))) by (apply bpow_le; lia). lra. }
    destruct (add_round x y Dx Dy) as (D & e & E & V).
    { rewrite Z. apply (in_range K (Z.min (av_lo a) (av_lo b)) (Z.max (av_hi a) (av_hi b) + 1)); [lia|lia|lia|exact BB|exact W]. }
    split; [exact D|]. split; [cbn [av_neg]; destruct (av_neg a); lra|]. split; [exact BB|].
    apply (rounded K (r + q) w (sfVal x + sfVal y) _ e); [lia|exact W|exact Z|exact E|exact V].
Qed.

Definition sqrtA : option av := if av_neg a then None else Some (mkAv false (av_mz a) (av_k a + 1) (av_lo a / 2) ((av_hi a + 1) / 2)).
Lemma sqrt_bpow e : sqrt (bpow radix2 (2 * e)) = bpow radix2 e.
Proof. replace (2 * e)%Z with (e + e)%Z by ring. rewrite bpow_plus. apply sqrt_square. left. apply bpow_gt_0. Qed.
Lemma sqrtR c : sqrtA = Some c -> okAv c = true -> rel a x r -> rel c (SFsqrt prec64 emax64 x) (sqrt r).
Proof.
  unfold sqrtA. destruct (av_neg a) eqn:EN; [discriminate|]. intros E OM.
  assert (C : c = mkAv false (av_mz a) (av_k a + 1) (av_lo a / 2) ((av_hi a + 1) / 2)) by congruence. subst c. clear E.
  intros [(M & -> & s & ->)|RA].
  - left. cbn [av_mz]. rewrite M. split; [reflexivity|]. split; [apply sqrt_0|]. eexists. reflexivity.
  - right. pose proof (relP_sign _ _ _ RA EN) as PV. destruct RA as (Dx & Sx & Bx & t & T & Vx). rewrite EN in Sx.
    apply okAv_spec in OA, OM. cbn [av_k av_lo av_hi] in OM. pose proof unitE_pos as UP.
    assert (Z : sqrt (sfVal x) = sqrt r * exp (t / 2)).
    { rewrite Vx, sqrt_mult by (try lra; left; apply exp_pos). f_equal. replace (exp t) with (exp (t / 2) * exp (t / 2)) by (rewrite <- exp_plus; f_equal; field). apply sqrt_square. left. apply exp_pos. }
    assert (TT : Rabs (t / 2) <= IZR (av_k a) * unitE). { unfold Rdiv. rewrite Rabs_mult, (Rabs_right (/ 2)) by lra. pose proof (Rabs_pos t). lra. }
    assert (PS : 0 < sqrt r) by (apply sqrt_lt_R0; exact Sx).
    assert (BB : bpow radix2 (av_lo a / 2) <= Rabs (sqrt r) <= bpow radix2 ((av_hi a + 1) / 2)).
    { rewrite Rabs_right in Bx by lra. rewrite Rabs_right by lra. rewrite <- (sqrt_bpow (av_lo a / 2)), <- (sqrt_bpow ((av_hi a + 1) / 2)). split; apply sqrt_le_1_alt.
      - eapply Rle_trans; [apply bpow_le|apply Bx]. pose proof (Z.mul_div_le (av_lo a) 2). lia.
      - eapply Rle_trans; [apply Bx|apply bpow_le]. pose proof (Z.mod_pos_bound (av_hi a + 1) 2). pose proof (Z.div_mod (av_hi a + 1) 2). lia. }
    destruct (sqrt_round x Dx PV) as (D & e & E & V).
    { rewrite Z. apply (in_range (av_k a) (av_lo a / 2) ((av_hi a + 1) / 2)); [lia|lia|lia|exact BB|exact TT]. }
    split; [exact D|]. split; [exact PS|]. split; [exact BB|].
    apply (rounded (av_k a) (sqrt r) (t / 2) (sqrt (sfVal x)) _ e); [lia|exact TT|exact Z|exact E|exact V].
Qed.

Definition oppA : av := mkAv (negb (av_neg a)) (av_mz a) (av_k a) (av_lo a) (av_hi a).
Lemma val_opp z : sfVal (SFopp z) = - sfVal z.
Proof. destruct z as [s|s| |s m e]; cbn [SFopp sfVal]; try ring. destruct s; cbn [negb cond_Zopp]; rewrite ?opp_IZR; try rewrite <- Pos2Z.opp_pos, opp_IZR; try ring.
  all: change (Z.neg m) with (- Z.pos m)%Z; rewrite opp_IZR; ring. Qed.
Lemma oppR : rel a x r -> rel oppA (SFopp x) (- r).
Proof.
  intros [(M & -> & s & ->)|(D & S & Bx & t & T & V)].
  - left. split; [exact M|]. split; [ring|]. eexists. reflexivity.
  - right. split; [destruct D as [D1 D2]; destruct x; try discriminate D2; split; assumption|]. split; [cbn [oppA av_neg]; destruct (av_neg a); cbn [negb]; lra|].
    split; [rewrite Rabs_Ropp; exact Bx|]. exists t. split; [exact T|]. rewrite val_opp, V. ring.
Qed.
End Ops.

Lemma exp_close t : Rabs t <= / 2 -> Rabs (exp t - 1) <= Rabs t + Rabs t * Rabs t * 2.
Proof.
  intro H. assert (A : -/2 <= t <= /2) by (unfold Rabs in H; destruct (Rcase_abs t); lra).
  pose proof (exp_ineq1_le t). pose proof (exp_ineq1_le (- t)) as B. rewrite exp_Ropp in B. pose proof (exp_pos t) as P.
  assert (U : exp t * (1 - t) <= 1). { apply (Rmult_le_compat_l (exp t)) in B; [|lra]. rewrite Rinv_r in B by lra. lra. }
  unfold Rabs. destruct (Rcase_abs t), (Rcase_abs (exp t - 1)); nra.
Qed.
Lemma unit_square k : (0 <= k <= 2 ^ 25)%Z -> 2 * (IZR k * unitE) * (IZR k * unitE) <= unitE.
Proof.
  intros [K0 K1]. apply IZR_le in K0, K1. pose proof unitE_pos as UP.
  assert (E : IZR (2 ^ 25) * IZR (2 ^ 25) * 2 * unitE <= 1).
  { rewrite <- !mult_IZR. unfold unitE. rewrite (pow_IZR 2 52). apply (Rmult_le_reg_r (IZR (2 ^ 52))); [apply IZR_lt; reflexivity|].
    change (Z.of_nat 52) with 52%Z. rewrite Rmult_assoc, Rinv_l, Rmult_1_r, Rmult_1_l by (apply Rgt_not_eq, IZR_lt; reflexivity). apply IZR_le. discriminate. }
  assert (Q : IZR k * IZR k <= IZR (2 ^ 25) * IZR (2 ^ 25)) by (apply Rmult_le_compat; lra).
  assert (UU : 0 <= 2 * unitE * unitE) by (apply Rmult_le_pos; lra). assert (Q' := Rmult_le_compat_r _ _ _ UU Q).
  assert (Q'' := Rmult_le_compat_r unitE _ _ ltac:(lra) E). lra.
Qed.
Lemma exp_unit k t : (0 <= k <= 2 ^ 25)%Z -> Rabs t <= IZR k * unitE -> Rabs (exp t - 1) <= IZR (k + 1) * unitE.
Proof.
  intros K T. pose proof (units_small k ltac:(lia)) as U. pose proof (unit_square k K) as S. pose proof (exp_close t ltac:(lra)) as C. rewrite plus_IZR. pose proof (Rabs_pos t).
  assert (Rabs t * Rabs t <= (IZR k * unitE) * (IZR k * unitE)) by (apply Rmult_le_compat; lra). lra.
Qed.

(** ** exp and pow *)
Lemma within_exp x r : 0 < r -> within 1 x r -> isDouble x /\ exists t, Rabs t <= 2 * unitE /\ sfVal x = r * exp t.
Proof.
  intros P [D W]. split; [exact D|]. change (/ 2 ^ 52) with unitE in W. rewrite (Rabs_right r) in W by lra.
  pose proof unitE_pos. pose proof (units_small 1 ltac:(lia)) as U.
  destruct (factor ((sfVal x - r) / r) unitE) as (t & T & F); [lra| |].
  - unfold Rdiv. rewrite Rabs_mult, Rabs_inv, (Rabs_right r) by lra. apply (Rmult_le_reg_r r); [exact P|]. rewrite Rmult_assoc, Rinv_l, Rmult_1_r by lra. lra.
  - exists t. split; [exact T|]. rewrite <- F. field. lra.
Qed.
Lemma exp_pow x n : exp x ^ n = exp (INR n * x).
Proof. induction n as [|n IH]; [rewrite Rmult_0_l, exp_0; reflexivity|]. rewrite S_INR, Rmult_plus_distr_r, Rmult_1_l, Rplus_comm, exp_plus, <- IH. reflexivity. Qed.
Lemma ln2_bounds : / 2 < ln 2 < 7 / 10.
Proof.
  split; [apply ln_lt_2|]. rewrite <- (ln_exp (7 / 10)). apply ln_increasing; [lra|].
  replace (7 / 10) with (INR 64 * (7 / 640)) by (rewrite INR_IZR_INZ; change (Z.of_nat 64) with 64%Z; lra). rewrite <- exp_pow.
  pose proof (exp_ineq1_le (7 / 640)) as Q. apply Rlt_le_trans with ((1 + 7 / 640) ^ 64); [|apply pow_incr; lra].
  replace (1 + 7 / 640) with (647 / 640) by lra. unfold Rdiv. rewrite Rpow_mult_distr, pow_inv, !pow_IZR. change (Z.of_nat 64) with 64%Z.
  apply (Rmult_lt_reg_r (IZR (640 ^ 64))); [apply IZR_lt; reflexivity|]. rewrite Rmult_assoc, Rinv_l, Rmult_1_r by (apply Rgt_not_eq, IZR_lt; reflexivity).
  rewrite <- mult_IZR. apply IZR_lt. reflexivity.
Qed.
Lemma bpow_exp2 e : bpow radix2 e = exp (IZR e * ln 2).
Proof. apply bpow_exp. Qed.
Lemma bpow_big h : (0 <= h)%Z -> bpow radix2 h = IZR (2 ^ h).
Proof. intro H. rewrite <- (IZR_Zpower radix2) by exact H. reflexivity. Qed.
Lemma exp_mono u v : u <= v -> exp u <= exp v.
Proof. apply Raux.exp_le. Qed.

Definition expA (a : av) : option av :=
  let H := (2 ^ Z.max (av_hi a) 0)%Z in
  if av_mz a then None else if ((av_hi a <=? 8) && (av_k a <=? 2 ^ 25))%Z%bool then
  Some (mkAv false false (H * (av_k a + 1) + 2) (if av_neg a then - (2 * H) else 0) (if av_neg a then 0 else 2 * H)) else None.
Lemma expR lm a x r c : accurate lm -> okAv a = true -> expA a = Some c -> okAv c = true -> rel a x r -> rel c (lm_exp lm x) (exp r).
Proof.
  intros AC OA E OM [(M & _)|RA]; [unfold expA in E; rewrite M in E; discriminate|]. right.
  unfold expA in E. destruct (av_mz a); [discriminate|]. destruct ((av_hi a <=? 8) && (av_k a <=? 2 ^ 25))%Z%bool eqn:LE; [|discriminate]. apply andb_true_iff in LE. destruct LE as [LE KL]. apply Z.leb_le in LE, KL.
  set (H := (2 ^ Z.max (av_hi a) 0)%Z) in *.
  assert (C : c = mkAv false false (H * (av_k a + 1) + 2) (if av_neg a then - (2 * H) else 0) (if av_neg a then 0 else 2 * H)) by congruence. subst c. clear E.
  destruct RA as (Dx & Sx & Bx & t & T & Vx). apply okAv_spec in OA. pose proof (units_small _ (proj1 OA)) as U. pose proof unitE_pos as UP.
  assert (HH : Rabs r <= IZR H). { eapply Rle_trans; [apply Bx|]. unfold H. rewrite <- bpow_big by lia. apply bpow_le. lia. }
  assert (H256 : (1 <= H <= 256)%Z). { unfold H. split; [change 1%Z with (2 ^ 0)%Z; apply Z.pow_le_mono_r; lia|change 256%Z with (2 ^ 8)%Z; apply Z.pow_le_mono_r; lia]. }
  assert (HR : 1 <= IZR H <= 256) by (split; apply IZR_le; lia).
  assert (XT := exp_near t ltac:(lra)). assert (ER := exp_range t ltac:(lra)).
  assert (AR : - IZR H <= r <= IZR H) by (unfold Rabs in HH; destruct (Rcase_abs r); lra).
  destruct (within_exp _ _ (exp_pos _) (exp_acc lm AC x Dx ltac:(rewrite Vx; nra))) as (D & t0 & T0 & V).
  split; [exact D|]. split; [apply exp_pos|]. cbn [av_lo av_hi av_k]. split.
  - rewrite Rabs_exp. pose proof ln2_bounds as L2. split.
    + destruct (av_neg a); [|change (bpow radix2 0) with 1; rewrite <- exp_0; apply exp_mono; lra].
      rewrite bpow_exp2. apply exp_mono. rewrite opp_IZR, mult_IZR. nra.
    + destruct (av_neg a); [change (bpow radix2 0) with 1; rewrite <- exp_0; apply exp_mono; lra|].
      rewrite bpow_exp2. apply exp_mono. rewrite mult_IZR. nra.
  - exists (r * (exp t - 1) + t0). split.
    + eapply Rle_trans; [apply Rabs_triang|]. rewrite Rabs_mult, plus_IZR, !mult_IZR.
      assert (Rabs r * Rabs (exp t - 1) <= IZR H * (IZR (av_k a + 1) * unitE)). { apply Rmult_le_compat; [apply Rabs_pos|apply Rabs_pos|exact HH|apply exp_unit; [lia|exact T]]. }
      lra.
    + rewrite V, Vx, <- !exp_plus. f_equal. ring.
Qed.

(** a multiple of a power of two, rounded down *)
Definition scl (h z : Z) : Z := (if 0 <=? h then z * 2 ^ h else z / 2 ^ (- h))%Z.
Lemma scl_le h z : IZR (scl h z) <= bpow radix2 h * IZR z.
Proof.
  unfold scl. destruct (0 <=? h)%Z eqn:E.
  - apply Z.leb_le in E. rewrite mult_IZR, bpow_big by exact E. lra.
  - apply Z.leb_gt in E. assert (P : (0 < 2 ^ (- h))%Z) by (apply Z.pow_pos_nonneg; lia). replace h with (- (- h))%Z at 2 by lia. rewrite bpow_opp, bpow_big by lia.
    apply (Rmult_le_reg_l (IZR (2 ^ (- h)))); [apply IZR_lt; exact P|]. rewrite <- Rmult_assoc, Rinv_r, Rmult_1_l by (apply Rgt_not_eq, IZR_lt; exact P).
    rewrite <- mult_IZR. apply IZR_le. apply Z.mul_div_le. exact P.
Qed.
Definition powA (a b : av) : option av :=
  let H := (2 ^ Z.max (av_hi b) 0)%Z in let L := (Z.max (Z.abs (av_lo a)) (Z.abs (av_hi a)) + 1)%Z in
  if av_neg a || av_neg b || av_mz b then None else if ((H * L <=? 800) && (av_k b <=? 2 ^ 30))%Z%bool then
  Some (mkAv false (av_mz a) (2 * H * (av_k b * L + av_k a) + 2) (scl (av_hi b) (Z.min (av_lo a) 0)) (- scl (av_hi b) (- Z.max (av_hi a) 0))) else None.
Lemma powR lm a b x y r q c : accurate lm -> okAv a = true -> okAv b = true -> powA a b = Some c -> okAv c = true -> rel a x r -> rel b y q ->
  rel c (lm_pow lm x y) (if Rlt_dec 0 r then Rpower r q else 0).
Proof.
  intros AC OA OB E OM RA RB. unfold powA in E. destruct (av_neg a) eqn:NA; [discriminate|]. destruct (av_neg b) eqn:NB; [discriminate|].
  destruct (av_mz b) eqn:MB; [discriminate|]. cbn [orb] in E. set (H := (2 ^ Z.max (av_hi b) 0)%Z) in *. set (L := (Z.max (Z.abs (av_lo a)) (Z.abs (av_hi a)) + 1)%Z) in *.
  destruct ((H * L <=? 800) && (av_k b <=? 2 ^ 30))%Z%bool eqn:LE; [|discriminate]. apply andb_true_iff in LE. destruct LE as [LE KB]. apply Z.leb_le in LE, KB.
  assert (C : c = mkAv false (av_mz a) (2 * H * (av_k b * L + av_k a) + 2) (scl (av_hi b) (Z.min (av_lo a) 0)) (- scl (av_hi b) (- Z.max (av_hi a) 0))) by congruence. subst c. clear E.
  destruct RB as [(M & _)|RB]; [congruence|]. destruct RA as [(M & -> & s & ->)|RA].
  - left. cbn [av_mz]. split; [exact M|]. destruct (Rlt_dec 0 0); [lra|]. split; [reflexivity|]. exists false. apply (pow_zero lm AC); [apply RB|apply (relP_sign _ _ _ RB NB)].
  - right. pose proof (relP_sign _ _ _ RA NA) as PX. destruct RA as (Dx & Sx & Bx & t & T & Vx). rewrite NA in Sx. destruct RB as (Dy & Sy & By & u & U & Vy). rewrite NB in Sy.
    destruct (Rlt_dec 0 r) as [_|]; [|contradiction].
    apply okAv_spec in OA, OB. pose proof (units_small _ (proj1 OA)) as UA. pose proof (units_small _ (proj1 OB)) as UB. pose proof unitE_pos as UP.
    assert (HQ : q <= IZR H). { rewrite (Rabs_right q) in By by lra. eapply Rle_trans; [apply By|]. unfold H. rewrite <- bpow_big by lia. apply bpow_le. lia. }
    assert (H1 : (1 <= H)%Z). { unfold H. change 1%Z with (2 ^ 0)%Z. apply Z.pow_le_mono_r; lia. }
    assert (L1 : (1 <= L)%Z) by (unfold L; lia).
    assert (HR : 1 <= IZR H) by (apply IZR_le; lia). assert (LR : 1 <= IZR L) by (apply IZR_le; lia).
    assert (LE' : IZR H * IZR L <= 800). { rewrite <- !mult_IZR. apply IZR_le. exact LE. }
    assert (UB' : IZR (av_k b) * unitE <= / 64).
    { apply Rle_trans with (IZR (2 ^ 30) * unitE); [apply Rmult_le_compat_r; [lra|apply IZR_le; exact KB]|]. apply Rmult_le_reg_l with 64; [lra|]. rewrite Rinv_r, <- Rmult_assoc, <- mult_IZR by lra.
      pose proof (units_small (2 ^ 36) ltac:(lia)). change (64 * 2 ^ 30)%Z with (2 ^ 36)%Z. lra. }
    pose proof ln2_bounds as L2.
    assert (LN : Rabs (ln r) <= (IZR L - 1) * ln 2).
    { rewrite (Rabs_right r) in Bx by lra. rewrite !bpow_exp2 in Bx.
      assert (G : forall u v, 0 < u -> u <= v -> ln u <= ln v). { intros u' v' P1 [P2| ->]; [left; apply ln_increasing; assumption|right; reflexivity]. }
      assert (B1 := G _ _ (exp_pos _) (proj1 Bx)). assert (B2 := G _ _ Sx (proj2 Bx)). rewrite ln_exp in B1, B2.
      assert (Q1 : (1 - L <= av_lo a)%Z) by (unfold L; lia). assert (Q2 : (av_hi a <= L - 1)%Z) by (unfold L; lia). apply IZR_le in Q1, Q2. rewrite minus_IZR in Q1, Q2.
      unfold Rabs. destruct (Rcase_abs (ln r)); nra. }
    assert (XU := exp_near u ltac:(lra)). assert (EU := exp_range u ltac:(lra)).
    assert (VL : ln (sfVal x) = ln r + t). { rewrite Vx, ln_mult by (try exact Sx; apply exp_pos). rewrite ln_exp. reflexivity. }
    assert (LN1 : Rabs (ln r) <= IZR L - 1). { eapply Rle_trans; [exact LN|]. nra. }
    assert (SM : -600 <= sfVal y * ln (sfVal x) <= 600).
    { rewrite VL, Vy. assert (X32 : exp u <= 33 / 32). { unfold Rabs in XU at 1. destruct (Rcase_abs (exp u - 1)); lra. }
      assert (Q : Rabs (q * exp u * (ln r + t)) <= (IZR H * (33 / 32)) * (7 / 10 * IZR L)).
      { rewrite Rabs_mult. apply Rmult_le_compat; [apply Rabs_pos|apply Rabs_pos| |].
        - rewrite Rabs_mult, Rabs_exp, (Rabs_right q) by lra. apply Rmult_le_compat; lra.
        - eapply Rle_trans; [apply Rabs_triang|]. nra. }
      assert (Q2 : (IZR H * (33 / 32)) * (7 / 10 * IZR L) <= 600) by nra.
      unfold Rabs in Q. destruct (Rcase_abs (q * exp u * (ln r + t))); lra. }
    destruct (within_exp _ _ (exp_pos _) (pow_acc lm AC x y Dx Dy PX SM)) as (D & t0 & T0 & V).
    split; [exact D|]. split; [apply exp_pos|]. cbn [av_lo av_hi av_k]. split.
    + unfold Rpower. rewrite Rabs_exp. rewrite (Rabs_right r) in Bx by lra. rewrite (Rabs_right q) in By by lra.
      assert (G : forall u v, 0 < u -> u <= v -> ln u <= ln v). { intros u' v' P1 [P2| ->]; [left; apply ln_increasing; assumption|right; reflexivity]. }
      assert (B1 := G _ _ (bpow_gt_0 _ _) (proj1 Bx)). assert (B2 := G _ _ Sx (proj2 Bx)). rewrite bpow_exp2, ln_exp in B1, B2.
      pose proof (scl_le (av_hi b) (Z.min (av_lo a) 0)) as S1. pose proof (scl_le (av_hi b) (- Z.max (av_hi a) 0)) as S2. rewrite opp_IZR in S2.
      assert (M1 : IZR (Z.min (av_lo a) 0) <= 0) by (apply IZR_le; lia). assert (M2 : 0 <= IZR (Z.max (av_hi a) 0)) by (apply IZR_le; lia).
      assert (M3 : IZR (Z.min (av_lo a) 0) <= IZR (av_lo a)) by (apply IZR_le; lia). assert (M4 : IZR (av_hi a) <= IZR (Z.max (av_hi a) 0)) by (apply IZR_le; lia).
      rewrite !(bpow_exp2 (scl _ _)), (bpow_exp2 (- scl _ _)), opp_IZR.
      assert (X1 : 0 <= (bpow radix2 (av_hi b) - q) * - IZR (Z.min (av_lo a) 0)) by (apply Rmult_le_pos; lra).
      assert (X2 : 0 <= (bpow radix2 (av_hi b) - q) * IZR (Z.max (av_hi a) 0)) by (apply Rmult_le_pos; lra).
      assert (W1 : IZR (scl (av_hi b) (Z.min (av_lo a) 0)) <= q * IZR (Z.min (av_lo a) 0)) by lra.
      assert (W2 : q * IZR (Z.max (av_hi a) 0) <= - IZR (scl (av_hi b) (- Z.max (av_hi a) 0))) by lra.
      assert (L2p : 0 <= ln 2) by lra. assert (Q0 : 0 <= q) by lra.
      apply (Rmult_le_compat_r _ _ _ L2p) in W1, W2, M3, M4.
      assert (Y1 : q * (IZR (Z.min (av_lo a) 0) * ln 2) <= q * ln r) by (apply Rmult_le_compat_l; lra).
      assert (Y2 : q * ln r <= q * (IZR (Z.max (av_hi a) 0) * ln 2)) by (apply Rmult_le_compat_l; lra).
      split; apply exp_mono; lra.
    + exists (q * (exp u - 1) * ln r + q * exp u * t + t0). split.
      * eapply Rle_trans; [apply Rabs_triang|]. assert (X1 : Rabs (q * (exp u - 1) * ln r + q * exp u * t) <= IZR H * (2 * (IZR (av_k b) * unitE)) * IZR L + IZR H * 2 * (IZR (av_k a) * unitE)).
        { eapply Rle_trans; [apply Rabs_triang|]. apply Rplus_le_compat.
          - rewrite !Rabs_mult, (Rabs_right q) by lra. apply Rmult_le_compat; [apply Rmult_le_pos; [lra|apply Rabs_pos]|apply Rabs_pos| |lra].
            apply Rmult_le_compat; [lra|apply Rabs_pos|exact HQ|lra].
          - rewrite !Rabs_mult, Rabs_exp, (Rabs_right q) by lra. apply Rmult_le_compat; [apply Rmult_le_pos; lra|apply Rabs_pos| |exact T].
            apply Rmult_le_compat; lra. }
        rewrite plus_IZR, !mult_IZR, plus_IZR, mult_IZR. lra.
      * rewrite V. unfold Rpower. rewrite VL, Vy, <- !exp_plus. f_equal. ring.
Qed.

(** ** Literals *)
Definition pow10 (e : Z) : Z := (10 ^ Z.max e 0)%Z.
Definition pow2 (e : Z) : Z := (2 ^ Z.max e 0)%Z.
Definition litA (m e : Z) : option av :=
  if (m =? 0)%Z then match f64lit m e with S754_zero _ => Some (mkAv false true 0 0 0) | _ => None end else
  match f64lit m e with
  | S754_finite s a x =>
      let A := (Zpos a * pow2 x * pow10 (- e))%Z in let B := (Z.abs m * pow10 e * pow2 (- x))%Z in
      let X := (Z.abs m * pow10 e)%Z in let Y := pow10 (- e) in let l := (Z.log2 X - Z.log2 Y)%Z in
      let above h := (X * pow2 (- h) <=? pow2 h * Y)%Z in let below h := (pow2 h * Y <=? X * pow2 (- h))%Z in
      let lo := if below l then l else (l - 1)%Z in let hi := if above l then l else (l + 1)%Z in
      if bounded prec64 emax64 a x && Bool.eqb s (m <? 0)%Z && (2 ^ 53 * Z.abs (A - B) <=? B)%Z && negb (m =? 0)%Z && below lo && above hi
      then Some (mkAv s false (if A =? B then 0 else 1)%Z lo hi) else None
  | _ => None
  end.
Lemma rlit_val m e : rlit m e = IZR m * IZR (pow10 e) / IZR (pow10 (- e)).
Proof.
  unfold rlit, pow10. destruct e as [|p|p].
  - cbn [Z.opp Z.max Z.compare]. change (10 ^ 0)%Z with 1%Z. field.
  - rewrite mult_IZR. change (Z.max (- Z.pos p) 0) with 0%Z. change (Z.max (Z.pos p) 0) with (Z.pos p). change (10 ^ 0)%Z with 1%Z. change (10 ^ Z.pos p)%Z with (Z.pow_pos 10 p). field.
  - change (- Z.neg p)%Z with (Z.pos p). change (Z.max (Z.neg p) 0) with 0%Z. change (Z.max (Z.pos p) 0) with (Z.pos p). change (10 ^ 0)%Z with 1%Z. change (10 ^ Z.pos p)%Z with (Z.pow_pos 10 p). rewrite Rmult_1_r. reflexivity.
Qed.
Lemma pow10_pos e : (0 < pow10 e)%Z.
Proof. apply Z.pow_pos_nonneg; lia. Qed.
Lemma pow2_pos e : (0 < pow2 e)%Z.
Proof. apply Z.pow_pos_nonneg; lia. Qed.
Lemma bpow_val e : bpow radix2 e = IZR (pow2 e) / IZR (pow2 (- e)).
Proof.
  unfold pow2. destruct (Z_le_gt_dec 0 e).
  - rewrite bpow_big by lia. rewrite Z.max_l, Z.max_r by lia. change (2 ^ 0)%Z with 1%Z. field.
  - replace e with (- - e)%Z at 1 by lia. rewrite bpow_opp, bpow_big by lia. rewrite (Z.max_r e), (Z.max_l (- e)) by lia. change (2 ^ 0)%Z with 1%Z.
    field. apply not_0_IZR. pose proof (Z.pow_pos_nonneg 2 (- e)). lia.
Qed.
Lemma litR m e c : litA m e = Some c -> rel c (f64lit m e) (rlit m e).
Proof.
  unfold litA. destruct (m =? 0)%Z eqn:MZ.
  { apply Z.eqb_eq in MZ. subst m. destruct (f64lit 0 e) as [b| | |]; try discriminate. intro E. assert (C : c = mkAv false true 0 0 0) by congruence. subst c. left.
    split; [reflexivity|]. split; [|eauto]. rewrite rlit_val. unfold Rdiv. ring. }
  destruct (f64lit m e) as [| | |s a x] eqn:EL; try discriminate.
  set (A := (Zpos a * pow2 x * pow10 (- e))%Z). set (B := (Z.abs m * pow10 e * pow2 (- x))%Z).
  destruct (bounded prec64 emax64 a x) eqn:BD; [|discriminate]. destruct (Bool.eqb s (m <? 0)%Z) eqn:ES; [|discriminate]. destruct (2 ^ 53 * Z.abs (A - B) <=? B)%Z eqn:LE; [|discriminate].
  cbv zeta beta. cbn [negb andb]. set (X := (Z.abs m * pow10 e)%Z). set (Y := pow10 (- e)). set (l := (Z.log2 X - Z.log2 Y)%Z).
  set (lo := if (pow2 l * Y <=? X * pow2 (- l))%Z then l else (l - 1)%Z). set (hi := if (X * pow2 (- l) <=? pow2 l * Y)%Z then l else (l + 1)%Z).
  destruct (pow2 lo * Y <=? X * pow2 (- lo))%Z eqn:ELO; [|discriminate]. destruct (X * pow2 (- hi) <=? pow2 hi * Y)%Z eqn:EHI; [|discriminate]. cbn [andb].
  apply Z.leb_le in ELO, EHI. clearbody lo hi.
  intro E. apply eqb_prop in ES. apply Z.leb_le in LE. apply Z.eqb_neq in MZ.
  set (K := (if A =? B then 0 else 1)%Z) in *. assert (C : c = mkAv s false K lo hi) by congruence. subst c. clear E. right.
  pose proof (pow10_pos e) as P1. pose proof (pow10_pos (- e)) as P2. pose proof (pow2_pos x) as P3. pose proof (pow2_pos (- x)) as P4.
  assert (P1' := IZR_lt _ _ P1). assert (P2' := IZR_lt _ _ P2). assert (P3' := IZR_lt _ _ P3). assert (P4' := IZR_lt _ _ P4).
  assert (MA : (0 < Z.abs m)%Z) by lia. assert (PA := IZR_lt _ _ MA).
  assert (RL := rlit_val m e). assert (AR : Rabs (rlit m e) = IZR (Z.abs m) * IZR (pow10 e) / IZR (pow10 (- e))).
  { rewrite RL. unfold Rdiv. rewrite !Rabs_mult, Rabs_inv, <- abs_IZR, (Rabs_right (IZR (pow10 e))), (Rabs_right (IZR (pow10 (- e)))) by lra. reflexivity. }
  assert (BP : (0 < B)%Z). { unfold B. apply Z.mul_pos_pos; [apply Z.mul_pos_pos|]; assumption. } assert (BP' := IZR_lt _ _ BP).
  assert (LEr : 2 ^ 53 * Rabs (IZR A - IZR B) <= IZR B).
  { rewrite <- minus_IZR, <- abs_IZR, (pow_IZR 2 53), <- mult_IZR. apply IZR_le. exact LE. }
  assert (P53 : 0 < 2 ^ 53) by (apply pow_lt; lra).
  assert (ER : Rabs ((IZR A - IZR B) / IZR B) <= unitE / 2).
  { rewrite <- unitE_half. unfold Rdiv. rewrite Rabs_mult, Rabs_inv, (Rabs_right (IZR B)) by lra.
    apply (Rmult_le_reg_r (IZR B)); [exact BP'|]. rewrite Rmult_assoc, Rinv_l, Rmult_1_r by lra. apply (Rmult_le_reg_l (2 ^ 53)); [exact P53|]. rewrite <- Rmult_assoc, Rinv_r, Rmult_1_l by lra. exact LEr. }
  pose proof unitE_pos as UP. pose proof (units_small 1 ltac:(lia)) as U1.
  assert (UH : 0 <= unitE / 2 <= / 2) by lra. destruct (factor _ _ UH ER) as (t & T & F).
  assert (S : sfVal (S754_finite s a x) = rlit m e * (IZR A / IZR B)).
  { unfold sfVal. rewrite <- bpow_powerRZ || idtac. change (powerRZ 2 x) with (powerRZ (IZR radix2) x). rewrite <- bpow_powerRZ, bpow_val, RL. unfold A, B. rewrite !mult_IZR.
    assert (SG : IZR (cond_Zopp s (Z.pos a)) * IZR (Z.abs m) = IZR m * IZR (Z.pos a)).
    { rewrite <- !mult_IZR. f_equal. rewrite ES. destruct (m <? 0)%Z eqn:LT; cbn [cond_Zopp]; [apply Z.ltb_lt in LT|apply Z.ltb_ge in LT]; [change (Z.neg a) with (- Z.pos a)%Z|]; lia. }
    replace (IZR (cond_Zopp s (Z.pos a))) with (IZR m * IZR (Z.pos a) / IZR (Z.abs m)) by (rewrite <- SG; field; lra).
    field. repeat split; lra. }
  split; [split; [exact BD|reflexivity]|]. split.
  { cbn [av_neg]. rewrite ES, RL. assert (Q : 0 < IZR (pow10 e) / IZR (pow10 (- e))) by (apply Rdiv_lt_0_compat; lra). unfold Rdiv in *. rewrite Rmult_assoc.
    destruct (m <? 0)%Z eqn:LT; [apply Z.ltb_lt in LT; apply IZR_lt in LT; nra|apply Z.ltb_ge in LT; assert (LT' : (0 < m)%Z) by lia; apply IZR_lt in LT'; nra]. }
  cbn [av_lo av_hi av_k]. split.
  - rewrite AR, <- mult_IZR. fold X Y. fold Y in P2, P2'. pose proof (pow2_pos lo) as Q1. pose proof (pow2_pos (- lo)) as Q2. pose proof (pow2_pos hi) as Q3. pose proof (pow2_pos (- hi)) as Q4.
    apply IZR_lt in Q1, Q2, Q3, Q4. apply IZR_le in ELO, EHI. rewrite !mult_IZR in ELO, EHI. rewrite (bpow_val lo), (bpow_val hi). split.
    + apply (Rmult_le_reg_r (IZR (pow2 (- lo)) * IZR Y)); [apply Rmult_lt_0_compat; lra|].
      replace (IZR (pow2 lo) / IZR (pow2 (- lo)) * (IZR (pow2 (- lo)) * IZR Y)) with (IZR (pow2 lo) * IZR Y) by (field; lra).
      replace (IZR X / IZR Y * (IZR (pow2 (- lo)) * IZR Y)) with (IZR X * IZR (pow2 (- lo))) by (field; lra). exact ELO.
    + apply (Rmult_le_reg_r (IZR (pow2 (- hi)) * IZR Y)); [apply Rmult_lt_0_compat; lra|].
      replace (IZR (pow2 hi) / IZR (pow2 (- hi)) * (IZR (pow2 (- hi)) * IZR Y)) with (IZR (pow2 hi) * IZR Y) by (field; lra).
      replace (IZR X / IZR Y * (IZR (pow2 (- hi)) * IZR Y)) with (IZR X * IZR (pow2 (- hi))) by (field; lra). exact EHI.
  - unfold K. destruct (A =? B)%Z eqn:AB.
    + apply Z.eqb_eq in AB. exists 0. split; [rewrite Rabs_R0; lra|]. rewrite S, AB, exp_0. field. lra.
    + exists t. split; [lra|]. rewrite S, <- F. f_equal. field. lra.
Qed.

(** ** a + b exp (e), negative e of any size: the exponential may underflow *)
Lemma exp_shift e t : e < 0 -> Rabs t <= / 4 -> Rabs (exp (e * exp t) - exp e) <= 2 * Rabs t.
Proof.
  intros N T. assert (Q : forall x, 0 < x -> exp (- x) * x <= 1).
  { intros x P. rewrite exp_Ropp. pose proof (exp_ineq1_le x). pose proof (exp_pos x). apply (Rmult_le_reg_l (exp x)); [assumption|]. rewrite <- Rmult_assoc, Rinv_r by lra. lra. }
  assert (D : forall u v, u <= v -> exp v - exp u <= exp v * (v - u)).
  { intros u v L. replace u with (v + (u - v)) at 1 by ring. rewrite exp_plus. pose proof (exp_ineq1_le (u - v)). pose proof (exp_pos v). nra. }
  pose proof (exp_pos t) as PT. destruct (Rle_dec 0 t) as [P|P].
  - pose proof (exp_near t ltac:(lra)) as X. rewrite (Rabs_right t) in * by lra. assert (1 <= exp t) by (rewrite <- exp_0; apply exp_mono; lra). rewrite Rabs_right in X by lra.
    assert (L : e * exp t <= e) by nra. pose proof (D _ _ L) as DD. pose proof (exp_mono _ _ L) as LL. rewrite Rabs_left1 by lra. pose proof (Q (- e) ltac:(lra)) as QE. rewrite Ropp_involutive in QE.
    replace (exp e * (e - e * exp t)) with ((exp e * - e) * (exp t - 1)) in DD by ring. pose proof (exp_pos e). nra.
  - assert (T' : Rabs (- t) <= / 2) by (rewrite Rabs_Ropp; lra). pose proof (exp_near (- t) T') as X. rewrite (Rabs_left t) in * by lra. rewrite (Rabs_right (- t)) in X by lra.
    assert (1 <= exp (- t)) by (rewrite <- exp_0; apply exp_mono; lra). rewrite Rabs_right in X by lra.
    assert (exp t <= 1) by (rewrite <- exp_0; apply exp_mono; lra). set (e' := e * exp t) in *. assert (E : e = e' * exp (- t)). { unfold e'. rewrite Rmult_assoc, <- exp_plus. replace (t + - t) with 0 by ring. rewrite exp_0. ring. }
    assert (N' : e' < 0) by (unfold e'; nra). assert (L : e <= e') by (unfold e'; nra). pose proof (D _ _ L) as DD. pose proof (exp_mono _ _ L) as LL. rewrite Rabs_right by lra.
    pose proof (Q (- e') ltac:(lra)) as QE. rewrite Ropp_involutive in QE. rewrite E in DD at 2. replace (exp e' * (e' - e' * exp (- t))) with ((exp e' * - e') * (exp (- t) - 1)) in DD by ring. pose proof (exp_pos e'). nra.
Qed.
Lemma tiny_unit n : (54 <= n)%Z -> bpow radix2 (- n) <= unitE / 2.
Proof.
  intro H. apply Rle_trans with (bpow radix2 (-54)); [apply bpow_le; lia|]. unfold unitE. change (bpow radix2 (-54)) with (/ IZR (2 ^ 54)). rewrite pow_IZR. change (Z.of_nat 52) with 52%Z.
  apply (Rmult_le_reg_r (IZR (2 ^ 54))); [apply IZR_lt; reflexivity|]. rewrite Rinv_l by (apply Rgt_not_eq, IZR_lt; reflexivity).
  change (2 ^ 54)%Z with (2 ^ 52 * 4)%Z. rewrite mult_IZR. assert (P : IZR (2 ^ 52) <> 0) by (apply Rgt_not_eq, IZR_lt; reflexivity).
  replace (/ IZR (2 ^ 52) / 2 * (IZR (2 ^ 52) * 4)) with 2 by (field; exact P). lra.
Qed.
Lemma exp_any lm x e t k : accurate lm -> isDouble x -> e < 0 -> (0 <= k <= 2 ^ 40)%Z -> Rabs t <= IZR k * unitE -> sfVal x = e * exp t ->
  isDouble (lm_exp lm x) /\ 0 <= sfVal (lm_exp lm x) <= 2 /\ Rabs (sfVal (lm_exp lm x) - exp e) <= IZR (2 * k + 1) * unitE.
Proof.
  intros AC D N K T V. pose proof (units_small _ K) as U. pose proof (units_small 1 ltac:(lia)) as U1. pose proof unitE_pos as UP. pose proof (exp_range t ltac:(lra)) as ER.
  rewrite plus_IZR, mult_IZR. assert (KK : 0 <= IZR k) by (apply IZR_le; lia).
  destruct (Rlt_dec (sfVal x) (-700)) as [L|L].
  - destruct (exp_tiny lm AC x D L) as (DD & E1 & E2). split; [exact DD|]. assert (T1 : / 2 ^ 900 <= unitE / 2).
    { eapply Rle_trans; [|apply (tiny_unit 900); lia]. right. rewrite bpow_opp, bpow_big, pow_IZR by lia. reflexivity. }
    split; [lra|]. assert (EE : e <= -350) by (rewrite V in L; nra).
    assert (X : exp e <= unitE / 2). { eapply Rle_trans; [apply exp_mono; exact EE|]. eapply Rle_trans; [|apply (tiny_unit 350); lia]. rewrite bpow_exp2. apply exp_mono. pose proof ln2_bounds. rewrite opp_IZR. lra. }
    pose proof (exp_pos e). assert (Rabs (sfVal (lm_exp lm x) - exp e) <= unitE) by (unfold Rabs; destruct (Rcase_abs _); lra). pose proof (Rmult_le_pos _ _ KK (Rlt_le _ _ UP)). lra.
  - assert (N' : sfVal x < 0) by (rewrite V; nra). destruct (exp_acc lm AC x D ltac:(lra)) as (DD & W). split; [exact DD|]. change (/ 2 ^ 52) with unitE in W.
    assert (X1 : exp (sfVal x) <= 1) by (rewrite <- exp_0; apply exp_mono; lra). pose proof (exp_pos (sfVal x)). rewrite (Rabs_right (exp (sfVal x))) in W by lra. rewrite Rmult_1_l in W.
    assert (W' : unitE * exp (sfVal x) <= unitE) by nra. assert (W2 : unitE * exp (sfVal x) <= exp (sfVal x)) by nra. split.
    + unfold Rabs in W. destruct (Rcase_abs _); lra.
    + pose proof (exp_shift e t N ltac:(lra)) as S. rewrite <- V in S. replace (sfVal (lm_exp lm x) - exp e) with ((sfVal (lm_exp lm x) - exp (sfVal x)) + (exp (sfVal x) - exp e)) by ring.
      eapply Rle_trans; [apply Rabs_triang|]. lra.
Qed.
Definition slipA (u v w : av) : option av :=
  if (negb (av_neg u) && negb (av_mz u) && negb (av_neg v) && negb (av_mz v) && av_neg w && negb (av_mz w)
     && (av_k u <=? 2 ^ 20) && (av_k v <=? 2 ^ 20) && (av_k w <=? 2 ^ 20) && (av_hi v <=? av_lo u) && (-100 <=? av_lo v) && (av_hi u <=? 100))%Z%bool
  then Some (mkAv false false (2 * (av_k u + 2 * av_k v + 2 * av_k w + 7) + 1) (av_lo u) (av_hi u + 1)) else None.
Lemma slipR lm u v w x y z r q e c : accurate lm -> okAv u = true -> okAv v = true -> okAv w = true -> slipA u v w = Some c -> okAv c = true ->
  rel u x r -> rel v y q -> rel w z e -> rel c (SFadd prec64 emax64 x (SFmul prec64 emax64 y (lm_exp lm z))) (r + q * exp e).
Proof.
  intros AC OU OV OW E OC RU RV RW. unfold slipA in E. match type of E with (if ?b then _ else _) = _ => destruct b eqn:G; [|discriminate] end.
  assert (C : c = mkAv false false (2 * (av_k u + 2 * av_k v + 2 * av_k w + 7) + 1) (av_lo u) (av_hi u + 1)) by congruence. subst c. clear E.
  rewrite !andb_true_iff, !negb_true_iff, !Z.leb_le in G. destruct G as (((((((((((NU & MU) & NV) & MV) & NW) & MW) & KU) & KV) & KW) & HL) & LV) & HU).
  destruct RU as [(M & _)|(Dx & Px & Bx & t & T & Vx)]; [congruence|]. destruct RV as [(M & _)|(Dy & Py & By & t' & T' & Vy)]; [congruence|]. destruct RW as [(M & _)|(Dz & Pz & Bz & t'' & T'' & Vz)]; [congruence|].
  rewrite NU in Px. rewrite NV in Py. rewrite NW in Pz. rewrite (Rabs_right r) in Bx by lra. rewrite (Rabs_right q) in By by lra.
  apply okAv_spec in OU, OV, OW, OC. cbn [av_k av_lo av_hi] in OC. pose proof unitE_pos as UP.
  destruct (exp_any lm z e t'' (av_k w) AC Dz Pz ltac:(lia) T'' Vz) as (DE & [E0 E2] & EE).
  pose proof (exp_pos e) as PE. assert (E1 : exp e <= 1) by (rewrite <- exp_0; apply exp_mono; lra).
  pose proof (exp_unit (av_k u) t ltac:(lia) T) as XU. pose proof (exp_unit (av_k v) t' ltac:(lia) T') as XV.
  pose proof (units_small (av_k u) ltac:(lia)) as SU. pose proof (units_small (av_k v) ltac:(lia)) as SV. pose proof (exp_range t ltac:(lra)) as RU. pose proof (exp_range t' ltac:(lra)) as RV.
  assert (QR : q <= r). { eapply Rle_trans; [apply By|]. eapply Rle_trans; [|apply Bx]. apply bpow_le. lia. }
  set (Ez := sfVal (lm_exp lm z)) in *.
  assert (YB : 0 <= sfVal y * Ez <= 4 * q).
  { assert (W1 : 0 <= exp t' * Ez <= 4). { split; [apply Rmult_le_pos; lra|]. replace 4 with (2 * 2) by lra. apply Rmult_le_compat; lra. }
    rewrite Vy, Rmult_assoc. split; [apply Rmult_le_pos; lra|]. rewrite (Rmult_comm 4). apply Rmult_le_compat_l; lra. }
  assert (QH : q <= bpow radix2 100). { eapply Rle_trans; [apply QR|]. eapply Rle_trans; [apply Bx|]. apply bpow_le. lia. }
  assert (RH : r <= bpow radix2 100). { eapply Rle_trans; [apply Bx|]. apply bpow_le. lia. }
  assert (Q4 : 8 * bpow radix2 100 <= bpow radix2 1022). { change 8 with (bpow radix2 3). rewrite <- bpow_plus. apply bpow_le. lia. }
  destruct (mul_any y (lm_exp lm z) Dy DE) as (DM & EM). { fold Ez. rewrite Rabs_right by lra. lra. }
  fold Ez in EM. rewrite (Rabs_right (sfVal y * Ez)) in EM by lra. set (Mz := sfVal (SFmul prec64 emax64 y (lm_exp lm z))) in *.
  assert (TQ : bpow radix2 (-1000) <= unitE / 2 * q).
  { apply Rle_trans with (bpow radix2 (-900) * bpow radix2 (-100)); [right; rewrite <- bpow_plus; reflexivity|]. apply Rmult_le_compat; try apply bpow_ge_0; [apply (tiny_unit 900); lia|]. eapply Rle_trans; [|apply By]. apply bpow_le. lia. }
  rewrite unitE_half in EM.
  assert (EM' : Rabs (Mz - sfVal y * Ez) <= 3 * (unitE * q)) by nra.
  assert (U4 : unitE <= / 16). { pose proof (units_small 4 ltac:(lia)). lra. }
  (* distance of the product from the exact one *)
  assert (PQ : Rabs (sfVal y * Ez - q * exp e) <= IZR (2 * av_k v + 2 * av_k w + 3) * (unitE * q)).
  { replace (sfVal y * Ez - q * exp e) with (q * ((exp t' - 1) * Ez) + q * (Ez - exp e)) by (rewrite Vy; ring).
    eapply Rle_trans; [apply Rabs_triang|]. rewrite !Rabs_mult, (Rabs_right q), (Rabs_right Ez) by lra.
    assert (A1 : Rabs (exp t' - 1) * Ez <= IZR (av_k v + 1) * unitE * 2) by (apply Rmult_le_compat; [apply Rabs_pos|lra|exact XV|lra]).
    pose proof (Rmult_le_compat_l q _ _ (Rlt_le _ _ Py) A1) as B1. pose proof (Rmult_le_compat_l q _ _ (Rlt_le _ _ Py) EE) as B2.
    rewrite !plus_IZR, !mult_IZR in *. nra. }
  assert (MQ : Rabs (Mz - q * exp e) <= IZR (2 * av_k v + 2 * av_k w + 6) * (unitE * q)).
  { replace (Mz - q * exp e) with ((Mz - sfVal y * Ez) + (sfVal y * Ez - q * exp e)) by ring. eapply Rle_trans; [apply Rabs_triang|]. rewrite !plus_IZR in *. lra. }
  assert (XR' : Rabs (sfVal x - r) <= IZR (av_k u + 1) * (unitE * r)).
  { rewrite Vx. replace (r * exp t - r) with (r * (exp t - 1)) by ring. rewrite Rabs_mult, (Rabs_right r) by lra. pose proof (Rmult_le_compat_l r _ _ (Rlt_le _ _ Px) XU). lra. }
  set (K := (av_k u + 2 * av_k v + 2 * av_k w + 7)%Z) in *.
  assert (TOT : Rabs ((sfVal x + Mz) - (r + q * exp e)) <= IZR K * unitE * (r + q * exp e)).
  { replace ((sfVal x + Mz) - (r + q * exp e)) with ((sfVal x - r) + (Mz - q * exp e)) by ring. eapply Rle_trans; [apply Rabs_triang|].
    assert (B : IZR (2 * av_k v + 2 * av_k w + 6) * (unitE * q) <= IZR (2 * av_k v + 2 * av_k w + 6) * (unitE * r)).
    { apply Rmult_le_compat_l; [apply IZR_le; lia|]. apply Rmult_le_compat_l; lra. }
    assert (KR : IZR (av_k u + 1) * (unitE * r) + IZR (2 * av_k v + 2 * av_k w + 6) * (unitE * r) = IZR K * unitE * r). { unfold K. rewrite !plus_IZR. ring. }
    assert (0 <= IZR K * unitE * (q * exp e)). { apply Rmult_le_pos; [apply Rmult_le_pos; [apply IZR_le; unfold K; lia|lra]|]. apply Rmult_le_pos; lra. }
    lra. }
  pose proof (units_small K ltac:(unfold K; lia)) as SK.
  assert (S0 : 0 < r + q * exp e) by nra. assert (SB : r <= r + q * exp e <= 2 * r) by nra.
  destruct (factor (((sfVal x + Mz) - (r + q * exp e)) / (r + q * exp e)) (IZR K * unitE)) as (tt & TT & FF); [lra| |].
  { unfold Rdiv. rewrite Rabs_mult, Rabs_inv, (Rabs_right (r + q * exp e)) by lra. apply (Rmult_le_reg_r (r + q * exp e)); [exact S0|]. rewrite Rmult_assoc, Rinv_l, Rmult_1_r by lra. exact TOT. }
  assert (Z : sfVal x + Mz = (r + q * exp e) * exp tt). { rewrite <- FF. field. lra. }
  assert (BB : bpow radix2 (av_lo u) <= Rabs (r + q * exp e) <= bpow radix2 (av_hi u + 1)).
  { rewrite Rabs_right by lra. split; [lra|]. rewrite bpow_plus. change (bpow radix2 1) with 2. lra. }
  assert (TK : Rabs tt <= IZR (2 * K) * unitE) by (rewrite mult_IZR; lra).
  destruct (add_round x (SFmul prec64 emax64 y (lm_exp lm z)) Dx DM) as (D & ee & E & V).
  { fold Mz. rewrite Z. apply (in_range (2 * K) (av_lo u) (av_hi u + 1)); [unfold K; lia|lia|lia|exact BB|exact TK]. }
  right. split; [exact D|]. split; [exact S0|]. split; [exact BB|]. cbn [av_k].
  apply (rounded (2 * K) (r + q * exp e) tt (sfVal x + Mz) _ ee); [unfold K; lia|exact TK|exact Z|exact E|exact V].
Qed.

(** ** Expressions *)
Inductive expr :=
| EVar (i : nat) | ELit (m e : Z) | EAdd (a b : expr) | EMul (a b : expr) | EDiv (a b : expr)
| ESqrt (a : expr) | EExp (a : expr) | EPow (a b : expr) | EOpp (a : expr).
Fixpoint ev {N : Num} (env : nat -> num) (e : expr) : num :=
  match e with
  | EVar i => env i | ELit m x => nlit m x
  | EAdd a b => nadd (ev env a) (ev env b) | EMul a b => nmul (ev env a) (ev env b) | EDiv a b => ndiv (ev env a) (ev env b)
  | ESqrt a => nsqrt (ev env a) | EExp a => nexp (ev env a) | EPow a b => npow (ev env a) (ev env b) | EOpp a => nopp (ev env a)
  end.
Fixpoint evR (env : nat -> R) (e : expr) : R :=
  match e with
  | EVar i => env i | ELit m x => rlit m x
  | EAdd a b => evR env a + evR env b | EMul a b => evR env a * evR env b | EDiv a b => evR env a / evR env b
  | ESqrt a => sqrt (evR env a) | EExp a => exp (evR env a) | EPow a b => if Rlt_dec 0 (evR env a) then Rpower (evR env a) (evR env b) else 0
  | EOpp a => - evR env a
  end.
Definition chk (a : option av) : option av := match a with Some v => if okAv v then Some v else None | None => None end.
Definition both2 (f : av -> av -> option av) (a b : option av) : option av := match a, b with Some u, Some v => chk (f u v) | _, _ => None end.
Fixpoint an (env : nat -> av) (e : expr) : option av :=
  match e with
  | EVar i => chk (Some (env i)) | ELit m x => chk (litA m x)
  | EAdd a b => match both2 addA (an env a) (an env b), b with
      | Some v, _ => Some v
      | None, b => match a, b with
        | ELit 0 _, _ => an env b
        | _, EMul c (EExp d) => match an env a, an env c, an env d with Some u, Some v, Some w => chk (slipA u v w) | _, _, _ => None end
        | _, _ => None end
      end
  | EMul a b => both2 (fun u v => Some (mulA u v)) (an env a) (an env b)
  | EDiv a b => both2 divA (an env a) (an env b)
  | ESqrt a => match an env a with Some u => chk (sqrtA u) | None => None end
  | EExp a => match an env a with Some u => chk (expA u) | None => None end
  | EPow a b => both2 powA (an env a) (an env b)
  | EOpp a => match an env a with Some u => chk (Some (oppA u)) | None => None end
  end.
Lemma chk_spec a v : chk a = Some v -> a = Some v /\ okAv v = true.
Proof. unfold chk. destruct a as [u|]; [|discriminate]. destruct (okAv u) eqn:E; [|discriminate]. intro H. assert (u = v) by congruence. subst u. auto. Qed.
Lemma both2_spec f a b v : both2 f a b = Some v -> exists u w, a = Some u /\ b = Some w /\ f u w = Some v /\ okAv v = true.
Proof. unfold both2. destruct a as [u|]; [|discriminate]. destruct b as [w|]; [|discriminate]. intro H. apply chk_spec in H. destruct H. exists u, w. auto. Qed.
(** induction that also reaches the parts of a product with an exponential *)
Lemma expr_deep (P : expr -> Prop) :
  (forall e, (forall a, e = EOpp a \/ e = EExp a \/ e = ESqrt a -> P a) ->
    (forall a b, e = EAdd a b \/ e = EMul a b \/ e = EDiv a b \/ e = EPow a b -> P a /\ P b) ->
    (forall a c d, e = EAdd a (EMul c (EExp d)) -> P c /\ P d) -> P e) -> forall e, P e.
Proof.
  intros H. enough (Q : forall e, P e /\ (forall d, e = EExp d -> P d) /\ (forall c d, e = EMul c (EExp d) -> P c /\ P d)) by (intro e; apply Q).
  intro e. induction e as [i|m x|e1 IH1 e2 IH2|e1 IH1 e2 IH2|e1 IH1 e2 IH2|e1 IH1|e1 IH1|e1 IH1 e2 IH2|e1 IH1].
  all: split; [apply H; [intros q [Q|[Q|Q]]; try discriminate Q; injection Q as <-; exact (proj1 IH1)
    |intros q1 q2 [Q|[Q|[Q|Q]]]; try discriminate Q; injection Q as <- <-; (split; [exact (proj1 IH1)|exact (proj1 IH2)])
    |intros q1 q2 q3 Q; try discriminate Q; injection Q as -> ->; exact (proj2 (proj2 IH2) _ _ eq_refl)]|split].
  all: try (intros d Q; discriminate Q); try (intros c d Q; discriminate Q).
  - intros c d Q. injection Q as -> ->. split; [exact (proj1 IH1)|exact (proj1 (proj2 IH2) _ eq_refl)].
  - intros d Q. injection Q as ->. exact (proj1 IH1).
Qed.
(** adding to a literal zero *)
Lemma isZeroLit e : (exists x, e = ELit 0 x) \/ forall A (p q : A), match e with ELit 0 _ => p | _ => q end = q.
Proof. destruct e as [i|m x|a b|a b|a b|a|a|a b|a]; try (right; reflexivity). destruct m; [left; eauto|right; reflexivity..]. Qed.
Lemma zero_plus x c y r : rel c y r -> rel c (SFadd prec64 emax64 (f64lit 0 x) y) (rlit 0 x + r).
Proof.
  intro H. assert (E : rlit 0 x = 0) by (destruct x; unfold rlit; [reflexivity|reflexivity|unfold Rdiv; apply Rmult_0_l]). rewrite E, Rplus_0_l. clear E.
  assert (E : f64lit 0 x = S754_zero false) by (destruct x; reflexivity). rewrite E. destruct H as [(M & -> & s & ->)|R].
  - left. split; [exact M|]. split; [reflexivity|]. destruct s; eexists; reflexivity.
  - right. destruct (add_zero y false) as [-> _]; [apply R|apply (relP_val_nz _ _ _ R)|]. exact R.
Qed.
Theorem an_sound lm : accurate lm -> forall ae fe re, (forall i, rel (ae i) (fe i) (re i)) -> forall e a, an ae e = Some a ->
  okAv a = true /\ rel a (ev (N:=F64 lm) fe e) (evR re e).
Proof.
  intros AC ae fe re EN e. induction e as [e J1 J2 J3] using expr_deep. destruct e as [i|m x|e1 e2|e1 e2|e1 e2|e1|e1|e1 e2|e1]; intros a H; cbn [an] in H; cbn [ev evR].
  all: try (destruct (J2 _ _ ltac:(auto)) as [IH1 IH2]); try (pose proof (J1 _ ltac:(auto)) as IH1).
  - apply chk_spec in H. destruct H as [H O]. split; [exact O|]. assert (ae i = a) by congruence. subst a. apply EN.
  - apply chk_spec in H. destruct H as [H O]. split; [exact O|]. apply litR. exact H.
  - destruct (both2 addA (an ae e1) (an ae e2)) as [v|] eqn:H1.
    + assert (v = a) by congruence. subst v. clear H. rename H1 into H.
      apply both2_spec in H. destruct H as (u & w & A1 & A2 & F & O). destruct (IH1 _ A1) as [O1 R1]. destruct (IH2 _ A2) as [O2 R2]. split; [exact O|]. apply (addR u w); assumption.
    + clear H1. destruct (isZeroLit e1) as [(x & ->)|NZ].
      { destruct (IH2 _ H) as [O2 R2]. split; [exact O2|]. cbn [ev evR]. apply zero_plus. exact R2. }
      rewrite (NZ _) in H. clear NZ. destruct e2 as [| | |c d| | | | |]; try discriminate H. destruct d as [| | | | | |d| |]; try discriminate H. destruct (J3 _ _ _ eq_refl) as [IH3 IH4].
      destruct (an ae e1) as [u|]; [|discriminate]. destruct (an ae c) as [v|]; [|discriminate]. destruct (an ae d) as [w|]; [|discriminate].
      apply chk_spec in H. destruct H as [F O]. destruct (IH1 _ eq_refl) as [O1 R1]. destruct (IH3 _ eq_refl) as [O3 R3]. destruct (IH4 _ eq_refl) as [O4 R4]. split; [exact O|].
      cbn [ev evR]. apply (slipR lm u v w); assumption.
  - apply both2_spec in H. destruct H as (u & w & A1 & A2 & F & O). destruct (IH1 _ A1) as [O1 R1]. destruct (IH2 _ A2) as [O2 R2]. split; [exact O|]. assert (mulA u w = a) by congruence. subst a. apply mulR; assumption.
  - apply both2_spec in H. destruct H as (u & w & A1 & A2 & F & O). destruct (IH1 _ A1) as [O1 R1]. destruct (IH2 _ A2) as [O2 R2]. split; [exact O|]. apply (divR u w); assumption.
  - destruct (an ae e1) as [u|]; [|discriminate]. apply chk_spec in H. destruct H as [F O]. destruct (IH1 _ eq_refl) as [O1 R1]. split; [exact O|]. apply (sqrtR u); assumption.
  - destruct (an ae e1) as [u|]; [|discriminate]. apply chk_spec in H. destruct H as [F O]. destruct (IH1 _ eq_refl) as [O1 R1]. split; [exact O|]. apply (expR lm u); assumption.
  - apply both2_spec in H. destruct H as (u & w & A1 & A2 & F & O). destruct (IH1 _ A1) as [O1 R1]. destruct (IH2 _ A2) as [O2 R2]. split; [exact O|]. apply (powR lm u w); assumption.
  - destruct (an ae e1) as [u|]; [|discriminate]. apply chk_spec in H. destruct H as [F O]. destruct (IH1 _ eq_refl) as [O1 R1]. split; [exact O|]. assert (oppA u = a) by congruence. subst a. apply oppR. exact R1.
Qed.
Lemma rel_within a x r : okAv a = true -> (av_k a <= 2 ^ 25)%Z -> rel a x r -> within (av_k a + 1) x r.
Proof.
  intros O K R. apply okAv_spec in O. pose proof unitE_pos as UP. split; [apply (rel_double a x r R)|]. change (/ 2 ^ 52) with unitE.
  destruct R as [(_ & -> & b & ->)|(_ & _ & _ & t & T & ->)].
  - cbn [sfVal]. rewrite Rminus_0_r, Rabs_R0, Rmult_0_r. lra.
  - replace (r * exp t - r) with (r * (exp t - 1)) by ring. rewrite Rabs_mult, Rmult_comm. apply Rmult_le_compat_r; [apply Rabs_pos|]. apply exp_unit; [lia|exact T].
Qed.
Lemma within_mono k k' x r : (k <= k')%Z -> within k x r -> within k' x r.
Proof.
  intros K [D W]. split; [exact D|]. eapply Rle_trans; [exact W|]. apply Rmult_le_compat_r; [apply Rabs_pos|]. apply Rmult_le_compat_r; [left; apply unitE_pos|apply IZR_le; exact K].
Qed.

(** ** The same expression over the extended reals *)
Lemma rel_nz a x r : av_mz a = false -> rel a x r -> r <> 0.
Proof. intros M [(H & _)|H]; [congruence|exact (relP_nz _ _ _ H)]. Qed.
Lemma rel_nneg a x r : av_neg a = false -> rel a x r -> 0 <= r.
Proof. intros M [(_ & -> & _)|(_ & H & _)]; [lra|]. rewrite M in H. lra. Qed.
Lemma an_xr lm : accurate lm -> forall ae fe re, (forall i, rel (ae i) (fe i) (re i)) -> forall e a, an ae e = Some a ->
  ev (N:=XR) (fun i => Fin (re i)) e = Fin (evR re e).
Proof.
  intros AC ae fe re EN e. induction e as [e J1 J2 J3] using expr_deep. destruct e as [i|m x|e1 e2|e1 e2|e1 e2|e1|e1|e1 e2|e1]; intros a H; cbn [an] in H; cbn [ev evR].
  all: try (destruct (J2 _ _ ltac:(auto)) as [IH1 IH2]); try (pose proof (J1 _ ltac:(auto)) as IH1).
  - reflexivity.
  - reflexivity.
  - destruct (both2 addA (an ae e1) (an ae e2)) as [v|] eqn:H1.
    + apply both2_spec in H1. destruct H1 as (u & w & A1 & A2 & _). rewrite (IH1 _ A1), (IH2 _ A2). reflexivity.
    + clear H1. destruct (isZeroLit e1) as [(x & ->)|NZ].
      { rewrite (IH2 _ H). cbn [ev evR]. reflexivity. }
      rewrite (NZ _) in H. clear NZ. destruct e2 as [| | |c d| | | | |]; try discriminate H. destruct d as [| | | | | |d| |]; try discriminate H. destruct (J3 _ _ _ eq_refl) as [IH3 IH4].
      destruct (an ae e1) as [u|]; [|discriminate]. destruct (an ae c) as [v|]; [|discriminate]. destruct (an ae d) as [w|]; [|discriminate].
      cbn [ev evR]. rewrite (IH1 _ eq_refl), (IH3 _ eq_refl), (IH4 _ eq_refl). reflexivity.
  - apply both2_spec in H. destruct H as (u & w & A1 & A2 & _). rewrite (IH1 _ A1), (IH2 _ A2). reflexivity.
  - apply both2_spec in H. destruct H as (u & w & A1 & A2 & F & O). rewrite (IH1 _ A1), (IH2 _ A2).
    destruct (an_sound lm AC ae fe re EN _ _ A2) as [_ R2]. assert (NZ : evR re e2 <> 0). { apply (rel_nz w _ _) with (2 := R2). unfold divA in F. destruct (av_mz w); [discriminate|reflexivity]. }
    change (@ndiv XR) with xdiv. unfold xdiv. destruct (Req_EM_T (evR re e2) 0); [contradiction|reflexivity].
  - destruct (an ae e1) as [u|] eqn:A1; [|discriminate]. apply chk_spec in H. destruct H as [F O]. rewrite (IH1 _ eq_refl).
    destruct (an_sound lm AC ae fe re EN _ _ A1) as [_ R1]. assert (P : 0 <= evR re e1). { apply (rel_nneg u _ _) with (2 := R1). unfold sqrtA in F. destruct (av_neg u); [discriminate|reflexivity]. }
    change (@nsqrt XR) with xsqrt. unfold xsqrt. destruct (Rlt_dec (evR re e1) 0); [lra|reflexivity].
  - destruct (an ae e1) as [u|] eqn:A1; [|discriminate]. rewrite (IH1 _ eq_refl). reflexivity.
  - apply both2_spec in H. destruct H as (u & w & A1 & A2 & F & O). rewrite (IH1 _ A1), (IH2 _ A2).
    destruct (an_sound lm AC ae fe re EN _ _ A1) as [_ R1]. destruct (an_sound lm AC ae fe re EN _ _ A2) as [_ R2].
    unfold powA in F. destruct (av_neg u) eqn:NU; [discriminate|]. destruct (av_neg w) eqn:NW; [discriminate|]. destruct (av_mz w) eqn:MW; [discriminate|].
    pose proof (rel_nneg u _ _ NU R1) as P1. pose proof (rel_nneg w _ _ NW R2) as P2. pose proof (rel_nz w _ _ MW R2) as P3.
    change (@npow XR) with xpow. unfold xpow. destruct (Req_EM_T (evR re e2) 0); [contradiction|]. destruct (Rlt_dec 0 (evR re e1)); [reflexivity|].
    destruct (Req_EM_T (evR re e1) 0); [|lra]. destruct (Rlt_dec 0 (evR re e2)); [reflexivity|lra].
  - destruct (an ae e1) as [u|] eqn:A1; [|discriminate]. rewrite (IH1 _ eq_refl). reflexivity.
Qed.
