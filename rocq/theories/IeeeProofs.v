(** Signs of IEEE operations, for C72. *)
From Coq Require Import ZArith List Bool Reals Lia Lra.
From Coq.Floats Require Import SpecFloat.
From Flocq Require Import Core IEEE754.BinarySingleNaN.
From Verif Require Import Num Defs State F64 SpecBinomial SpecState SpecRound SpecIeee RoundProofs.
Import ListNotations.

Definition nneg (x : spec_float) : Prop :=
  match x with S754_nan | S754_zero _ => True | S754_infinity b | S754_finite b _ _ => b = false end.
Definition npos (x : spec_float) : Prop :=
  match x with S754_nan | S754_zero _ => True | S754_infinity b | S754_finite b _ _ => b = true end.

Notation "x +. y" := (SFadd prec64 emax64 x y) (at level 50, left associativity).
Notation "x -. y" := (SFsub prec64 emax64 x y) (at level 50, left associativity).
Notation "x *. y" := (SFmul prec64 emax64 x y) (at level 40, left associativity).
Notation "x /. y" := (SFdiv prec64 emax64 x y) (at level 40, left associativity).
Notation rt := (SFsqrt prec64 emax64).

Lemma neg_iff x : ~ negative x <-> nneg x.
Proof. destruct x as [[]|[]| |[] m e]; split; intros H; try exact I; try reflexivity; try (exfalso; apply H; reflexivity); try discriminate H; intros K; discriminate K. Qed.
Lemma pos_iff x : ~ aboveZero x <-> npos x.
Proof. destruct x as [[]|[]| |[] m e]; split; intros H; try exact I; try reflexivity; try (exfalso; apply H; reflexivity); try discriminate H; intros K; discriminate K. Qed.
Lemma un_nn x : unsigned x -> nneg x.
Proof. destruct x as [[]|[]| |[] m e]; cbv; auto. Qed.
Lemma above_un x : SFleb x (S754_zero false) = false -> unsigned x.
Proof. destruct x as [[]|[]| |[] m e]; intros H; try exact I; try reflexivity; discriminate H. Qed.
Lemma gt_un x : SFltb (S754_zero false) x = true -> unsigned x.
Proof. destruct x as [[]|[]| |[] m e]; intros H; try exact I; try reflexivity; discriminate H. Qed.
Lemma big_un x : SFleb x (f64lit 2 (-26)) = false -> unsigned x.
Proof.
  let v := eval vm_compute in (f64lit 2 (-26)) in change (f64lit 2 (-26)) with v.
  destruct x as [[]|[]| |[] m e]; intros H; try exact I; try reflexivity; discriminate H.
Qed.
Lemma nneg_cases x : nneg x -> unsigned x \/ x = S754_zero true.
Proof. destruct x as [[]|[]| |[] m e]; cbn; auto. Qed.

Lemma aux_un mx ex l : unsigned (SpecFloat.binary_round_aux prec64 emax64 false mx ex l).
Proof.
  unfold SpecFloat.binary_round_aux. destruct (shr_fexp _ _ _ _ _) as [a b]. destruct (shr_fexp _ _ _ _ _) as [c d].
  destruct (shr_m c); cbn; auto. destruct (Z.leb _ _); reflexivity.
Qed.
Lemma aux_np mx ex l : npos (SpecFloat.binary_round_aux prec64 emax64 true mx ex l).
Proof.
  unfold SpecFloat.binary_round_aux. destruct (shr_fexp _ _ _ _ _) as [a b]. destruct (shr_fexp _ _ _ _ _) as [c d].
  destruct (shr_m c); cbn; auto. destruct (Z.leb _ _); reflexivity.
Qed.
Lemma round_un m e : unsigned (SpecFloat.binary_round prec64 emax64 false m e).
Proof. unfold SpecFloat.binary_round. destruct (shl_align _ _ _). apply aux_un. Qed.
Lemma round_np m e : npos (SpecFloat.binary_round prec64 emax64 true m e).
Proof. unfold SpecFloat.binary_round. destruct (shl_align _ _ _). apply aux_np. Qed.

Ltac sfcase x := destruct x as [[]|[]| |[] ? ?].
Ltac done_ := cbn in *; try easy; try (apply un_nn, aux_un); try apply aux_un; try apply aux_np; auto.

Lemma mul_nn x y : nneg x -> nneg y -> nneg (x *. y).
Proof. sfcase x; sfcase y; intros; done_. Qed.
Lemma mul_un x y : unsigned x -> unsigned y -> unsigned (x *. y).
Proof. sfcase x; sfcase y; intros; done_. Qed.
Lemma sq_nn x : nneg (x *. x).
Proof. sfcase x; done_. Qed.
Lemma mul_np x y : npos x -> nneg y -> npos (x *. y).
Proof. sfcase x; sfcase y; intros; done_. Qed.
Lemma mul_pn x y : nneg x -> npos y -> npos (x *. y).
Proof. sfcase x; sfcase y; intros; done_. Qed.
(** a product with the same factor twice keeps its sign *)
Lemma mul2_nn x y : nneg x -> nneg (x *. y *. y).
Proof.
  sfcase x; sfcase y; intros H; try discriminate H; try exact I; try reflexivity;
    cbn -[SpecFloat.binary_round_aux];
    match goal with |- context [SpecFloat.binary_round_aux ?a ?b ?s ?m ?e ?l] =>
      pose proof (aux_un m e l) as A1; pose proof (aux_np m e l) as A2;
      destruct (SpecFloat.binary_round_aux a b s m e l) as [[]|[]| |[] ? ?]; cbn in A1, A2 end;
    try discriminate; done_.
Qed.
Lemma mul2_np x y : npos x -> npos (x *. y *. y).
Proof.
  sfcase x; sfcase y; intros H; try discriminate H; try exact I; try reflexivity;
    cbn -[SpecFloat.binary_round_aux];
    match goal with |- context [SpecFloat.binary_round_aux ?a ?b ?s ?m ?e ?l] =>
      pose proof (aux_un m e l) as A1; pose proof (aux_np m e l) as A2;
      destruct (SpecFloat.binary_round_aux a b s m e l) as [[]|[]| |[] ? ?]; cbn in A1, A2 end;
    try discriminate; done_.
Qed.
Lemma div_nn x y : nneg x -> unsigned y -> nneg (x /. y).
Proof. sfcase x; sfcase y; intros; try (now done_). cbn in * . destruct (SFdiv_core_binary _ _ _ _ _ _) as [[? ?] ?]. apply un_nn, aux_un. Qed.
Lemma div_un x y : unsigned x -> unsigned y -> unsigned (x /. y).
Proof. sfcase x; sfcase y; intros; try (now done_). cbn in * . destruct (SFdiv_core_binary _ _ _ _ _ _) as [[? ?] ?]. apply aux_un. Qed.
Lemma rt_nn x : nneg (rt x).
Proof. sfcase x; try exact I; try reflexivity. cbn [SFsqrt]. destruct (SFsqrt_core_binary _ _ _ _) as [[? ?] ?]. apply un_nn, aux_un. Qed.
Lemma rt_un x : unsigned x -> unsigned (rt x).
Proof. sfcase x; intros H; try discriminate H; try exact I; try reflexivity. cbn [SFsqrt]. destruct (SFsqrt_core_binary _ _ _ _) as [[? ?] ?]. apply aux_un. Qed.
Lemma add_un x y : nneg x -> unsigned y -> unsigned (x +. y).
Proof. sfcase x; sfcase y; intros A B; try discriminate; try exact I; try reflexivity. cbn [SFadd cond_Zopp Z.add SpecFloat.binary_normalize]. apply round_un. Qed.
Lemma add_un' x y : unsigned x -> nneg y -> unsigned (x +. y).
Proof. sfcase x; sfcase y; intros A B; try discriminate; try exact I; try reflexivity. cbn [SFadd cond_Zopp Z.add SpecFloat.binary_normalize]. apply round_un. Qed.
Lemma add_nn x y : nneg x -> nneg y -> nneg (x +. y).
Proof. sfcase x; sfcase y; intros A B; try discriminate; try exact I; try reflexivity. cbn [SFadd cond_Zopp Z.add SpecFloat.binary_normalize]. apply un_nn, round_un. Qed.
Lemma add_np x y : npos x -> npos y -> npos (x +. y).
Proof. sfcase x; sfcase y; intros A B; try discriminate; try exact I; try reflexivity. cbn [SFadd cond_Zopp Z.opp Z.add SpecFloat.binary_normalize]. apply round_np. Qed.
Lemma opp_np x : nneg x -> npos (SFopp x).
Proof. sfcase x; done_. Qed.
Lemma abs_nn x : nneg (SFabs x).
Proof. sfcase x; done_. Qed.

(** validity *)
Lemma dbl x : double x -> exists b : B, B2SF b = x.
Proof. intros H. exists (SF2B x H). apply B2SF_SF2B. Qed.
Lemma dbl_of (b : B) : double (B2SF b).
Proof. apply valid_binary_B2SF. Qed.
Lemma mul_dbl x y : double x -> double y -> double (x *. y).
Proof. intros A B. destruct (dbl _ A) as [a <-]. destruct (dbl _ B) as [b <-]. rewrite mul_same. apply dbl_of. Qed.
Lemma div_dbl x y : double x -> double y -> double (x /. y).
Proof. intros A B. destruct (dbl _ A) as [a <-]. destruct (dbl _ B) as [b <-]. rewrite div_same. apply dbl_of. Qed.
Lemma add_dbl x y : double x -> double y -> double (x +. y).
Proof. intros A B. destruct (dbl _ A) as [a <-]. destruct (dbl _ B) as [b <-]. rewrite add_same. apply dbl_of. Qed.

(** 1 - 1 / (1 + q) for a double q without sign *)
Local Open Scope R_scope.
Notation one := (S754_finite false 4503599627370496 (-52)).
Lemma oneB : double one. Proof. reflexivity. Qed.
Definition bOne : B := SF2B one oneB.
Lemma bOne_SF : B2SF bOne = one. Proof. apply B2SF_SF2B. Qed.
Lemma bOne_R : B2R bOne = 1.
Proof. rewrite <- val_B, bOne_SF. unfold sfVal. cbn. change (Pos.to_nat 52) with 52%nat. lra. Qed.
Lemma bOne_fin : is_finite bOne = true.
Proof. reflexivity. Qed.

Lemma nneg_B (b : B) : (is_finite b = true -> 0 <= B2R b) -> (forall s, b = B754_infinity s -> s = false) -> nneg (B2SF b).
Proof.
  destruct b as [s|s| |s m e H]; intros F I; cbn; auto.
  specialize (F eq_refl). destruct s; [|reflexivity]. exfalso. cbn in F.
    assert (F2R (Float radix2 (Zneg m) e) < 0) by (apply F2R_lt_0; reflexivity). unfold F2R in * . cbn in * . lra.
Qed.

Notation rnd := (round radix2 (SpecFloat.fexp prec64 emax64) (round_mode mode_NE)).
Lemma rnd_one : rnd 1 = 1.
Proof.
  apply round_generic; [apply valid_rnd_round_mode|].
  change 1 with (bpow radix2 0). apply generic_format_bpow. vm_compute. discriminate.
Qed.
#[local] Instance fexp_ok : Valid_exp (SpecFloat.fexp prec64 emax64) := fexp_correct prec64 emax64 eq_refl.

Lemma fit r : 0 <= r <= 1 -> Rlt_bool (Rabs (rnd r)) (bpow radix2 emax64) = true.
Proof.
  intros H. apply Rlt_bool_true. assert (0 <= rnd r <= 1).
  { split. rewrite <- (round_0 radix2 (SpecFloat.fexp prec64 emax64) (round_mode mode_NE)). apply round_le; try typeclasses eauto. apply H.
    rewrite <- rnd_one. apply round_le; try typeclasses eauto. apply H. }
  rewrite Rabs_pos_eq by apply H0. apply Rle_lt_trans with 1; [apply H0|]. change 1 with (bpow radix2 0). apply bpow_lt. reflexivity.
Qed.
Lemma rnd_unit r : 0 <= r <= 1 -> 0 <= rnd r <= 1.
Proof.
  intros H. split. rewrite <- (round_0 radix2 (SpecFloat.fexp prec64 emax64) (round_mode mode_NE)). apply round_le; try typeclasses eauto. apply H.
  rewrite <- rnd_one. apply round_le; try typeclasses eauto. apply H.
Qed.

Lemma one_minus q : double q -> unsigned q -> nneg (one -. (one /. (one +. q))) /\ unsigned (one /. (one +. q)).
Proof.
  intros D U. assert (Y : unsigned (one +. q)) by (apply add_un; [reflexivity|exact U]).
  split; [|apply div_un; [reflexivity|exact Y]].
  destruct (dbl _ D) as [b Eb]. subst q. rewrite <- bOne_SF, add_same. rewrite <- bOne_SF, add_same in Y.
  remember (Bplus mode_NE bOne b) as y eqn:Ey. rewrite div_same, sub_same.
  destruct y as [s|s| |s m e H].
  - cbn in Y. subst s. exfalso. assert (F : is_finite b = true) by (destruct b as [[]|[]| |]; try reflexivity; try discriminate Ey).
    pose proof (Bplus_correct prec64 emax64 prec64_pos prec64_lt mode_NE bOne b bOne_fin F) as C. rewrite <- Ey in C.
    destruct (Rlt_bool _ _); [|destruct C as [C _]; discriminate C]. destruct C as [C _].
    assert (P : 0 <= B2R b) by (clear - U; destruct b as [s|s| |s m e H]; cbn; try lra; cbn in U; subst s; apply F2R_ge_0; cbn; lia).
    assert (1 <= rnd (B2R bOne + B2R b)). { rewrite <- rnd_one at 1. apply round_le; try typeclasses eauto. rewrite bOne_R. lra. }
    cbn [B2R] in C. rewrite <- C in H. cbn in H. lra.
  - cbn in Y. subst s. vm_compute. reflexivity.
  - exact I.
  - cbn in Y. subst s. set (y := B754_finite false m e H) in * .
    assert (F : is_finite b = true) by (destruct b as [[]|[]| |]; try reflexivity; try discriminate Ey).
    pose proof (Bplus_correct prec64 emax64 prec64_pos prec64_lt mode_NE bOne b bOne_fin F) as C. rewrite <- Ey in C.
    destruct (Rlt_bool _ _); [|destruct C as [C _]; discriminate C]. destruct C as [C _].
    assert (P : 0 <= B2R b) by (clear - U; destruct b as [s|s| |s m e H]; cbn; try lra; cbn in U; subst s; apply F2R_ge_0; cbn; lia).
    assert (G : 1 <= B2R y). { rewrite C. rewrite <- rnd_one at 1. apply round_le; try typeclasses eauto. rewrite bOne_R. lra. }
    assert (Q : 0 <= 1 / B2R y <= 1). { unfold Rdiv. rewrite Rmult_1_l. split; [left; apply Rinv_0_lt_compat; lra|]. rewrite <- Rinv_1. apply Rinv_le_contravar; lra. }
    pose proof (Bdiv_correct prec64 emax64 prec64_pos prec64_lt mode_NE bOne y ltac:(lra)) as V. rewrite bOne_R in V. rewrite (fit _ Q) in V.
    destruct V as [V [VF _]]. rewrite bOne_fin in VF. pose proof (rnd_unit _ Q) as X. rewrite <- V in X.
    pose proof (Bminus_correct prec64 emax64 prec64_pos prec64_lt mode_NE bOne (Bdiv mode_NE bOne y) bOne_fin VF) as W. rewrite bOne_R in W.
    rewrite fit in W by lra. destruct W as [W [WF _]]. apply nneg_B.
    + intros _. rewrite W. apply rnd_unit. lra.
    + intros s E. rewrite E in WF. discriminate WF.
Qed.
