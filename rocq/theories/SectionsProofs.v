(** Sections in IEEE arithmetic: lemmas of C78. *)
From Coq Require Import ZArith List Bool Lia Reals Lra.
From Coq.Floats Require Import SpecFloat.
From Flocq Require Import Core IEEE754.BinarySingleNaN.
From Verif Require Import Num Defs State Coag Nucl Growth Oxid Tar SootModel Sect Calls XR F64 SpecBinomial SpecState SpecFrame SpecPsd SpecIeee SpecRound SpecSections
  StateProofs NumLaws FrameMain RoundProofs IeeeProofs IeeeMain IeeeMono.
Import ListNotations.
Local Open Scope R_scope.

#[local] Existing Instance prec64_pos.
#[local] Existing Instance prec64_lt.
#[local] Instance fexp_ok2 : Valid_exp (SpecFloat.fexp prec64 emax64) := fexp_correct prec64 emax64 eq_refl.

(** zero or NaN *)
Definition zn (x : spec_float) : Prop := match x with S754_nan | S754_zero _ => True | _ => False end.
Lemma zn_mul x y : zn y -> zn (x *. y). Proof. sfcase x; sfcase y; intros H; try destruct H; exact I. Qed.
Lemma zn_mul' x y : zn x -> zn (x *. y). Proof. sfcase x; sfcase y; intros H; try destruct H; exact I. Qed.
Lemma zn_div x y : zn x -> zn (x /. y). Proof. sfcase x; sfcase y; intros H; try destruct H; exact I. Qed.
Lemma zn_nn x : zn x -> nneg x. Proof. sfcase x; cbn; tauto. Qed.
Lemma zn_opp x : zn x -> nneg (SFopp x). Proof. sfcase x; cbn; tauto. Qed.
Lemma sub_zn x y : nneg x -> zn y -> nneg (x -. y).
Proof. sfcase x; sfcase y; intros A B; try destruct B; try discriminate A; exact I || reflexivity. Qed.

Lemma sub_val x y : isDouble x -> isDouble y -> 0 <= sfVal y <= sfVal x -> isDouble (x -. y) /\ sfVal (x -. y) = rnd (sfVal x - sfVal y) /\ 0 <= sfVal (x -. y).
Proof.
  intros A B H. destruct (ofDouble _ A) as (a & <- & FA). destruct (ofDouble _ B) as (b & <- & FB). rewrite !val_B in * . rewrite sub_same, val_B.
  pose proof (Bminus_correct prec64 emax64 prec64_pos prec64_lt mode_NE a b FA FB) as C.
  assert (R0 : 0 <= rnd (B2R a - B2R b)). { rewrite <- (round_0 radix2 (SpecFloat.fexp prec64 emax64) (round_mode mode_NE)). apply round_le; try typeclasses eauto. lra. }
  assert (R1 : rnd (B2R a - B2R b) <= B2R a). { rewrite <- (round_generic radix2 (SpecFloat.fexp prec64 emax64) (round_mode mode_NE) (B2R a)) at 2; [|apply generic_format_B2R]. apply round_le; try typeclasses eauto. lra. }
  rewrite Rlt_bool_true in C. 2: { rewrite Rabs_pos_eq by exact R0. apply Rle_lt_trans with (1 := R1). pose proof (abs_B2R_lt_emax _ _ a) as L. rewrite Rabs_pos_eq in L by lra. exact L. }
  destruct C as (C1 & C2 & _). split; [apply toDouble; exact C2|]. rewrite C1. auto.
Qed.
Lemma val_un x : isDouble x -> 0 < sfVal x -> unsigned x.
Proof.
  intros D H. sfcase x; try reflexivity; cbn in H; try lra. exfalso.
  assert (0 < powerRZ 2 e) by (apply powerRZ_lt; lra). assert (IZR (Z.neg m) < 0) by (apply IZR_lt; reflexivity). pose proof (Rmult_lt_0_compat (- IZR (Z.neg m)) (powerRZ 2 e)). lra.
Qed.
Lemma val_nn x : isDouble x -> 0 <= sfVal x -> nneg x.
Proof. intros D [H|H]; [apply un_nn, val_un; assumption|]. sfcase x; try exact I; try reflexivity; try (destruct D; discriminate). cbn in H. exfalso.
  assert (0 < powerRZ 2 e) by (apply powerRZ_lt; lra). assert (IZR (Z.neg m) < 0) by (apply IZR_lt; reflexivity). pose proof (Rmult_lt_0_compat (- IZR (Z.neg m)) (powerRZ 2 e)). lra.
Qed.
(** the difference of two different doubles is not lost to rounding *)
Lemma sub_un x y : isDouble x -> isDouble y -> 0 <= sfVal y < sfVal x -> unsigned (x -. y).
Proof.
  intros A B H. destruct (ofDouble _ A) as (a & <- & FA). destruct (ofDouble _ B) as (b & <- & FB). rewrite !val_B in * . rewrite sub_same.
  pose proof (Bminus_correct prec64 emax64 prec64_pos prec64_lt mode_NE a b FA FB) as C.
  assert (R0 : 0 <= rnd (B2R a - B2R b)). { rewrite <- (round_0 radix2 (SpecFloat.fexp prec64 emax64) (round_mode mode_NE)). apply round_le; try typeclasses eauto. lra. }
  assert (R1 : rnd (B2R a - B2R b) <= B2R a). { rewrite <- (round_generic radix2 (SpecFloat.fexp prec64 emax64) (round_mode mode_NE) (B2R a)) at 2; [|apply generic_format_B2R]. apply round_le; try typeclasses eauto. lra. }
  rewrite Rlt_bool_true in C. 2: { rewrite Rabs_pos_eq by exact R0. apply Rle_lt_trans with (1 := R1). pose proof (abs_B2R_lt_emax _ _ a) as L. rewrite Rabs_pos_eq in L by lra. exact L. }
  destruct C as (C1 & C2 & C3). rewrite Rcompare_Gt in C3 by lra. destruct (Bminus mode_NE a b) as [s|s| |s m e HH]; cbn in * ; congruence.
Qed.

Lemma leb_val x y : isDouble x -> isDouble y -> SFleb x y = true -> sfVal x <= sfVal y.
Proof.
  intros A B L. destruct (ofDouble _ A) as (a & <- & FA). destruct (ofDouble _ B) as (b & <- & FB). rewrite !val_B.
  change (Bleb a b = true) in L. rewrite Bleb_correct in L by assumption. destruct (Rle_bool_spec (B2R a) (B2R b)); [assumption|discriminate].
Qed.
Lemma le_finite a s b : isDouble a -> isDouble b -> double s -> SFleb a s = true -> SFleb s b = true -> isDouble s.
Proof.
  intros [_ A] [_ B] D L1 L2. split; [exact D|]. sfcase s; try reflexivity; sfcase a; sfcase b; try discriminate.
Qed.

(** the share of a collision product is between 0 and 1 *)
Lemma share a s b : isDouble a -> isDouble s -> isDouble b -> 0 < sfVal a -> sfVal a < sfVal b -> sfVal a <= sfVal s <= sfVal b ->
  let X := (b -. s) /. (b -. a) in nneg X /\ nneg (one -. X).
Proof.
  intros A D B PA AB SB X. destruct (sub_val b s B D ltac:(lra)) as (D1 & V1 & P1). destruct (sub_val b a B A ltac:(lra)) as (D2 & V2 & P2).
  pose proof (sub_un b a B A ltac:(lra)) as U2. assert (L : sfVal (b -. s) <= sfVal (b -. a)) by (rewrite V1, V2; apply round_le; try typeclasses eauto; lra).
  unfold X. split; [apply div_nn; [apply val_nn; assumption|exact U2]|].
  destruct (ofDouble _ D1) as (p & EP & FP). destruct (ofDouble _ D2) as (q & EQ & FQ). rewrite <- EP, <- EQ in * . rewrite !val_B in * . rewrite div_same.
  destruct (Req_dec (B2R q) 0) as [Z|NZ].
  - assert (ZP : B2R p = 0) by lra. assert (E : B2SF (Bdiv mode_NE p q) = S754_nan).
    { rewrite <- div_same. destruct p as [sp|sp| |sp mp ep Hp]; try discriminate FP; [|exfalso; cbn in ZP; apply eq_0_F2R in ZP; destruct sp; discriminate].
      destruct q as [sq|sq| |sq mq eq Hq]; try discriminate FQ; [|exfalso; cbn in Z; apply eq_0_F2R in Z; destruct sq; discriminate]. reflexivity. }
    rewrite E. exact I.
  - pose proof (Bdiv_correct prec64 emax64 prec64_pos prec64_lt mode_NE p q NZ) as C.
    assert (U : 0 <= B2R p / B2R q <= 1). { split; [apply Rmult_le_pos; [lra|apply Rlt_le, Rinv_0_lt_compat; lra]|]. apply Rmult_le_reg_r with (B2R q); [lra|]. unfold Rdiv. rewrite Rmult_assoc, Rinv_l by lra. lra. }
    rewrite (fit _ U) in C. destruct C as (C1 & C2 & _). pose proof (rnd_unit _ U) as U'. rewrite FP in C2. rewrite <- bOne_SF. 
    assert (DX : isDouble (B2SF (Bdiv mode_NE p q))) by (apply toDouble; exact C2). assert (D1' : isDouble (B2SF bOne)) by (apply toDouble; reflexivity).
    destruct (sub_val _ _ D1' DX) as (S1 & S2 & S3); [rewrite !val_B, bOne_R, C1; exact U'|]. apply val_nn; assumption.
Qed.
