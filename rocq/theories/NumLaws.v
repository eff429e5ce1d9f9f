(** The comparison laws hold for the instances XR and F64; + and * of F64 commute. *)
From Coq Require Import ZArith List Bool Reals Lra Lia.
From Coq.Floats Require Import SpecFloat.
From Verif Require Import Num XR F64 SpecState.

Lemma XR_cmpLaws : cmpLaws XR.
Proof.
  constructor.
  - intros [a| | |]; cbn; auto. destruct (Rlt_dec a a); auto. lra.
  - intros [a| | |] [b| | |] [c| | |]; cbn; try discriminate; auto.
    destruct (Rlt_dec a b), (Rlt_dec b c), (Rlt_dec a c); try discriminate; auto. lra.
  - cbn. destruct (Rlt_dec 0 1); auto. lra.
Qed.

Lemma XR_ordLaws : ordLaws XR.
Proof.
  constructor; unfold notNaN.
  - intros [a| | |] [b| | |]; cbn; try discriminate; auto.
    destruct (Rlt_dec a b), (Rle_dec b a); try discriminate; auto. lra.
  - intros [a| | |] [b| | |]; cbn; try discriminate; auto.
    destruct (Rle_dec a b), (Rlt_dec b a); try discriminate; auto. lra.
  - intros z _; cbn. destruct (Req_EM_T (IZR z) (IZR z)); auto.
Qed.

Section F64.
Context (lm : libm).

Lemma SFltb_irr x : SFltb x x = false.
Proof.
  destruct x as [s|s| |s m e]; unfold SFltb; cbn; try destruct s; auto;
  rewrite Z.compare_refl, Pcompare_refl; auto.
Qed.

Lemma Pc_trans p q r : Pcompare p q Eq = Lt -> Pcompare q r Eq = Lt -> Pcompare p r Eq = Lt.
Proof.
  change (Pos.compare p q = Lt -> Pos.compare q r = Lt -> Pos.compare p r = Lt).
  rewrite !Pos.compare_lt_iff. lia.
Qed.

Lemma SFltb_trans x y z : SFltb x y = true -> SFltb y z = true -> SFltb x z = true.
Proof.
  unfold SFltb.
  destruct x as [s|s| |s m e], y as [s'|s'| |s' m' e'], z as [s2|s2| |s2 m2 e2]; cbn [SFcompare];
    try discriminate; try destruct s; try destruct s'; try destruct s2; cbn [CompOpp]; try discriminate; auto;
    repeat match goal with
    | |- context [Z.compare ?a ?b] => destruct (Z.compare_spec a b); subst
    | |- context [Pos.compare_cont Eq ?a ?b] =>
        change (Pos.compare_cont Eq a b) with (Pos.compare a b); destruct (Pos.compare_spec a b); subst
    end; cbn; try discriminate; auto; lia.
Qed.

Lemma F64_cmpLaws : cmpLaws (F64 lm).
Proof.
  constructor.
  - apply SFltb_irr.
  - apply SFltb_trans.
  - reflexivity.
Qed.

Lemma F64_ordLaws : ordLaws (F64 lm).
Proof.
  constructor; unfold notNaN; cbn [neqb nltb nleb F64 num].
  - unfold SFltb, SFleb, SFeqb.
    intros [s|s| |s m e] [s'|s'| |s' m' e']; cbn [SFcompare];
    try discriminate; try destruct s; try destruct s'; cbn [CompOpp]; try discriminate; auto;
    intros _ _;
    repeat match goal with
    | |- context [Z.compare ?a ?b] => destruct (Z.compare_spec a b); subst
    | |- context [Pos.compare_cont Eq ?a ?b] =>
        change (Pos.compare_cont Eq a b) with (Pos.compare a b); destruct (Pos.compare_spec a b); subst
    end; cbn; try discriminate; auto; lia.
  - unfold SFltb, SFleb, SFeqb.
    intros [s|s| |s m e] [s'|s'| |s' m' e']; cbn [SFcompare];
    try discriminate; try destruct s; try destruct s'; cbn [CompOpp]; try discriminate; auto;
    intros _ _;
    repeat match goal with
    | |- context [Z.compare ?a ?b] => destruct (Z.compare_spec a b); subst
    | |- context [Pos.compare_cont Eq ?a ?b] =>
        change (Pos.compare_cont Eq a b) with (Pos.compare a b); destruct (Pos.compare_spec a b); subst
    end; cbn; try discriminate; auto; lia.
  - intros z Hz. assert (z = -2 \/ z = -1 \/ z = 0 \/ z = 1 \/ z = 2)%Z as [->|[->|[->|[->| ->]]]] by lia; reflexivity.
Qed.

Lemma F64_add_comm x y : SFadd prec64 emax64 x y = SFadd prec64 emax64 y x.
Proof.
  destruct x as [s|s| |s m e], y as [s'|s'| |s' m' e']; cbn; auto;
    try (destruct s, s'; reflexivity).
  rewrite Z.min_comm. f_equal. apply Z.add_comm.
Qed.

Lemma F64_mul_comm x y : SFmul prec64 emax64 x y = SFmul prec64 emax64 y x.
Proof.
  destruct x as [s|s| |s m e], y as [s'|s'| |s' m' e']; cbn; auto; try (destruct s, s'; reflexivity).
  rewrite xorb_comm, Pos.mul_comm, Z.add_comm. reflexivity.
Qed.

End F64.

Lemma XR_add_comm x y : xadd x y = xadd y x.
Proof. destruct x, y; cbn; auto. f_equal; ring. Qed.
Lemma XR_mul_comm x y : xmul x y = xmul y x.
Proof. destruct x, y; cbn; auto. f_equal; ring. Qed.
