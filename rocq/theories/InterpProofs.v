(** The linear interpolator on extended reals. *)
From Coq Require Import ZArith List Bool Reals Lra Lia.
From Verif Require Import Num Interp XR XRLemmas SpecInterp.
Import ListNotations.
Local Open Scope R_scope.

Lemma nth_fin (X : list R) i : nth i (map Fin X) (@nZ XR 0) = Fin (nth i X 0).
Proof. change (@nZ XR 0) with (Fin 0). rewrite map_nth. reflexivity. Qed.
Lemma vget_fin (X : list R) i : (i < length X)%nat -> vget (map Fin X) i = Ok (Fin (nth i X 0)).
Proof.
  intros H. unfold vget. rewrite nth_error_map, (nth_error_nth' X 0 H). reflexivity.
Qed.
Lemma vget_out {A} (v : list A) i : (length v <= i)%nat -> vget v i = UB OutOfBounds.
Proof. intros H. unfold vget. apply nth_error_None in H. now rewrite H. Qed.
Lemma vgetZ_fin (X : list R) i : (0 <= i < Z.of_nat (length X))%Z ->
  vgetZ (map Fin X) i = Ok (Fin (nth (Z.to_nat i) X 0)).
Proof.
  intros H. unfold vgetZ. destruct (Z.ltb_spec i 0); [lia|]. apply vget_fin. lia.
Qed.

(** binary search *)
Lemma lbSearch_ok (X : list R) x : increasing X -> forall fuel first len,
  (len <= fuel)%nat -> (first + len <= length X)%nat ->
  (forall i, (i < first)%nat -> nth i X 0 < x) ->
  (forall i, (first + len <= i < length X)%nat -> x <= nth i X 0) ->
  let r := @lbSearch XR fuel (map Fin X) (Fin x) first len in
  (first <= r <= first + len)%nat /\ (forall i, (i < r)%nat -> nth i X 0 < x) /\
  (forall i, (r <= i < length X)%nat -> x <= nth i X 0).
Proof.
  intros HX. induction fuel as [|f IH]; intros first len Hl Hn H1 H2; cbv zeta.
  - cbn [lbSearch]. assert (len = 0)%nat by lia. subst. split; [lia|]. split; auto. intros i Hi. apply H2. lia.
  - cbn [lbSearch]. destruct (Nat.eqb_spec len 0) as [->|Hz].
    + split; [lia|]. split; auto. intros i Hi. apply H2. lia.
    + assert (Hh : (Nat.div2 len < len)%nat) by (apply Nat.lt_div2; lia).
      rewrite nth_fin. change (@nltb XR) with xltb.
      destruct (xltb (Fin (nth (first + Nat.div2 len) X 0)) (Fin x)) eqn:E.
      * apply xltb_iff in E.
        destruct (IH (first + Nat.div2 len + 1)%nat (len - Nat.div2 len - 1)%nat) as (A & B & C); try lia.
        -- intros i Hi. destruct (Nat.eq_dec i (first + Nat.div2 len)) as [->|]; auto.
           apply Rlt_trans with (nth (first + Nat.div2 len) X 0); auto. apply HX. lia.
        -- intros i Hi. apply H2. lia.
        -- split; [lia|]. split; auto.
      * assert (E' : x <= nth (first + Nat.div2 len) X 0).
        { destruct (Rlt_dec (nth (first + Nat.div2 len) X 0) x) as [L|]; [|lra]. apply xltb_iff in L. congruence. }
        destruct (IH first (Nat.div2 len)) as (A & B & C); try lia; auto.
        -- intros i Hi. destruct (Nat.eq_dec i (first + Nat.div2 len)) as [->|]; auto.
           apply Rle_trans with (nth (first + Nat.div2 len) X 0); auto. apply Rlt_le, HX. lia.
        -- split; [lia|]. split; auto.
Qed.
Lemma lowerBound_ok (X : list R) x : increasing X ->
  let r := @lowerBound XR (map Fin X) (Fin x) in
  (r <= length X)%nat /\ (forall i, (i < r)%nat -> nth i X 0 < x) /\
  (forall i, (r <= i < length X)%nat -> x <= nth i X 0).
Proof.
  intros HX. cbv zeta. unfold lowerBound. rewrite map_length.
  destruct (lbSearch_ok X x HX (length X) 0 (length X)) as (A & B & C); [lia|lia| | |].
  - intros i Hi; exfalso; lia.
  - intros i Hi; exfalso; lia.
  - split; [exact (proj2 A)|]. auto.
Qed.

(** evaluating one segment *)
Lemma interp_at (X Y : list R) x i : length X = length Y -> (S i < length X)%nat ->
  nth (S i) X 0 <> nth i X 0 ->
  @boundingHi XR (map Fin X) (Fin x) = Ok (Z.of_nat (S i)) ->
  @interp XR (mkInterpObj (map Fin X) (map Fin Y)) (Fin x) = Ok (Fin (chord X Y i x)).
Proof.
  intros HL Hi Hne Hb. unfold interp. cbn [ip_X ip_Y]. rewrite Hb. cbn [bind].
  replace (Z.of_nat (S i) - 1)%Z with (Z.of_nat i) by lia.
  rewrite !vgetZ_fin by lia. cbn [bind]. rewrite !Nat2Z.id. f_equal. unfold chord.
  assert (nth (S i) X 0 - nth i X 0 <> 0) by lra.
  xcbn. xstep. xstep. xstep. xstep. rewrite xdiv_fin by assumption. xstep. reflexivity.
Qed.

Lemma boundingHi_inc (X : list R) x : (2 <= length X)%nat -> increasing X ->
  exists i, segment X x i /\ @boundingHi XR (map Fin X) (Fin x) = Ok (Z.of_nat (S i)).
Proof.
  intros HL HX. unfold boundingHi. rewrite vget_fin by lia. cbn [bind]. rewrite map_length.
  change (@nleb XR) with xleb.
  destruct (xleb (Fin x) (Fin (nth 0 X 0))) eqn:E.
  { apply xleb_iff in E. exists 0%nat. split; [|reflexivity]. split; [lia|]. split; [auto|]. right.
    pose proof (HX 0%nat 1%nat ltac:(lia)). lra. }
  assert (E0 : nth 0 X 0 < x) by (destruct (Rle_dec x (nth 0 X 0)) as [L|]; [apply xleb_iff in L; congruence|lra]).
  rewrite vget_fin by lia. cbn [bind].
  destruct (xleb (Fin (nth (length X - 1) X 0)) (Fin x)) eqn:E1.
  { apply xleb_iff in E1. exists (length X - 2)%nat. split; [|f_equal; lia]. split; [lia|]. split; [|left; lia].
    right. pose proof (HX (length X - 2)%nat (length X - 1)%nat ltac:(lia)). lra. }
  assert (E1' : x < nth (length X - 1) X 0).
  { destruct (Rle_dec (nth (length X - 1) X 0) x) as [L|]; [apply xleb_iff in L; congruence|lra]. }
  destruct (lowerBound_ok X x HX) as (A & B & C).
  set (r := @lowerBound XR (map Fin X) (Fin x)) in *.
  assert (r <> 0)%nat. { intros Hr. specialize (C 0%nat). rewrite Hr in C. specialize (C ltac:(lia)). lra. }
  assert (r < length X)%nat.
  { destruct (Nat.lt_ge_cases r (length X)); auto. exfalso. specialize (B (length X - 1)%nat ltac:(lia)). lra. }
  exists (r - 1)%nat. replace (S (r - 1)) with r by lia. split; [|reflexivity].
  split; [lia|]. split.
  - right. apply Rlt_le, B. lia.
  - right. replace (S (r - 1)) with r by lia. apply C. lia.
Qed.

Lemma C53_inc (X Y : list R) x : length X = length Y -> (2 <= length X)%nat -> increasing X ->
  exists i, segment X x i /\
    @interp XR (mkInterpObj (map Fin X) (map Fin Y)) (Fin x) = Ok (Fin (chord X Y i x)).
Proof.
  intros HL H2 HX. destruct (boundingHi_inc X x H2 HX) as (i & Hs & Hb). exists i. split; auto.
  apply interp_at; auto; [apply Hs|]. pose proof (HX i (S i) ltac:(destruct Hs; lia)). lra.
Qed.

(** two segments meeting at a node agree there, so the value is determined by [segment] *)
Lemma chord_left X Y i : chord X Y i (nth i X 0) = nth i Y 0.
Proof. unfold chord. rewrite Rminus_diag_eq by reflexivity. unfold Rdiv. ring. Qed.
Lemma chord_right X Y i : nth (S i) X 0 <> nth i X 0 -> chord X Y i (nth (S i) X 0) = nth (S i) Y 0.
Proof. intros H. unfold chord. field. lra. Qed.

Lemma segment_unique X Y x i j : increasing X -> segment X x i -> segment X x j -> chord X Y i x = chord X Y j x.
Proof.
  intros HX.
  assert (W : forall i j, (i < j)%nat -> segment X x i -> segment X x j -> chord X Y i x = chord X Y j x).
  { intros a b Hab (A1 & A2 & A3) (B1 & B2 & B3).
    assert (E1 : x <= nth (S a) X 0) by (destruct A3; [lia|auto]).
    assert (E2 : nth b X 0 <= x) by (destruct B2; [lia|auto]).
    destruct (Nat.eq_dec (S a) b) as [<-|Hne].
    - assert (x = nth (S a) X 0) by lra. subst x. rewrite chord_left, chord_right; auto.
      pose proof (HX a (S a) ltac:(lia)). lra.
    - pose proof (HX (S a) b ltac:(lia)). lra. }
  intros Hi Hj. destruct (Nat.lt_trichotomy i j) as [L|[->|L]]; auto. symmetry. apply W; auto.
Qed.

Lemma C53_segment (X Y : list R) x i : length X = length Y -> increasing X -> segment X x i ->
  @interp XR (mkInterpObj (map Fin X) (map Fin Y)) (Fin x) = Ok (Fin (chord X Y i x)).
Proof.
  intros HL HX Hs. destruct (C53_inc X Y x HL ltac:(destruct Hs; lia) HX) as (j & Hj & E).
  rewrite E. do 2 f_equal. eapply segment_unique; eauto.
Qed.

Lemma C53_node_ (X Y : list R) j : length X = length Y -> (2 <= length X)%nat -> increasing X -> (j < length X)%nat ->
  @interp XR (mkInterpObj (map Fin X) (map Fin Y)) (Fin (nth j X 0)) = Ok (Fin (nth j Y 0)).
Proof.
  intros HL H2 HX Hj. destruct (Nat.eq_dec (S j) (length X)) as [E|E].
  - rewrite (C53_segment X Y _ (j - 1)); auto.
    + do 2 f_equal. replace j with (S (j - 1)) at 2 3 by lia. apply chord_right.
      pose proof (HX (j - 1)%nat (S (j - 1)) ltac:(lia)). lra.
    + split; [lia|]. split; [|left; lia]. right. apply Rlt_le, HX. lia.
  - rewrite (C53_segment X Y _ j); auto.
    + now rewrite chord_left.
    + split; [lia|]. split; [right; lra|]. right. apply Rlt_le, HX. lia.
Qed.

(** decreasing tables *)
Lemma C53_dec (X Y : list R) x : length X = length Y -> (2 <= length X)%nat -> decreasing X ->
  @interp XR (mkInterpObj (map Fin X) (map Fin Y)) (Fin x) =
  Ok (Fin (chord X Y (if Rle_dec x (nth 0 X 0) then 0 else length X - 2) x)).
Proof.
  intros HL H2 HX. apply interp_at; auto.
  - destruct (Rle_dec x (nth 0 X 0)); lia.
  - destruct (Rle_dec x (nth 0 X 0)).
    + pose proof (HX 0%nat 1%nat ltac:(lia)). lra.
    + pose proof (HX (length X - 2)%nat (S (length X - 2)) ltac:(lia)). lra.
  - unfold boundingHi. rewrite vget_fin by lia. cbn [bind]. rewrite map_length. change (@nleb XR) with xleb.
    unfold xleb at 1. destruct (Rle_dec x (nth 0 X 0)); [reflexivity|].
    rewrite vget_fin by lia. cbn [bind].
    rewrite xleb_true; [f_equal; lia|].
    pose proof (HX 0%nat (length X - 1)%nat ltac:(lia)). lra.
Qed.

(** the constructor *)
Lemma badPoint_spec a b c : @badPoint XR (Fin a) (Fin b) (Fin c) = false <-> (a < b < c \/ c < b < a).
Proof.
  unfold badPoint. change (@neqb XR) with xeqb. change (@nltb XR) with xltb. unfold xeqb, xltb.
  destruct (Req_EM_T b a), (Req_EM_T b c), (Rlt_dec b a), (Rlt_dec b c), (Rlt_dec a b), (Rlt_dec c b);
    cbn; split; intros H; try reflexivity; try discriminate; try lra.
Qed.
Lemma badTable_spec (X : list R) : @badTable XR (map Fin X) = false <->
  forall i, (S (S i) < length X)%nat ->
    nth i X 0 < nth (S i) X 0 < nth (S (S i)) X 0 \/ nth (S (S i)) X 0 < nth (S i) X 0 < nth i X 0.
Proof.
  induction X as [|a X IH]; [split; intros; cbn in *; auto; lia|].
  destruct X as [|b X]; [split; intros; cbn in *; auto; lia|].
  destruct X as [|c X]; [split; intros; cbn in *; auto; lia|].
  change (@badTable XR (map Fin (a :: b :: c :: X))) with
    (orb (@badPoint XR (Fin a) (Fin b) (Fin c)) (@badTable XR (map Fin (b :: c :: X)))).
  rewrite orb_false_iff, IH, badPoint_spec. split.
  - intros [H1 H2] i Hi. destruct i as [|i]; [exact H1|]. apply (H2 i). cbn in *; lia.
  - intros H. split; [exact (H 0%nat ltac:(cbn; lia))|]. intros i Hi. apply (H (S i)). cbn in *; lia.
Qed.
Lemma monotone_spec (X : list R) : (3 <= length X)%nat ->
  ((forall i, (S (S i) < length X)%nat ->
    nth i X 0 < nth (S i) X 0 < nth (S (S i)) X 0 \/ nth (S (S i)) X 0 < nth (S i) X 0 < nth i X 0)
   <-> increasing X \/ decreasing X).
Proof.
  intros HL. split.
  - intros H. destruct (H 0%nat ltac:(lia)) as [H0|H0].
    + left. assert (St : forall i, (S i < length X)%nat -> nth i X 0 < nth (S i) X 0).
      { induction i as [|i IH]; intros Hi; [lra|]. specialize (IH ltac:(lia)).
        destruct (H i ltac:(lia)); lra. }
      intros i j [Hij Hj]. induction Hij as [|m Hm IHm]; [apply St; lia|].
      apply Rlt_trans with (nth m X 0); [apply IHm; lia|apply St; lia].
    + right. assert (St : forall i, (S i < length X)%nat -> nth (S i) X 0 < nth i X 0).
      { induction i as [|i IH]; intros Hi; [lra|]. specialize (IH ltac:(lia)).
        destruct (H i ltac:(lia)); lra. }
      intros i j [Hij Hj]. induction Hij as [|m Hm IHm]; [apply St; lia|].
      apply Rlt_trans with (nth m X 0); [apply St; lia|apply IHm; lia].
  - intros [H|H] i Hi; [left|right]; split; apply H; lia.
Qed.
Lemma C53_ctor (X Y : list R) :
  @newInterp XR (map Fin X) (map Fin Y) = Ok (mkInterpObj (map Fin X) (map Fin Y)) /\
    length X = length Y /\ ((length X <= 2)%nat \/ increasing X \/ decreasing X) \/
  @newInterp XR (map Fin X) (map Fin Y) = Throw EInterp /\
    ~ (length X = length Y /\ ((length X <= 2)%nat \/ increasing X \/ decreasing X)).
Proof.
  unfold newInterp. rewrite !map_length. destruct (Nat.eqb_spec (length X) (length Y)) as [E|E]; cbn [negb].
  2:{ right. split; [reflexivity|tauto]. }
  destruct (Nat.le_gt_cases (length X) 2) as [H2|H2].
  - left. assert (B : @badTable XR (map Fin X) = false).
    { apply badTable_spec. intros i Hi. lia. }
    rewrite B. auto.
  - destruct (@badTable XR (map Fin X)) eqn:B.
    + right. split; [reflexivity|]. intros [_ [L|M]]; [lia|].
      pose proof (proj2 (badTable_spec X) (proj2 (monotone_spec X ltac:(lia)) M)). congruence.
    + left. split; [reflexivity|]. split; [auto|]. right. apply (proj1 (monotone_spec X ltac:(lia))), badTable_spec, B.
Qed.

(** short tables *)
Lemma C53_short_ (X Y : list R) x : length X = length Y -> (length X <= 1)%nat ->
  @newInterp XR (map Fin X) (map Fin Y) = Ok (mkInterpObj (map Fin X) (map Fin Y)) /\
  @interp XR (mkInterpObj (map Fin X) (map Fin Y)) (Fin x) = UB OutOfBounds.
Proof.
  intros HL HS. split.
  - destruct (C53_ctor X Y) as [[E _]|[_ E]]; [exact E|]. exfalso. apply E. split; [exact HL|]. left. lia.
  - destruct X as [|a [|]], Y as [|b [|]]; cbn in HL, HS; try lia; [reflexivity|].
    unfold interp, boundingHi. cbn [ip_X ip_Y map vget nth_error bind length Nat.sub].
    change (@nleb XR) with xleb. unfold xleb at 1. destruct (Rle_dec x a); [reflexivity|].
    rewrite xleb_true by lra. reflexivity.
Qed.

(** NaN query: generic in the numbers *)
Section NaN.
Context {N : Num}.
Lemma lbSearch_nan (l : list num) x : (forall a, nltb a x = false) -> forall fuel len, lbSearch fuel l x 0 len = 0%nat.
Proof.
  intros H. induction fuel as [|f IH]; intros len; cbn [lbSearch]; auto.
  destruct (Nat.eqb len 0); auto. rewrite H. apply IH.
Qed.
Lemma C53_nan_ X Y (x : num) : (forall a, nltb a x = false) -> (forall a, nleb a x = false) -> (forall a, nleb x a = false) ->
  interp (mkInterpObj X Y) x = UB OutOfBounds.
Proof.
  intros H1 H2 H3. unfold interp, boundingHi. cbn [ip_X ip_Y].
  destruct X as [|a X]; [reflexivity|]. cbn [vget nth_error bind]. rewrite H3.
  unfold vget. destruct (nth_error (a :: X) (length (a :: X) - 1)) eqn:E; [|reflexivity].
  cbn [bind]. rewrite H2. cbn [bind]. unfold lowerBound. rewrite lbSearch_nan by exact H1. reflexivity.
Qed.
End NaN.

From Coq.Floats Require Import SpecFloat.
From Verif Require Import F64.
Lemma C53_nan64 lm (X Y : list spec_float) :
  @interp (F64 lm) (mkInterpObj (N:=F64 lm) X Y) S754_nan = UB OutOfBounds.
Proof. apply (C53_nan_ (N:=F64 lm)); intros [s|s| |s m e]; try destruct s; reflexivity. Qed.

Lemma dec421 : decreasing [4; 2; 1].
Proof.
  intros i j [A B]. cbn [length] in B. destruct i as [|[|[|i]]], j as [|[|[|j]]]; cbn [nth]; try lia; lra.
Qed.
Lemma inc124 : increasing [1; 2; 4].
Proof.
  intros i j [A B]. cbn [length] in B. destruct i as [|[|[|i]]], j as [|[|[|j]]]; cbn [nth]; try lia; lra.
Qed.
Lemma C53_case : increasing [1; 2; 4] /\ segment [1; 2; 4] 3 1 /\ decreasing [4; 2; 1].
Proof.
  split; [exact inc124|]. split; [|exact dec421]. split; [cbn; lia|]. cbn [nth]. split; [right; lra|right; lra].
Qed.
Lemma C53_dec_bad : exists (X Y : list R) j y,
  @newInterp XR (map Fin X) (map Fin Y) = Ok (mkInterpObj (map Fin X) (map Fin Y)) /\ decreasing X /\ (j < length X)%nat /\
  @interp XR (mkInterpObj (map Fin X) (map Fin Y)) (Fin (nth j X 0)) = Ok (Fin y) /\ y <> nth j Y 0.
Proof.
  exists [4; 2; 1], [0; 0; 5], 2%nat, 0. split.
  { destruct (C53_ctor [4; 2; 1] [0; 0; 5]) as [[E _]|[_ E]]; auto. exfalso. apply E. split; [reflexivity|].
    right; right; exact dec421. }
  split; [exact dec421|]. split; [cbn; lia|]. split.
  - rewrite C53_dec; [|reflexivity|cbn; lia|exact dec421]. do 2 f_equal. cbn [nth].
    destruct (Rle_dec 1 4); [|lra]. unfold chord. cbn [nth]. lra.
  - cbn [nth]. lra.
Qed.
