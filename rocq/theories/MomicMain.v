(** Grid functions, coagulation and condensation rates of the interpolative closure model. *)
From Coq Require Import ZArith List Bool Reals Lra Lia.
From Verif Require Import Num Defs State Coag Nucl SootModel Momic XR XRLemmas SpecChem SpecCoag SpecValid SpecRates SpecGas SpecPah SpecPsd SpecSect SpecQmom SpecBinomial SpecLogn SpecMomic
  CoagProofs ValidProofs InterpProofs RateProofs PsdProofs SectProofs SectMain QmomRun LognProofs LognMain LognFinal MomicProofs Binomial BinomialProofs.
Import ListNotations.
Local Open Scope R_scope.

(** ** grid functions at integers *)
Section Grid.
Context (f g : Z -> R) (x y : nat).
Notation a c := (f (6 * Z.of_nat x + c)%Z).
Notation b c := (g (6 * Z.of_nat y + c)%Z).
Ltac off h X z := first
  [ replace z with (6 * X + (-3))%Z by lia | replace z with (6 * X + (-1))%Z by lia | replace z with (6 * X + 1)%Z by lia
  | replace z with (6 * X + 3)%Z by lia | replace z with (6 * X + 5)%Z by lia | replace z with (6 * X + 7)%Z by lia
  | replace z with (6 * X + 9)%Z by lia | replace z with (6 * X + 11)%Z by lia | replace z with (6 * X + 13)%Z by lia
  | replace z with (6 * X + 15)%Z by lia | replace z with (6 * X + 17)%Z by lia | replace z with (6 * X + 19)%Z by lia ].
Ltac norm1 h X := repeat match goal with |- context [h ?z] => lazymatch z with (6 * X + _)%Z => fail | _ => off h X z end end.
Ltac expand := unfold gridInt, Sum, SpecRates.sumR, pairSum; cbn [seq map fold_right choose Nat.add]; cbn [Z.add Pos.add Pos.succ Pos.add_carry].
Lemma grid0 : gridInt f g x y 0 = a (-3) * b 1 + 2 * a (-1) * b (-1) + a 1 * b (-3).
Proof. expand. norm1 f (Z.of_nat x). norm1 g (Z.of_nat y). ring. Qed.
Lemma grid1 : gridInt f g x y 1 = a (-3) * b 7 + 2 * a (-1) * b 5 + a 1 * b 3 + a 3 * b 1 + 2 * a 5 * b (-1) + a 7 * b (-3).
Proof. expand. norm1 f (Z.of_nat x). norm1 g (Z.of_nat y). ring. Qed.
Lemma grid2 : gridInt f g x y 2 = a (-3) * b 13 + 2 * a (-1) * b 11 + a 1 * b 9 + 2 * a 3 * b 7 + 4 * a 5 * b 5 + 2 * a 7 * b 3
  + a 9 * b 1 + 2 * a 11 * b (-1) + a 13 * b (-3).
Proof. expand. norm1 f (Z.of_nat x). norm1 g (Z.of_nat y). ring. Qed.
Lemma grid3 : gridInt f g x y 3 = a (-3) * b 19 + 2 * a (-1) * b 17 + a 1 * b 15 + 3 * a 3 * b 13 + 6 * a 5 * b 11 + 3 * a 7 * b 9
  + 3 * a 9 * b 7 + 6 * a 11 * b 5 + 3 * a 13 * b 3 + a 15 * b 1 + 2 * a 17 * b (-1) + a 19 * b (-3).
Proof. expand. norm1 f (Z.of_nat x). norm1 g (Z.of_nat y). ring. Qed.
End Grid.

Lemma choose_pos l j : (j <= l)%nat -> 0 < IZR (choose l j).
Proof.
  intros H. apply (IZR_lt 0). revert j H. induction l as [|l IH]; intros j H; destruct j; cbn [choose]; try lia.
  destruct (Nat.eq_dec j l) as [->|]; [|pose proof (IH (S j) ltac:(lia)); pose proof (IH j ltac:(lia)); lia].
  pose proof (IH l ltac:(lia)). assert (E : forall n, (0 <= choose l n)%Z) by (clear; induction l as [|l IH]; intros [|n]; cbn [choose]; try lia; specialize (IH n) as A; pose proof (IH (S n)); lia).
  specialize (E (S l)). lia.
Qed.
Lemma Sum_pos n f : (1 <= n)%nat -> (forall j, (j < n)%nat -> 0 < f j) -> 0 < Sum n f.
Proof.
  intros H1 H. induction n as [|n IH]; [lia|]. rewrite Sum_S. pose proof (H n ltac:(lia)). destruct n as [|n]; [cbn; lra|].
  specialize (IH ltac:(lia) ltac:(intros; apply H; lia)). lra.
Qed.
Lemma gridInt_pos f g x y l : (forall z, 0 < f z) -> (forall z, 0 < g z) -> 0 < gridInt f g x y l.
Proof.
  intros F G. unfold gridInt. apply Sum_pos; [lia|]. intros j Hj. apply Rmult_lt_0_compat; [apply choose_pos; lia|].
  unfold pairSum. pose proof (fun a b => Rmult_lt_0_compat _ _ (F a) (G b)) as K.
  pose proof (K (6 * Z.of_nat (x + j) - 3)%Z (6 * Z.of_nat (y + l - j) + 1)%Z). pose proof (K (6 * Z.of_nat (x + j) - 1)%Z (6 * Z.of_nat (y + l - j) - 1)%Z).
  pose proof (K (6 * Z.of_nat (x + j) + 1)%Z (6 * Z.of_nat (y + l - j) - 3)%Z). lra.
Qed.

(** ** interpolation to 1/2 *)
Lemma half_val y p v G : y = Z.of_nat p -> (forall l, (l < (if Nat.leb p 2 then 4 else if Nat.leb p 3 then 3 else 2))%nat -> v l = Ok (Fin (G l))) -> (forall l, 0 < G l) ->
  half (N:=XR) y v = Ok (Fin (exp (interpolate (if Nat.leb p 2 then 4 else if Nat.leb p 3 then 3 else 2) (fun l => ln (G l)) (1 / 2)))).
Proof.
  intros -> HV HG. unfold half, qfrac. replace (Z.of_nat p <=? 2)%Z with (Nat.leb p 2). 2: { destruct (Nat.leb_spec p 2), (Z.leb_spec (Z.of_nat p) 2); auto; lia. }
  replace (Z.of_nat p <=? 3)%Z with (Nat.leb p 3). 2: { destruct (Nat.leb_spec p 3), (Z.leb_spec (Z.of_nat p) 3); auto; lia. }
  assert (Q : forall a b, b <> 0%Z -> @ndiv XR (nZ a) (nZ b) = Fin (IZR a / IZR b)).
  { intros a b Hb. change (@ndiv XR) with xdiv. change (@nZ XR a) with (Fin (IZR a)). change (@nZ XR b) with (Fin (IZR b)). apply xdiv_fin. now apply not_0_IZR. }
  change (@npow XR) with xpow. pose proof (HG 0%nat). pose proof (HG 1%nat). pose proof (HG 2%nat). pose proof (HG 3%nat).
  assert (S4 : forall h, Sum 4 h = h 0%nat + h 1%nat + h 2%nat + h 3%nat) by (intros; rewrite !Sum_S; cbn; ring).
  assert (S3 : forall h, Sum 3 h = h 0%nat + h 1%nat + h 2%nat) by (intros; rewrite !Sum_S; cbn; ring).
  assert (S2 : forall h, Sum 2 h = h 0%nat + h 1%nat) by (intros; rewrite !Sum_S; cbn; ring).
  destruct (Nat.leb p 2); [|destruct (Nat.leb p 3)]; rewrite !HV by lia; cbn [bind]; rewrite !Q by discriminate; rewrite !xpow_fin by auto; fin; do 2 f_equal;
    unfold Rpower; rewrite <- !exp_plus; f_equal; unfold interpolate; rewrite ?S4, ?S3, ?S2; cbn [gbin fdiff INR]; field.
Qed.

(** ** values of the term lists *)
Section Q.
Context (q : list (@num XR)) (cnt : Z) (F : Z -> R).
Context (HQ : forall i, (0 <= i < cnt)%Z -> vgetZ q i = Ok (Fin (F (2 * i - 3)%Z))) (FP : forall z, 0 < F z).
Ltac reads := repeat (rewrite HQ by lia; cbn [bind]).
Ltac sums := cbn [nth map]; unfold cterm; cbn [Z.eqb Pos.eqb]; reads; cbn [Momic.sumR fold_left]; unfold radd, lift2; cbn [bind];
  change (@nadd XR) with xadd; change (@nmul XR) with xmul; repeat match goal with |- context [@nZ XR ?z] => change (@nZ XR z) with (Fin (IZR z)) end; cbn [xadd xmul bind].
Ltac off X z := first
  [ replace z with (6 * X + (-3))%Z by lia | replace z with (6 * X + (-1))%Z by lia | replace z with (6 * X + 1)%Z by lia
  | replace z with (6 * X + 3)%Z by lia | replace z with (6 * X + 5)%Z by lia | replace z with (6 * X + 7)%Z by lia
  | replace z with (6 * X + 9)%Z by lia | replace z with (6 * X + 11)%Z by lia | replace z with (6 * X + 13)%Z by lia
  | replace z with (6 * X + 15)%Z by lia | replace z with (6 * X + 17)%Z by lia | replace z with (6 * X + 19)%Z by lia ].
Ltac norm2 X Y := repeat match goal with |- context [F ?z] => lazymatch z with (6 * X + _)%Z => fail | (6 * Y + _)%Z => fail | _ => first [off X z | off Y z] end end.
Ltac norm1 X := repeat match goal with |- context [F ?z] => lazymatch z with (6 * X + _)%Z => fail | _ => off X z end end.

Lemma fterms_val x y l : x <> y -> (l <= 3)%nat -> (Z.of_nat (3 * x + 3 * l) + 2 < cnt)%Z -> (Z.of_nat (3 * y + 3 * l) + 2 < cnt)%Z ->
  qterms (N:=XR) q (Z.of_nat x * 3) (Z.of_nat y * 3) (nth l [f0terms; f1terms; f2terms; f3terms] []) = Ok (Fin (gridInt F F x y l)).
Proof.
  intros Hxy Hl Hx Hy. unfold qterms. destruct l as [|[|[|[|l]]]]; [| | | |lia];
    [rewrite grid0|rewrite grid1|rewrite grid2|rewrite grid3]; unfold f0terms, f1terms, f2terms, f3terms; sums; norm2 (Z.of_nat x) (Z.of_nat y); do 2 f_equal; ring.
Qed.
Lemma fdiag_val x l : (l <= 3)%nat -> (Z.of_nat (3 * x + 3 * l) + 2 < cnt)%Z ->
  (t <- qterms (N:=XR) q (Z.of_nat x * 3) (Z.of_nat x * 3) (nth l [f0diag; f1diag; f2diag; f3diag] []) ;; Ok (@nmul XR (nZ 2) t)) = Ok (Fin (gridInt F F x x l)).
Proof.
  intros Hl Hx. unfold qterms. destruct l as [|[|[|[|l]]]]; [| | | |lia];
    [rewrite grid0|rewrite grid1|rewrite grid2|rewrite grid3]; unfold f0diag, f1diag, f2diag, f3diag; sums; norm1 (Z.of_nat x); do 2 f_equal; ring.
Qed.
Lemma f_grid_val x y p : p = y -> (Z.of_nat (3 * Nat.max x y) + 3 * Z.of_nat (if Nat.leb p 2 then 4 else if Nat.leb p 3 then 3 else 2) <= cnt)%Z ->
  f_grid (N:=XR) q (Z.of_nat x) (Z.of_nat y) = Ok (Fin (gridHalf F F x y p)).
Proof.
  intros -> Hc. unfold f_grid, gridHalf. apply (half_val _ y); [reflexivity| |intros; apply gridInt_pos; auto].
  intros l Hl. assert (L3 : (l <= 3)%nat) by (destruct (Nat.leb y 2); [|destruct (Nat.leb y 3)]; lia).
  assert (Hb : (Z.of_nat (3 * Nat.max x y) + 3 * Z.of_nat l + 2 < cnt)%Z) by lia.
  destruct (Z.eqb_spec (Z.of_nat x) (Z.of_nat y)) as [E|E].
  - assert (x = y) by lia. subst y. apply fdiag_val; lia.
  - apply fterms_val; lia.
Qed.

(** one mass against the distribution *)
Context (m : R) (Pm : 0 < m).
Lemma massPow_val p : massPow (N:=XR) (Fin m) p = Fin (powers m p).
Proof.
  unfold massPow, powers, sixth. change (@ndiv XR) with xdiv. change (@npow XR) with xpow. change (@nZ XR p) with (Fin (IZR p)). change (@nZ XR 6) with (Fin 6).
  rewrite xdiv_fin by lra. now rewrite xpow_fin.
Qed.
Ltac gsums := cbn [nth map]; unfold cterm; cbn [Z.eqb Pos.eqb]; rewrite !massPow_val; reads; cbn [Momic.sumR fold_left]; unfold radd, lift2; cbn [bind];
  change (@nadd XR) with xadd; change (@nmul XR) with xmul; repeat match goal with |- context [@nZ XR ?z] => change (@nZ XR z) with (Fin (IZR z)) end; cbn [xadd xmul bind].
Lemma gterms_val y l : (1 <= y)%nat -> (l <= 3)%nat -> (Z.of_nat (3 * (y - 1) + 3 * l) + 2 < cnt)%Z ->
  gterms (N:=XR) (Fin m) q ((Z.of_nat y - 1) * 3) (nth l [g0terms; g1terms; g2terms; g3terms] []) = Ok (Fin (gridInt (powers m) F 0 (y - 1) l)).
Proof.
  intros H1 Hl Hy. unfold gterms. destruct l as [|[|[|[|l]]]]; [| | | |lia];
    [rewrite grid0|rewrite grid1|rewrite grid2|rewrite grid3]; unfold g0terms, g1terms, g2terms, g3terms; gsums; norm1 (Z.of_nat (y - 1)); cbn [Z.of_nat Z.mul Z.add]; do 2 f_equal; ring.
Qed.
Lemma powers_pos z : 0 < powers m z. Proof. apply exp_pos. Qed.
Lemma g_grid_val y p : p = y -> (1 <= y)%nat -> (Z.of_nat (3 * (y - 1)) + 3 * Z.of_nat (if Nat.leb p 2 then 4 else if Nat.leb p 3 then 3 else 2) <= cnt)%Z ->
  g_grid (N:=XR) (Fin m) q (Z.of_nat y) = Ok (Fin (gridHalf (powers m) F 0 (y - 1) p)).
Proof.
  intros -> H1 Hc. unfold g_grid, gridHalf. apply (half_val _ y); [reflexivity| |intros; apply gridInt_pos; auto using powers_pos].
  intros l Hl. assert (L3 : (l <= 3)%nat) by (destruct (Nat.leb y 2); [|destruct (Nat.leb y 3)]; lia).
  apply gterms_val; auto; lia.
Qed.
End Q.
