(** Proofs about setState. *)
From Coq Require Import ZArith List Bool Lia.
From Verif Require Import Num Defs State SpecState.
Import ListNotations.

Section Vec.
Context {A : Type}.
Lemma upd_length (v : list A) i x : length (upd v i x) = length v.
Proof. revert i; induction v; destruct i; simpl; auto. Qed.
Lemma nth_error_upd (v : list A) i j x :
  nth_error (upd v i x) j = if Nat.eqb i j then (if Nat.ltb i (length v) then Some x else None) else nth_error v j.
Proof.
  revert i j; induction v as [|h t IH]; intros i j.
  - simpl. destruct (Nat.eqb i j) eqn:E; [|reflexivity].
    replace (Nat.ltb i 0) with false by reflexivity. destruct j; reflexivity.
  - destruct i, j; simpl; auto. rewrite IH. reflexivity.
Qed.
Lemma vget_ok (v : list A) i : (i < length v)%nat -> exists x, vget v i = Ok x /\ nth_error v i = Some x.
Proof.
  intros H. unfold vget. destruct (nth_error v i) eqn:E; eauto.
  apply nth_error_None in E; lia.
Qed.
Lemma foldM_app {B S} (f : S -> B -> res S) l1 l2 s :
  foldM f (l1 ++ l2) s = bind (foldM f l1 s) (foldM f l2).
Proof. revert s; induction l1; intros; simpl; auto. destruct (f s a); simpl; auto. Qed.
Lemma nth_error_ext (v w : list A) :
  (forall i, nth_error v i = nth_error w i) -> v = w.
Proof.
  revert w; induction v as [|x v IH]; destruct w as [|y w]; intros H; auto.
  - specialize (H 0%nat); discriminate.
  - specialize (H 0%nat); discriminate.
  - f_equal. { specialize (H 0%nat); simpl in H; congruence. }
    apply IH. intros i. apply (H (S i)).
Qed.
End Vec.

Section StateProofs.
Context {N : Num}.

Lemma isClipped_unique n (v w w' : list num) : isClipped n v w -> isClipped n v w' -> w = w'.
Proof.
  intros [L H] [L' H']. apply nth_error_ext. intros i.
  destruct (nth_error v i) eqn:E.
  - rewrite (H _ _ E), (H' _ _ E). reflexivity.
  - apply nth_error_None in E.
    assert (length w <= i)%nat by lia. assert (length w' <= i)%nat by lia.
    rewrite (proj2 (nth_error_None w i)), (proj2 (nth_error_None w' i)) by lia. reflexivity.
Qed.

Lemma isClipped_id n (v : list num) : (forall x, In x v -> nltb x (nZ 0) = false) -> isClipped n v v.
Proof.
  intros H; split; auto. intros i x E. rewrite (H x).
  - rewrite andb_false_r. auto.
  - eapply nth_error_In; eauto.
Qed.

(** the clipping loop *)
Lemma clip_prefix k (v : list num) :
  (k <= length v)%nat ->
  exists w, foldM (fun v i => x <- vget v i ;; if nltb x (nZ 0) then vset v i (nZ 0) else Ok v) (seq 0 k) v = Ok w
            /\ isClipped (Z.of_nat k) v w.
Proof.
  induction k as [|k IH]; intros H.
  - exists v. split; auto. split; auto. intros i x E.
    replace (Z.of_nat i <? Z.of_nat 0)%Z with false by (symmetry; apply Z.ltb_ge; lia). auto.
  - destruct IH as [w [E [L C]]]; [lia|].
    rewrite seq_S, foldM_app, E. cbn [bind foldM].
    destruct (vget_ok v k) as [x [_ Ex]]; [lia|].
    pose proof (C _ _ Ex) as Ew.
    replace (Z.of_nat k <? Z.of_nat k)%Z with false in Ew by (symmetry; apply Z.ltb_ge; lia). cbn in Ew.
    unfold vget at 1. cbn [plus]. rewrite Ew. cbn [bind].
    destruct (nltb x (nZ 0)) eqn:Hx.
    + unfold vset. replace (Nat.ltb k (length w)) with true by (symmetry; apply Nat.ltb_lt; lia).
      cbn [bind]. exists (upd w k (nZ 0)). split; auto. split; [rewrite upd_length; auto|].
      intros i y Ey. rewrite nth_error_upd. destruct (Nat.eqb_spec k i) as [<-|Hne].
      * replace (Nat.ltb k (length w)) with true by (symmetry; apply Nat.ltb_lt; lia).
        assert (y = x) by congruence; subst y. rewrite Hx.
        replace (Z.of_nat k <? Z.of_nat (S k))%Z with true by (symmetry; apply Z.ltb_lt; lia). auto.
      * rewrite (C _ _ Ey).
        replace (Z.of_nat i <? Z.of_nat (S k))%Z with (Z.of_nat i <? Z.of_nat k)%Z; auto.
        destruct (Z.ltb_spec (Z.of_nat i) (Z.of_nat k)), (Z.ltb_spec (Z.of_nat i) (Z.of_nat (S k))); auto; lia.
    + cbn [bind]. exists w. split; auto. split; auto.
      intros i y Ey. rewrite (C _ _ Ey). destruct (Nat.eq_dec i k) as [->|Hne].
      * assert (y = x) by congruence; subst y. rewrite Hx, !andb_false_r. auto.
      * replace (Z.of_nat i <? Z.of_nat (S k))%Z with (Z.of_nat i <? Z.of_nat k)%Z; auto.
        destruct (Z.ltb_spec (Z.of_nat i) (Z.of_nat k)), (Z.ltb_spec (Z.of_nat i) (Z.of_nat (S k))); auto; lia.
Qed.

Lemma clip_ok n (v : list num) :
  (n <= Z.of_nat (length v))%Z -> exists w, clipNeg n v = Ok w /\ isClipped n v w.
Proof.
  intros H. unfold clipNeg. destruct (clip_prefix (Z.to_nat n) v) as [w [E C]]; [lia|].
  exists w. split; auto. destruct C as [L C]. split; auto. intros i x Ex. rewrite (C _ _ Ex).
  replace (Z.of_nat i <? Z.of_nat (Z.to_nat n))%Z with (Z.of_nat i <? n)%Z; auto.
  destruct (Z.ltb_spec (Z.of_nat i) n), (Z.ltb_spec (Z.of_nat i) (Z.of_nat (Z.to_nat n))); auto; lia.
Qed.

Lemma clip_ub n (v : list num) :
  (Z.of_nat (length v) < n)%Z -> exists u, clipNeg n v = UB u.
Proof.
  intros H. unfold clipNeg. destruct (clip_prefix (length v) v) as [w [E [L C]]]; [lia|].
  replace (Z.to_nat n) with (length v + S (Z.to_nat n - length v - 1))%nat by lia.
  rewrite seq_app, foldM_app, E. cbn [bind seq foldM plus]. unfold vget at 1.
  rewrite (proj2 (nth_error_None w (length v))) by lia. cbn. eauto.
Qed.

Lemma clip_cases n (v : list num) :
  ((n <= Z.of_nat (length v))%Z /\ exists w, clipNeg n v = Ok w /\ isClipped n v w) \/
  ((Z.of_nat (length v) < n)%Z /\ exists u, clipNeg n v = UB u).
Proof.
  destruct (Z_le_gt_dec n (Z.of_nat (length v))); [left|right]; split; try lia.
  - now apply clip_ok.
  - apply clip_ub; lia.
Qed.

(** after clipping, an entry is negative exactly when one beyond n was *)
Lemma clipped_neg (HL : cmpLaws N) n (v w : list num) :
  isClipped n v w -> (existsb (fun x => nltb x (nZ 0)) w = true <-> negFrom n v).
Proof.
  intros [L C]. rewrite existsb_exists. split.
  - intros [x [Hin Hx]]. apply In_nth_error in Hin as [i Ei].
    assert (Hl : (i < length w)%nat) by (apply nth_error_Some; congruence).
    destruct (vget_ok v i) as [y [_ Ey]]; [lia|].
    pose proof (C _ _ Ey) as E. rewrite Ei in E. injection E as E.
    destruct ((Z.of_nat i <? n)%Z && nltb y (nZ 0)) eqn:B.
    + subst x. rewrite (lt_irr HL) in Hx; discriminate.
    + subst x. exists i, y. repeat split; auto.
      rewrite Hx, andb_true_r in B. apply Z.ltb_ge in B. lia.
  - intros [i [x [Ei [Hn Hx]]]]. exists x. split; auto.
    pose proof (C _ _ Ei) as E.
    replace (Z.of_nat i <? n)%Z with false in E by (symmetry; apply Z.ltb_ge; lia).
    eapply nth_error_In; eauto.
Qed.

Lemma gas_check (HL : cmpLaws N) (l : list num) :
  existsb (fun y => nltb (nZ 1) (if nltb y (nZ 0) then nZ 0 else y)) l = true <->
  exists y, In y l /\ nltb (nZ 1) y = true.
Proof.
  rewrite existsb_exists. split; intros [y [Hi Hy]]; exists y; split; auto.
  - destruct (nltb y (nZ 0)); auto.
    pose proof (lt_trans HL _ _ _ (lt_01 HL) Hy) as E. rewrite (lt_irr HL) in E; discriminate.
  - destruct (nltb y (nZ 0)) eqn:E; auto.
    pose proof (lt_trans HL _ _ _ Hy E) as E2.
    pose proof (lt_trans HL _ _ _ (lt_01 HL) E2) as E3. rewrite (lt_irr HL) in E3; discriminate.
Qed.

Lemma pah_check (l : list num) :
  existsb (fun y => orb (nltb y (nZ 0)) (nltb (nZ 1) y)) l = true <->
  exists y, In y l /\ (nltb y (nZ 0) = true \/ nltb (nZ 1) y = true).
Proof.
  rewrite existsb_exists. split; intros [y [Hi Hy]]; exists y; split; auto; now apply orb_true_iff.
Qed.

Lemma not_true_f b (Q : Prop) : (b = true <-> Q) -> b = false -> ~ Q.
Proof. intros H E q. apply H in q. congruence. Qed.

(** complete description of a call *)
Inductive described (s : state) (a : args N) : setOutcome -> Prop :=
| d_ok s' : accepts s a -> stored s a s' ->
    (st_nsoot s <= Z.of_nat (length (asoot a)))%Z -> (st_Ntar s <= Z.of_nat (length (atar a)))%Z ->
    described s a (SetOk s')
| d_throw e s' : firstFails s a e -> afterThrow s a e s' ->
    ((progress e <= 4)%nat \/ (st_nsoot s <= Z.of_nat (length (asoot a)))%Z) ->
    ((progress e <= 6)%nat \/ (st_Ntar s <= Z.of_nat (length (atar a)))%Z) ->
    described s a (SetThrow e s')
| d_ub : scalarsOk a ->
    ((Z.of_nat (length (asoot a)) < st_nsoot s)%Z \/
     ((st_nsoot s <= Z.of_nat (length (asoot a)))%Z /\ ~ negFrom (st_nsoot s) (asoot a) /\
      (Z.of_nat (length (atar a)) < st_Ntar s)%Z)) ->
    described s a SetUB.

Ltac ff k l1 :=
  match goal with |- firstFails ?s ?a _ =>
    exists (firstn k (checks s a)); eexists; exists (skipn (S k) (checks s a)); cbn [checks firstn skipn app];
    split; [reflexivity|]; split;
    [ | intros e' p'; cbn [In]; intros HIn;
        repeat (destruct HIn as [HIn|HIn]; [injection HIn as <- <-; try congruence; try assumption|]); contradiction ]
  end.

Lemma describe (HL : cmpLaws N) s a : described s a (call s a).
Proof.
  unfold call, setState.
  destruct (nleb (aT a) (nZ 0)) eqn:E1.
  { constructor; [ff 0 0; assumption| |left; cbn; lia|left; cbn; lia]. repeat split; reflexivity. }
  destruct (nleb (aP a) (nZ 0)) eqn:E2.
  { constructor; [ff 1 0; assumption| |left; cbn; lia|left; cbn; lia]. repeat split; reflexivity. }
  destruct (nleb (arho a) (nZ 0)) eqn:E3.
  { constructor; [ff 2 0; assumption| |left; cbn; lia|left; cbn; lia]. repeat split; reflexivity. }
  destruct (nleb (amu a) (nZ 0)) eqn:E4.
  { constructor; [ff 3 0; assumption| |left; cbn; lia|left; cbn; lia]. repeat split; reflexivity. }
  destruct (nleb (acMin a) (nZ 0)) eqn:E5.
  { constructor; [ff 4 0; assumption| |left; cbn; lia|left; cbn; lia]. repeat split; reflexivity. }
  match goal with |- context [clipNeg ?n ?v] => change n with (st_nsoot s) end.
  destruct (clip_cases (st_nsoot s) (asoot a)) as [[Hb [sv [Es Cs]]]|[Hb [u Es]]]; rewrite Es; cycle 1.
  { apply d_ub; [repeat split; assumption|left; assumption]. }
  pose proof (clipped_neg HL _ _ _ Cs) as Ks.
  destruct (existsb (fun x => nltb x (nZ 0)) sv) eqn:E6.
  { constructor; [ff 5 0; now apply Ks| |right; assumption|left; cbn; lia]. repeat split; reflexivity. }
  apply not_true_f in Ks; auto.
  match goal with |- context [clipNeg ?n (atar a)] => change n with (st_Ntar s) end.
  destruct (clip_cases (st_Ntar s) (atar a)) as [[Hc [tv [Et Ct]]]|[Hc [u Et]]]; rewrite Et; cycle 1.
  { apply d_ub; [repeat split; assumption|right; auto]. }
  pose proof (clipped_neg HL _ _ _ Ct) as Kt.
  destruct (existsb (fun x => nltb x (nZ 0)) tv) eqn:E7.
  { constructor; [ff 6 0; now apply Kt| |right; assumption|right; assumption].
    repeat split; try reflexivity; try apply Cs. }
  apply not_true_f in Kt; auto.
  pose proof (gas_check HL (ayGas a)) as Kg.
  destruct (existsb (fun y => nltb (nZ 1) (if nltb y (nZ 0) then nZ 0 else y)) (ayGas a)) eqn:E8.
  { constructor; [ff 7 0; now apply Kg| |right; assumption|right; assumption].
    repeat split; try reflexivity; try apply Cs; try apply Ct. }
  apply not_true_f in Kg; auto.
  match goal with |- context [negb (Nat.eqb ?x ?y)] => change y with (length (yPah s)) end.
  destruct (Nat.eqb_spec (length (ayPah a)) (length (yPah s))) as [E9|E9]; cbn [negb]; cycle 1.
  { constructor; [ff 8 0; assumption| |right; assumption|right; assumption].
    repeat split; try reflexivity; try apply Cs; try apply Ct. }
  assert (K9 : ~ length (ayPah a) <> length (yPah s)) by tauto.
  pose proof (pah_check (ayPah a)) as Kp.
  destruct (existsb (fun y => nltb y (nZ 0) || nltb (nZ 1) y) (ayPah a)) eqn:E10.
  { constructor; [ff 9 0; now apply Kp| |right; assumption|right; assumption].
    repeat split; try reflexivity; try apply Cs; try apply Ct. }
  apply not_true_f in Kp; auto.
  unfold nsum. destruct (nltb (nZ 1) (fold_left nadd (ayPah a) (nZ 0))) eqn:E11.
  { constructor; [ff 10 0; assumption| |right; assumption|right; assumption].
    repeat split; try reflexivity; try apply Cs; try apply Ct. }
  apply d_ok; auto.
  - intros e p HIn; cbn [checks In] in HIn.
    repeat (destruct HIn as [HIn|HIn]; [injection HIn as <- <-; try congruence; try assumption|]); contradiction.
  - repeat split; try reflexivity; try apply Cs; try apply Ct.
Qed.

(** C01 *)
Lemma C01_accepts (HL : cmpLaws N) s a :
  call s a <> SetUB -> ((exists s', call s a = SetOk s') <-> accepts s a) /\
  (forall s', call s a = SetOk s' -> stored s a s') /\
  ((exists s', call s a = SetOk s') \/ exists e s', call s a = SetThrow e s').
Proof.
  intros HU. destruct (describe HL s a) as [s' Ha Hs ? ?|e s' Hf Ht ? ?|]; [| |contradiction].
  - split; [split; eauto|]. split; [|left; eauto]. intros s'' E; injection E as <-; auto.
  - split; [split|split; [|right; eauto]].
    + intros [x Hx]; discriminate.
    + intros Ha. destruct Hf as [l1 [p [l2 [El [Hp _]]]]]. exfalso. apply (Ha e p); auto.
      rewrite El. apply in_or_app; right; left; auto.
    + intros s'' E; discriminate.
Qed.

Lemma C03_throw (HL : cmpLaws N) s a e s' :
  call s a = SetThrow e s' -> firstFails s a e /\ afterThrow s a e s'.
Proof. intros E. pose proof (describe HL s a) as D. rewrite E in D. inversion D; subst; auto. Qed.

Lemma C04_ub (HL : cmpLaws N) s a :
  call s a = SetUB <->
  scalarsOk a /\
  ((Z.of_nat (length (asoot a)) < st_nsoot s)%Z \/
   (~ negFrom (st_nsoot s) (asoot a) /\ (Z.of_nat (length (atar a)) < st_Ntar s)%Z)).
Proof.
  pose proof (describe HL s a) as D. split.
  - intros E. rewrite E in D. inversion D; subst. split; auto. tauto.
  - intros [[K1 [K2 [K3 [K4 K5]]]] K].
    destruct D as [s' Ha Hs B1 B2|e s' Hf Ht B1 B2|]; auto; exfalso.
    + destruct K as [K|[K K']]; lia.
    + destruct Hf as [l1 [p [l2 [El [Hp Hl]]]]].
      assert (HI : In (e, p) (checks s a)) by (rewrite El; apply in_or_app; right; left; auto).
      cbn [checks In] in HI.
      destruct HI as [HI|[HI|[HI|[HI|[HI|[HI|HI]]]]]].
      1-5: injection HI as <- <-; congruence.
      * injection HI as <- <-. cbn [progress] in *. destruct K as [K|[K K']]; [lia|contradiction].
      * assert (Hpr : (7 <= progress e)%nat).
        { repeat (destruct HI as [HI|HI]; [injection HI as <- <-; cbn; lia|]); contradiction. }
        destruct K as [K|[K K']]; lia.
Qed.

Lemma negFrom_none n (v : list num) : (forall x, In x v -> nltb x (nZ 0) = false) -> ~ negFrom n v.
Proof. intros H [i [x [E [_ Hx]]]]. apply nth_error_In in E. apply H in E. congruence. Qed.

Lemma C05_same (HL : cmpLaws N) s1 s2 a :
  nonneg (asoot a) -> nonneg (atar a) -> length (yPah s1) = length (yPah s2) ->
  (st_nsoot s1 <= Z.of_nat (length (asoot a)))%Z -> (st_nsoot s2 <= Z.of_nat (length (asoot a)))%Z ->
  (st_Ntar s1 <= Z.of_nat (length (atar a)))%Z -> (st_Ntar s2 <= Z.of_nat (length (atar a)))%Z ->
  (exists r1 r2, call s1 a = SetOk r1 /\ call s2 a = SetOk r2 /\ sameUserFields r1 r2) \/
  (exists e r1 r2, call s1 a = SetThrow e r1 /\ call s2 a = SetThrow e r2).
Proof.
  intros Hs Ht Hy B1 B2 B3 B4. unfold call, setState.
  destruct (nleb (aT a) (nZ 0)); [right; do 3 eexists; split; reflexivity|].
  destruct (nleb (aP a) (nZ 0)); [right; do 3 eexists; split; reflexivity|].
  destruct (nleb (arho a) (nZ 0)); [right; do 3 eexists; split; reflexivity|].
  destruct (nleb (amu a) (nZ 0)); [right; do 3 eexists; split; reflexivity|].
  destruct (nleb (acMin a) (nZ 0)); [right; do 3 eexists; split; reflexivity|].
  match goal with |- context [clipNeg ?n (asoot a)] => change n with (st_nsoot s1) end.
  match goal with |- context [setOutcome] => idtac | _ => idtac end.
  destruct (clip_ok _ _ B1) as [w1 [E1 C1]]. destruct (clip_ok _ _ B2) as [w2 [E2 C2]].
  rewrite (isClipped_unique _ _ _ _ C1 (isClipped_id _ _ Hs)) in E1.
  rewrite (isClipped_unique _ _ _ _ C2 (isClipped_id _ _ Hs)) in E2. clear w1 w2 C1 C2.
  destruct (clip_ok _ _ B3) as [w1 [E3 C1]]. destruct (clip_ok _ _ B4) as [w2 [E4 C2]].
  rewrite (isClipped_unique _ _ _ _ C1 (isClipped_id _ _ Ht)) in E3.
  rewrite (isClipped_unique _ _ _ _ C2 (isClipped_id _ _ Ht)) in E4.
  cbn [st_nsoot with_T with_P with_rhoGas with_muGas with_cMin with_MWGas with_nsoot st_Ntar with_sootVar
       with_Ntar with_tarVar with_yGas yPah].
  rewrite E1, E2, E3, E4, Hy.
  destruct (existsb _ (asoot a)); [right; do 3 eexists; split; reflexivity|].
  destruct (existsb _ (atar a)); [right; do 3 eexists; split; reflexivity|].
  destruct (existsb _ (ayGas a)); [right; do 3 eexists; split; reflexivity|].
  destruct (negb _); [right; do 3 eexists; split; reflexivity|].
  destruct (existsb _ (ayPah a)); [right; do 3 eexists; split; reflexivity|].
  destruct (nltb (nZ 1) (nsum (ayPah a))); [right; do 3 eexists; split; reflexivity|].
  left. do 2 eexists. split; [reflexivity|]. split; [reflexivity|]. repeat split.
Qed.

Lemma firstFails_unique s a e e' : firstFails s a e -> firstFails s a e' -> e = e'.
Proof.
  unfold firstFails. generalize (checks s a). intros L [l1 [p [l2 [E [Hp H]]]]] [l1' [p' [l2' [E' [Hp' H']]]]].
  subst L. revert l1' E' H'. induction l1 as [|x l1 IH]; intros [|y l1'] E' H'; cbn in E'; injection E'.
  - intros; subst; auto.
  - intros; subst. exfalso. apply (H' e p); auto. left; auto.
  - intros; subst. exfalso. apply (H e' p'); auto. left; auto.
  - intros E2 <-. apply (IH (fun a b h => H a b (or_intror h)) l1' E2 (fun a b h => H' a b (or_intror h))).
Qed.

Lemma throws_soot (HL : cmpLaws N) s a :
  scalarsOk a -> (st_nsoot s <= Z.of_nat (length (asoot a)))%Z -> negFrom (st_nsoot s) (asoot a) ->
  exists r, call s a = SetThrow EDomSoot r.
Proof.
  intros (K1 & K2 & K3 & K4 & K5) B Hn.
  assert (F : firstFails s a EDomSoot) by (ff 5 0; exact Hn).
  destruct (describe HL s a) as [? Ha Hs B1 B2|e r Hf Ht B1 B2|Hs K].
  - exfalso. apply (Ha EDomSoot (negFrom (st_nsoot s) (asoot a))); auto. do 5 right; left; reflexivity.
  - rewrite (firstFails_unique _ _ _ _ Hf F). eauto.
  - exfalso. destruct K as [K|[_ [K _]]]; [lia|auto].
Qed.

Lemma accept_ok (HL : cmpLaws N) s a :
  accepts s a -> (st_nsoot s <= Z.of_nat (length (asoot a)))%Z -> (st_Ntar s <= Z.of_nat (length (atar a)))%Z ->
  exists s', call s a = SetOk s' /\ stored s a s'.
Proof.
  intros Ha B1 B2.
  assert (HU : call s a <> SetUB).
  { intros E. apply C04_ub in E; auto. destruct E as [_ [E|[_ E]]]; lia. }
  destruct (C01_accepts HL s a HU) as [[_ H] [H' _]]. destruct (H Ha) as [s' E]. eauto.
Qed.

Lemma clipped_nonneg (HL : cmpLaws N) n (v w : list num) x :
  isClipped n v w -> ~ negFrom n v -> In x w -> nltb x (nZ 0) = false.
Proof.
  intros C H Hin. destruct (nltb x (nZ 0)) eqn:E; auto. exfalso. apply H.
  apply (clipped_neg HL _ _ _ C). apply existsb_exists; eauto.
Qed.

Lemma C02_pos (HL : cmpLaws N) (HO : ordLaws N) s a s' :
  call s a = SetOk s' ->
  (notNaN (aT a) -> positive (T s')) /\ (notNaN (aP a) -> positive (P s')) /\
  (notNaN (arho a) -> positive (rhoGas s')) /\ (notNaN (amu a) -> positive (muGas s')) /\
  (notNaN (acMin a) -> positive (cMin s')) /\
  (forall x, In x (sootVar s') \/ In x (tarVar s') -> notNaN x -> nleb (nZ 0) x = true) /\
  (forall y, In y (yGas s') -> notNaN y -> nleb y (nZ 1) = true) /\
  (forall y, In y (yPah s') -> notNaN y -> nleb (nZ 0) y = true /\ nleb y (nZ 1) = true) /\
  (notNaN (fold_left nadd (yPah s') (nZ 0)) -> nleb (fold_left nadd (yPah s') (nZ 0)) (nZ 1) = true).
Proof.
  intros E. pose proof (describe HL s a) as D. rewrite E in D. inversion D as [? Ha Hs B1 B2| |]; subst.
  destruct Hs as (ET & EP & Er & Em & Ec & EM & En & Cs & Et & Ct & Eg & Ey & _).
  assert (Hz : notNaN (nZ 0)) by (apply (lit_notNaN HO); lia).
  assert (Ho : notNaN (nZ 1)) by (apply (lit_notNaN HO); lia).
  assert (K : forall e p, In (e, p) (checks s a) -> ~ p) by exact Ha. clear Ha D.
  assert (PP : forall x, notNaN x -> nleb x (nZ 0) <> true -> positive x).
  { intros x Hx Hb. apply (not_le HO); auto. now apply not_true_is_false. }
  rewrite ET, EP, Er, Em, Ec, Eg, Ey. cbn [checks In] in K.
  split; [intros Hx; apply PP; auto; eapply K; left; reflexivity|].
  split; [intros Hx; apply PP; auto; eapply K; right; left; reflexivity|].
  split; [intros Hx; apply PP; auto; eapply K; do 2 right; left; reflexivity|].
  split; [intros Hx; apply PP; auto; eapply K; do 3 right; left; reflexivity|].
  split; [intros Hx; apply PP; auto; eapply K; do 4 right; left; reflexivity|].
  split.
  { intros x [Hin|Hin] Hx; apply (not_lt HO); auto.
    - refine (clipped_nonneg HL _ _ _ _ Cs _ Hin). eapply K; do 5 right; left; reflexivity.
    - refine (clipped_nonneg HL _ _ _ _ Ct _ Hin). eapply K; do 6 right; left; reflexivity. }
  split.
  { intros y Hin Hy. apply (not_lt HO); auto. apply not_true_is_false. intros Hn.
    eapply K; [do 7 right; left; reflexivity|eauto]. }
  split.
  { intros y Hin Hy.
    assert (Hn : ~ (nltb y (nZ 0) = true \/ nltb (nZ 1) y = true)).
    { intros Hn. eapply K; [do 9 right; left; reflexivity|eauto]. }
    split; apply (not_lt HO); auto; apply not_true_is_false; tauto. }
  { intros Hy. apply (not_lt HO); auto. apply not_true_is_false.
    eapply K. do 10 right; left; reflexivity. }
Qed.

End StateProofs.
