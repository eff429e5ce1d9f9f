(** The sectional model on extended reals. *)
From Coq Require Import ZArith List Bool Reals Lra Lia.
From Verif Require Import Num Defs State Coag Nucl Growth Oxid Tar SootModel Sect Calls XR XRLemmas NumLaws
  SpecChem SpecCoag SpecValid SpecRates SpecGas SpecPah SpecPsd SpecSect CoagProofs StateXR ValidProofs InterpProofs GasProofs RateProofs PsdProofs PahProofs MonoProofs.
Import ListNotations.
Local Open Scope R_scope.

(** ** sums *)
Lemma sumR_app a b : sumR (a ++ b) = sumR a + sumR b.
Proof. unfold sumR. induction a; cbn; [ring|]. rewrite IHa. ring. Qed.
Lemma Sum_S n f : Sum (S n) f = Sum n f + f n.
Proof. unfold Sum. rewrite seq_S, map_app, sumR_app. cbn. ring. Qed.
Lemma Sum_ext n f h : (forall j, (j < n)%nat -> f j = h j) -> Sum n f = Sum n h.
Proof. induction n; intros H; [reflexivity|]. rewrite !Sum_S, IHn by (intros; apply H; lia). rewrite H by lia. reflexivity. Qed.
Lemma Sum_add n f h : Sum n (fun j => f j + h j) = Sum n f + Sum n h.
Proof. induction n; [cbn; ring|]. rewrite !Sum_S, IHn. ring. Qed.
Lemma Sum_scal n c f : Sum n (fun j => c * f j) = c * Sum n f.
Proof. induction n; [cbn; ring|]. rewrite !Sum_S, IHn. ring. Qed.
Lemma Sum_scalr n c f : Sum n (fun j => f j * c) = Sum n f * c.
Proof. induction n; [cbn; ring|]. rewrite !Sum_S, IHn. ring. Qed.
Lemma Sum_opp n f : Sum n (fun j => - f j) = - Sum n f.
Proof. induction n; [cbn; ring|]. rewrite !Sum_S, IHn. ring. Qed.
Lemma Sum_0 n f : (forall j, (j < n)%nat -> f j = 0) -> Sum n f = 0.
Proof. intros H. induction n; [reflexivity|]. rewrite Sum_S, IHn, H by (auto; lia). ring. Qed.
Lemma Sum_swap n p f : Sum n (fun i => Sum p (fun j => f i j)) = Sum p (fun j => Sum n (fun i => f i j)).
Proof.
  induction n; [symmetry; apply Sum_0; reflexivity|]. rewrite Sum_S, IHn, <- Sum_add. apply Sum_ext. intros; now rewrite Sum_S.
Qed.
Lemma Sum_nneg n f : (forall j, (j < n)%nat -> 0 <= f j) -> 0 <= Sum n f.
Proof. intros H. induction n; [cbn; lra|]. rewrite Sum_S. specialize (IHn ltac:(intros; apply H; lia)). specialize (H n ltac:(lia)). lra. Qed.
(** a single term *)
Lemma Sum_one n i f : (i < n)%nat -> (forall j, (j < n)%nat -> j <> i -> f j = 0) -> Sum n f = f i.
Proof.
  intros Hi H. induction n; [lia|]. rewrite Sum_S. destruct (Nat.eq_dec i n) as [->|E].
  - rewrite Sum_0 by (intros; apply H; lia). ring.
  - rewrite IHn by (auto; lia). rewrite (H n) by lia. ring.
Qed.
Lemma Sum_at n i x : (i < n)%nat -> Sum n (fun j => if Nat.eqb j i then x else 0) = x.
Proof.
  intros Hi. rewrite (Sum_one n i); auto; [now rewrite Nat.eqb_refl|]. intros j _ E. apply Nat.eqb_neq in E. now rewrite E.
Qed.
Lemma Sum_first n f : (1 <= n)%nat -> Sum n f = f 0%nat + Sum (n - 1) (fun j => f (S j)).
Proof.
  intros H. destruct n; [lia|]. replace (S n - 1)%nat with n by lia. clear H. induction n; [cbn; ring|]. rewrite Sum_S, IHn, (Sum_S n). ring.
Qed.
(** the upper triangle, diagonal halved, is half of the square *)
Lemma Sum_tri n (h : nat -> nat -> R) : (forall i j, h i j = h j i) ->
  Sum n (fun i => sumR (map (fun j => if Nat.eqb i j then h i j * (1 / 2) else h i j) (seq i (n - i)))) = 1 / 2 * Sum n (fun i => Sum n (h i)).
Proof.
  intros Sy.
  assert (G : Sum n (fun i => sumR (map (fun j => if Nat.eqb i j then h i j * (1 / 2) else h i j) (seq i (n - i)))) =
              Sum n (fun i => Sum n (fun j => if Nat.ltb i j then h i j else if Nat.eqb i j then h i j * (1 / 2) else 0))).
  { apply Sum_ext. intros i Hi. unfold Sum. replace (seq 0 n) with (seq 0 i ++ seq i (n - i))%list.
    2: { replace n with (i + (n - i))%nat at 2 by lia. rewrite seq_app. f_equal. }
    rewrite map_app, sumR_app.
    assert (Z : forall p, (p <= i)%nat -> sumR (map (fun j => if Nat.ltb i j then h i j else if Nat.eqb i j then h i j * (1 / 2) else 0) (seq 0 p)) = 0).
    { intros p Hp. apply (Sum_0 p). intros j Hj. destruct (Nat.ltb_spec i j); [lia|]. destruct (Nat.eqb_spec i j); [lia|]. reflexivity. }
    rewrite Z by lia. rewrite Rplus_0_l. f_equal. apply map_ext_in. intros j Hj. apply in_seq in Hj.
    destruct (Nat.eqb_spec i j) as [->|E]; [now rewrite Nat.ltb_irrefl|]. destruct (Nat.ltb_spec i j); [reflexivity|lia]. }
  rewrite G. clear G.
  set (u := fun i j => if Nat.ltb i j then h i j else if Nat.eqb i j then h i j * (1 / 2) else 0).
  change (Sum n (fun i => Sum n (fun j => u i j)) = 1 / 2 * Sum n (fun i => Sum n (h i))).
  assert (E : forall i j, h i j = u i j + u j i).
  { intros i j. unfold u. destruct (Nat.ltb_spec i j), (Nat.ltb_spec j i); try lia.
    - destruct (Nat.eqb_spec j i); [lia|]. ring.
    - destruct (Nat.eqb_spec i j); [lia|]. rewrite (Sy j i). ring.
    - destruct (Nat.eqb_spec i j); [|lia]. subst. rewrite Nat.eqb_refl. field. }
  rewrite (Sum_ext n (fun i => Sum n (h i)) (fun i => Sum n (fun j => u i j) + Sum n (fun j => u j i))).
  2: { intros i _. rewrite <- Sum_add. apply Sum_ext. intros j _. apply E. }
  rewrite Sum_add. rewrite (Sum_swap n n (fun i j => u j i)). field.
Qed.

(** ** telescoping *)
Section Move.
Context (b : list R) (G : goodBins b).
Lemma bins_lt i j : (i < j)%nat -> (j < length b)%nat -> el b i < el b j.
Proof.
  destruct G as (_ & _ & I). intros H. induction H; intros L; [now apply I|]. eapply Rlt_trans; [apply IHle; lia|now apply I].
Qed.
Lemma bins_pos j : (j < length b)%nat -> 0 < el b j.
Proof. intros H. destruct G as (_ & P & _). destruct j; auto. eapply Rlt_trans; [exact P|]. apply bins_lt; lia. Qed.
Lemma bins_le j : (j < length b)%nat -> el b 0 <= el b j.
Proof. intros H. destruct j; [lra|]. apply Rlt_le, bins_lt; lia. Qed.
Lemma up_partial r p : (S p < length b)%nat ->
  Sum (S p) (fun j => el b j * moveUp b r j) = Sum p r - el b p * (r p / (el b (S p) - el b p)).
Proof.
  induction p; intros L.
  - rewrite Sum_S. unfold moveUp. cbn [Nat.eqb]. destruct (length b) as [|[|?]]; try lia. cbn [Nat.eqb]. cbn. ring.
  - rewrite Sum_S, IHp by lia. rewrite Sum_S. unfold moveUp. change (Nat.eqb (S p) 0) with false. cbv iota. replace (S p - 1)%nat with p by lia.
    destruct (Nat.eqb_spec (S (S p)) (length b)); [lia|]. pose proof (bins_lt p (S p) ltac:(lia) ltac:(lia)).
    pose proof (bins_lt (S p) (S (S p)) ltac:(lia) ltac:(lia)). field. lra.
Qed.
Lemma up_mass r : Sum (length b) (fun j => el b j * moveUp b r j) = Sum (length b) r.
Proof.
  destruct G as (L & _). remember (length b) as n eqn:En. destruct n as [|[|p]]; try lia.
  rewrite Sum_S, up_partial by lia. rewrite (Sum_S (S p)), (Sum_S p). unfold moveUp. change (Nat.eqb (S p) 0) with false. cbv iota. rewrite <- En, Nat.eqb_refl.
  replace (S p - 1)%nat with p by lia. pose proof (bins_lt p (S p) ltac:(lia) ltac:(lia)). pose proof (bins_pos (S p) ltac:(lia)). field. lra.
Qed.
Lemma up_number r : Sum (length b) (moveUp b r) = r (lastBin b) / el b (lastBin b).
Proof.
  unfold lastBin. destruct G as (L & _). remember (length b) as n eqn:En. destruct n as [|[|p]]; try lia.
  assert (P : forall q, (q <= p)%nat -> Sum (S q) (moveUp b r) = - (r q / (el b (S q) - el b q))).
  { induction q; intros Hq.
    - rewrite Sum_S. unfold moveUp. cbn [Nat.eqb]. rewrite <- En. cbn. ring.
    - rewrite Sum_S, IHq by lia. unfold moveUp. change (Nat.eqb (S q) 0) with false. cbv iota. replace (S q - 1)%nat with q by lia. rewrite <- En.
      destruct (Nat.eqb_spec (S (S q)) (S (S p))); [lia|]. ring. }
  rewrite Sum_S, P by lia. unfold moveUp. change (Nat.eqb (S p) 0) with false. cbv iota. rewrite <- En, Nat.eqb_refl. replace (S p - 1)%nat with p by lia.
  replace (S (S p) - 1)%nat with (S p) by lia. ring.
Qed.
Lemma down_mass r : Sum (length b) (fun j => el b j * moveDown b r j) = - Sum (length b) r.
Proof.
  destruct G as (L & _). remember (length b) as n eqn:En. destruct n as [|[|p]]; try lia.
  assert (P : forall q, (q <= p)%nat -> Sum (S q) (fun j => el b j * moveDown b r j) = - Sum (S q) r + el b q * (r (S q) / (el b (S q) - el b q))).
  { induction q; intros Hq.
    - rewrite !Sum_S. unfold moveDown. cbn [Nat.eqb]. rewrite <- En. cbn [Nat.eqb]. cbn.
      pose proof (bins_pos 0 ltac:(lia)). pose proof (bins_lt 0 1 ltac:(lia) ltac:(lia)). field. lra.
    - rewrite Sum_S, IHq by lia. rewrite (Sum_S (S q) r). unfold moveDown. change (Nat.eqb (S q) 0) with false. cbv iota. replace (S q - 1)%nat with q by lia. rewrite <- En.
      destruct (Nat.eqb_spec (S (S q)) (S (S p))); [lia|]. pose proof (bins_lt q (S q) ltac:(lia) ltac:(lia)).
      pose proof (bins_lt (S q) (S (S q)) ltac:(lia) ltac:(lia)). field. lra. }
  rewrite Sum_S, P by lia. rewrite (Sum_S (S p) r). unfold moveDown. change (Nat.eqb (S p) 0) with false. cbv iota. rewrite <- En, Nat.eqb_refl.
  replace (S p - 1)%nat with p by lia. pose proof (bins_lt p (S p) ltac:(lia) ltac:(lia)). field. lra.
Qed.
Lemma down_number r : Sum (length b) (moveDown b r) = - (r 0%nat / el b 0).
Proof.
  destruct G as (L & _). remember (length b) as n eqn:En. destruct n as [|[|p]]; try lia.
  assert (P : forall q, (q <= p)%nat -> Sum (S q) (moveDown b r) = - (r 0%nat / el b 0) + r (S q) / (el b (S q) - el b q)).
  { induction q; intros Hq.
    - rewrite Sum_S. unfold moveDown. cbn [Nat.eqb]. rewrite <- En. cbn. ring.
    - rewrite Sum_S, IHq by lia. unfold moveDown. change (Nat.eqb (S q) 0) with false. cbv iota. replace (S q - 1)%nat with q by lia. rewrite <- En.
      destruct (Nat.eqb_spec (S (S q)) (S (S p))); [lia|]. ring. }
  rewrite Sum_S, P by lia. unfold moveDown. change (Nat.eqb (S p) 0) with false. cbv iota. rewrite <- En, Nat.eqb_refl. replace (S p - 1)%nat with p by lia. ring.
Qed.
(** one collision product keeps its mass *)
Lemma credit_mass t m : Sum (length b) (fun j => el b j * credit b t m j) = m.
Proof.
  destruct G as (L & _). unfold credit. destruct (Nat.leb_spec (lastBin b) t) as [Ht|Ht].
  - rewrite (Sum_one _ (lastBin b)).
    + rewrite Nat.eqb_refl. field. apply Rgt_not_eq, bins_pos. unfold lastBin. lia.
    + unfold lastBin; lia.
    + intros j _ E. apply Nat.eqb_neq in E. rewrite E. ring.
  - unfold lastBin in Ht. pose proof (bins_lt t (S t) ltac:(lia) ltac:(lia)).
    rewrite (Sum_ext _ _ (fun j => (if Nat.eqb j t then el b t * shareLow b t m else 0) + (if Nat.eqb j (S t) then el b (S t) * (1 - shareLow b t m) else 0))).
    + rewrite Sum_add, !Sum_at by lia. unfold shareLow. field. lra.
    + intros j _. destruct (Nat.eqb_spec j t) as [->|E1].
      * destruct (Nat.eqb_spec t (S t)); [lia|]. ring.
      * destruct (Nat.eqb_spec j (S t)) as [->|E2]; ring.
Qed.
Lemma credit_number t m : Sum (length b) (credit b t m) = if Nat.leb (lastBin b) t then m / el b (lastBin b) else 1.
Proof.
  destruct G as (L & _). unfold credit. destruct (Nat.leb_spec (lastBin b) t) as [Ht|Ht].
  - rewrite Sum_at; [reflexivity|unfold lastBin; lia].
  - unfold lastBin in Ht. rewrite (Sum_ext _ _ (fun j => (if Nat.eqb j t then shareLow b t m else 0) + (if Nat.eqb j (S t) then 1 - shareLow b t m else 0))).
    + rewrite Sum_add, !Sum_at by lia. ring.
    + intros j _. destruct (Nat.eqb_spec j t) as [->|E1].
      * destruct (Nat.eqb_spec t (S t)); [lia|]. ring.
      * destruct (Nat.eqb_spec j (S t)) as [->|E2]; ring.
Qed.
End Move.

(** ** vectors of finite values *)
Lemma el_map {A} (f : A -> R) d l j : (j < length l)%nat -> el (map f l) j = f (nth j l d).
Proof. intros H. unfold el. rewrite (nth_indep _ 0 (f d)) by (now rewrite map_length). now rewrite map_nth. Qed.
Lemma el_seq f n j : (j < n)%nat -> el (map f (seq 0 n)) j = f j.
Proof. intros H. rewrite (el_map f 0%nat) by (now rewrite seq_length). now rewrite seq_nth. Qed.
Lemma at_fin l j : at_ (N:=XR) (map Fin l) j = Fin (el l j).
Proof. unfold at_, el. change (@nZ XR 0) with (Fin 0). exact (map_nth Fin l 0 j). Qed.
Lemma mapM_ok {A B} (f : A -> res B) (h : A -> B) l : (forall x, In x l -> f x = Ok (h x)) -> mapM f l = Ok (map h l).
Proof.
  induction l as [|a l IH]; intros H; [reflexivity|]. cbn [mapM map]. rewrite H by (now left). cbn [bind]. rewrite IH by (intros; apply H; now right). reflexivity.
Qed.
Lemma el_all l : map (el l) (seq 0 (length l)) = l.
Proof. exact (map_nth_all l 0). Qed.
Lemma readSoot_val s n : sootVar s = map Fin n -> readSoot (N:=XR) (length n) s = Ok (map Fin n).
Proof.
  intros E. unfold readSoot. rewrite E. rewrite (mapM_ok _ (fun j => Fin (el n j))).
  - f_equal. transitivity (map Fin (map (el n) (seq 0 (length n)))); [now rewrite map_map|now rewrite el_all].
  - intros j Hj. apply in_seq in Hj. unfold vget. rewrite (nth_error_nth' _ (Fin 0)) by (rewrite map_length; lia).
    f_equal. exact (map_nth Fin n 0 j).
Qed.
Lemma fold_sum {A} (h : A -> R) (f : xr -> A -> xr) l : forall a,
  (forall x b, In x l -> f (Fin b) x = Fin (b + h x)) -> fold_left f l (Fin a) = Fin (a + sumR (map h l)).
Proof.
  induction l as [|x l IH]; intros a H; cbn [fold_left map]; [f_equal; unfold sumR; cbn [fold_right]; ring|].
  rewrite H by (now left). rewrite IH by (intros; apply H; now right). f_equal. unfold sumR; cbn [fold_right]. ring.
Qed.
(** a vector given by a function of the index *)
Definition vec (n : nat) (f : nat -> R) : list xr := map (fun j => Fin (f j)) (seq 0 n).
Lemma vec_map n f : vec n f = map Fin (map f (seq 0 n)).
Proof. unfold vec. now rewrite map_map. Qed.
Lemma vec_ext n f h : (forall j, (j < n)%nat -> f j = h j) -> vec n f = vec n h.
Proof. intros H. unfold vec. apply map_ext_in. intros j Hj. apply in_seq in Hj. f_equal. apply H. lia. Qed.
Lemma vec_len n f : length (vec n f) = n.
Proof. unfold vec. now rewrite map_length, seq_length. Qed.
Lemma at_vec n f j : (j < n)%nat -> at_ (N:=XR) (vec n f) j = Fin (f j).
Proof. intros H. rewrite vec_map, at_fin, el_seq by auto. reflexivity. Qed.
Lemma upd_vec n f i x : (i < n)%nat -> upd (vec n f) i (Fin x) = vec n (fun j => if Nat.eqb j i then x else f j).
Proof.
  intros H. apply nth_ext with (d := Fin 0) (d' := Fin 0); [now rewrite StateProofs.upd_length, !vec_len|].
  intros j Hj. rewrite StateProofs.upd_length, vec_len in Hj.
  assert (E : forall l, nth_error l j = Some (nth j l (Fin 0)) \/ (length l <= j)%nat).
  { intros l. destruct (Nat.lt_ge_cases j (length l)); [left; now apply nth_error_nth'|right; auto]. }
  destruct (E (upd (vec n f) i (Fin x))) as [E1|E1]; [|rewrite StateProofs.upd_length, vec_len in E1; lia].
  destruct (E (vec n (fun j => if Nat.eqb j i then x else f j))) as [E2|E2]; [|rewrite vec_len in E2; lia].
  assert (Some (nth j (upd (vec n f) i (Fin x)) (Fin 0)) = Some (nth j (vec n (fun j => if Nat.eqb j i then x else f j)) (Fin 0))).
  { rewrite <- E1, <- E2. rewrite StateProofs.nth_error_upd. unfold vec. rewrite !nth_error_map.
    rewrite (nth_error_nth' (seq 0 n) 0%nat) by (rewrite seq_length; lia). rewrite seq_nth by auto. cbn [option_map Nat.add].
    rewrite map_length, seq_length. destruct (Nat.eqb_spec j i) as [->|E3].
    - rewrite ?Nat.eqb_refl. destruct (Nat.ltb_spec i n); [|lia]. cbn. reflexivity.
    - destruct (Nat.eqb_spec i j); [lia|]. cbn. reflexivity. }
  congruence.
Qed.
Lemma addAt_vec n f i x : (i < n)%nat -> addAt (N:=XR) (vec n f) i (Fin x) = vec n (fun j => f j + (if Nat.eqb j i then x else 0)).
Proof.
  intros H. unfold addAt. rewrite at_vec by auto. change (@nadd XR) with xadd. cbn [xadd]. rewrite upd_vec by auto.
  apply vec_ext. intros j _. destruct (Nat.eqb_spec j i) as [->|]; ring.
Qed.
Lemma subAt_vec n f i x : (i < n)%nat -> subAt (N:=XR) (vec n f) i (Fin x) = vec n (fun j => f j - (if Nat.eqb j i then x else 0)).
Proof.
  intros H. unfold subAt. rewrite at_vec by auto. change (@nsub XR) with xsub. cbn [xsub]. rewrite upd_vec by auto.
  apply vec_ext. intros j _. destruct (Nat.eqb_spec j i) as [->|]; ring.
Qed.
Lemma foldM_vec {A} (d : A -> nat -> R) (F : list xr -> A -> res (list xr)) n l : forall f,
  (forall x h, In x l -> F (vec n h) x = Ok (vec n (fun j => h j + d x j))) ->
  foldM F l (vec n f) = Ok (vec n (fun j => f j + sumR (map (fun x => d x j) l))).
Proof.
  induction l as [|x l IH]; intros f H.
  - cbn [foldM map]. f_equal. apply vec_ext. intros; unfold sumR; cbn [fold_right]; ring.
  - cbn [foldM]. rewrite H by (now left). cbn [bind]. rewrite IH by (intros; apply H; now right). f_equal. apply vec_ext.
    intros j _. cbn [map]. unfold sumR. cbn [fold_right]. ring.
Qed.
Lemma zeros_vec n : zeros (N:=XR) n = vec n (fun _ => 0).
Proof. unfold zeros, vec. change (@nZ XR 0) with (Fin 0). rewrite <- (seq_length n 0) at 1. generalize (seq 0 n). induction l as [|a l IH]; [reflexivity|]. cbn [length repeat map]. now rewrite IH. Qed.
