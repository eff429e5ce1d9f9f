(** Proofs about binomial_coefficient. *)
From Coq Require Import ZArith List Bool Reals Lra Lia.
From Coq.Floats Require Import SpecFloat.
From Verif Require Import Num Binomial XR F64 XRLemmas SpecBinomial.
Import ListNotations.
Local Open Scope Z_scope.

Fixpoint zfact (n : nat) : Z := match n with O => 1 | S m => Z.of_nat n * zfact m end.
Lemma zfact_pos n : 0 < zfact n.
Proof. induction n; cbn [zfact]; lia. Qed.

Lemma choose_gt n : forall k, (n < k)%nat -> choose n k = 0.
Proof. induction n; intros [|k] H; cbn; auto; try lia. rewrite !IHn by lia. lia. Qed.

Lemma choose_diag n : choose n n = 1.
Proof. induction n; cbn; auto. rewrite IHn, choose_gt by lia. lia. Qed.

Lemma choose_fact n : forall k, (k <= n)%nat -> choose n k * (zfact k * zfact (n - k)) = zfact n.
Proof.
  induction n; intros [|k] H; cbn [choose].
  - reflexivity.
  - lia.
  - replace (S n - 0)%nat with (S n) by lia. change (zfact 0) with 1. lia.
  - destruct (Nat.eq_dec k n) as [->|].
    + rewrite choose_diag, choose_gt by lia. replace (S n - S n)%nat with O by lia.
      cbn [zfact]. lia.
    + pose proof (IHn k ltac:(lia)) as H1. pose proof (IHn (S k) ltac:(lia)) as H2.
      replace (S n - S k)%nat with (S (n - S k)) by lia.
      replace (n - k)%nat with (S (n - S k)) in H1 by lia.
      cbn [zfact] in *. replace (Z.of_nat (S n)) with (Z.of_nat (S k) + Z.of_nat (S (n - S k))) by lia.
      set (a := Z.of_nat (S k)) in *. set (b := Z.of_nat (S (n - S k))) in *.
      transitivity (a * zfact n + b * zfact n); [|ring].
      transitivity (a * (choose n k * (zfact k * (b * zfact (n - S k)))) +
                    b * (choose n (S k) * (a * zfact k * zfact (n - S k)))); [ring|].
      rewrite H1, H2. reflexivity.
Qed.

Section Gen.
Context {N : Num}.

Lemma usub_ge r k : 0 <= r < 35 -> 0 <= k < 2 ^ 32 -> r < k -> k < 35 -> (usub r k >=? 35) = true.
Proof.
  intros. unfold usub. rewrite <- (Z_mod_plus _ 1) by lia.
  rewrite Z.mod_small; lia.
Qed.
Lemma usub_le r k : 0 <= k <= r -> r < 35 -> usub r k = r - k.
Proof. intros. unfold usub. apply Z.mod_small. lia. Qed.

Lemma binom_throw r k : 0 <= r < 2 ^ 32 -> 0 <= k < 2 ^ 32 -> ~ (k <= r <= 34) ->
  binomial_coefficient r k = Throw ERunBinomial.
Proof.
  intros Hr Hk H. unfold binomial_coefficient.
  destruct (Z.geb_spec r 35); auto. destruct (Z.geb_spec k 35); auto.
  rewrite (usub_ge r k) by lia. reflexivity.
Qed.

Lemma binom_ok r k (f : nat -> num) : (forall i, (i < 35)%nat -> nth_error factorials i = Some (f i)) ->
  (k <= r <= 34)%nat -> binomial_coefficient (Z.of_nat r) (Z.of_nat k) = Ok (ndiv (f r) (nmul (f k) (f (r - k)%nat))).
Proof.
  intros Hf H. unfold binomial_coefficient.
  rewrite (usub_le (Z.of_nat r) (Z.of_nat k)) by lia.
  destruct (Z.geb_spec (Z.of_nat r) 35); [lia|]. destruct (Z.geb_spec (Z.of_nat k) 35); [lia|].
  destruct (Z.geb_spec (Z.of_nat r - Z.of_nat k) 35); [lia|]. cbn [orb].
  unfold vgetZ.
  destruct (Z.ltb_spec (Z.of_nat r) 0); [lia|]. destruct (Z.ltb_spec (Z.of_nat k) 0); [lia|].
  destruct (Z.ltb_spec (Z.of_nat r - Z.of_nat k) 0); [lia|].
  rewrite !Nat2Z.id. replace (Z.to_nat (Z.of_nat r - Z.of_nat k)) with (r - k)%nat by lia.
  unfold vget. rewrite !Hf by lia. reflexivity.
Qed.
End Gen.

(** ** exact arithmetic *)
Lemma factorials_XR i : (i < 35)%nat -> nth_error (@factorials XR) i = Some (Fin (IZR (zfact i))).
Proof.
  intros H. do 35 (destruct i as [|i]; [reflexivity|]). lia.
Qed.

Lemma C07_exact r k : 0 <= r < 2 ^ 32 -> 0 <= k < 2 ^ 32 ->
  @binomial_coefficient XR r k =
  if (k <=? r) && (r <=? 34) then Ok (Fin (IZR (choose (Z.to_nat r) (Z.to_nat k)))) else Throw ERunBinomial.
Proof.
  intros Hr Hk. destruct (Z.leb_spec k r), (Z.leb_spec r 34); cbn [andb]; try (apply binom_throw; lia).
  rewrite <- (Z2Nat.id r) at 1 by lia. rewrite <- (Z2Nat.id k) at 1 by lia.
  rewrite (binom_ok (N:=XR) _ _ _ factorials_XR) by lia.
  change (Ok (xdiv (Fin (IZR (zfact (Z.to_nat r))))
    (Fin (IZR (zfact (Z.to_nat k)) * IZR (zfact (Z.to_nat r - Z.to_nat k))))) =
    Ok (Fin (IZR (choose (Z.to_nat r) (Z.to_nat k))))).
  pose proof (zfact_pos (Z.to_nat k)) as P1. pose proof (zfact_pos (Z.to_nat r - Z.to_nat k)) as P2.
  apply IZR_lt in P1. apply IZR_lt in P2.
  assert (P3 : (IZR (zfact (Z.to_nat k)) * IZR (zfact (Z.to_nat r - Z.to_nat k)) <> 0)%R) by (apply Rgt_not_eq; nra).
  rewrite xdiv_fin by exact P3. do 2 f_equal.
  rewrite <- (choose_fact (Z.to_nat r) (Z.to_nat k)) by lia. rewrite !mult_IZR. field. split; lra.
Qed.

(** ** binary64 *)
Definition zchoose (r k : nat) : Z := zfact r / (zfact k * zfact (r - k)).
Lemma zchoose_ok r k : (k <= r)%nat -> zchoose r k = choose r k.
Proof.
  intros H. unfold zchoose. rewrite <- (choose_fact r k H). apply Z.div_mul.
  pose proof (zfact_pos k); pose proof (zfact_pos (r - k)). nia.
Qed.

Section B64.
Context (lm : libm).

Definition check64 (exact : bool) (r k : nat) : bool :=
  match @binomial_coefficient (F64 lm) (Z.of_nat r) (Z.of_nat k) with
  | Ok (S754_finite false m e) =>
      let c := zchoose r k * 2 ^ (- e) in
      (e <=? 0) && (if exact then Zpos m =? c else Z.abs (Zpos m - c) * 2 ^ 52 <=? c)
  | _ => false
  end.

Lemma all64 (exact : bool) r k n : n = (if exact then 22%nat else 34%nat) -> (k <= r <= n)%nat -> check64 exact r k = true.
Proof.
  intros -> H.
  assert (E : forallb (fun r => forallb (check64 exact r) (seq 0 (S r))) (seq 0 (S (if exact then 22%nat else 34%nat))) = true).
  { destruct exact; vm_compute; reflexivity. }
  rewrite forallb_forall in E. specialize (E r). rewrite forallb_forall in E.
  apply E; apply in_seq; lia.
Qed.

Lemma powerRZ2_neg e : e <= 0 -> powerRZ 2 e = (/ IZR (2 ^ (- e)))%R.
Proof.
  intros H. destruct e as [|p|p]; [cbn; lra|lia|].
  cbn [powerRZ Z.opp]. f_equal. rewrite pow_IZR. f_equal. now rewrite positive_nat_Z.
Qed.

Lemma C07_b64_close r k : (k <= r <= 34)%nat ->
  exists x, @binomial_coefficient (F64 lm) (Z.of_nat r) (Z.of_nat k) = Ok x /\
    f64fin x = true /\ (Rabs (sfVal x - IZR (choose r k)) <= IZR (choose r k) / 2 ^ 52)%R.
Proof.
  intros H. pose proof (all64 false r k 34 eq_refl H) as E. unfold check64 in E.
  destruct (binomial_coefficient _ _) as [x| |]; [|discriminate|discriminate].
  destruct x as [s|s| |s m e]; try discriminate. destruct s; [discriminate|].
  apply andb_true_iff in E. destruct E as [E1 E2]. apply Z.leb_le in E1, E2.
  exists (S754_finite false m e). split; auto. split; auto.
  rewrite zchoose_ok in E2 by lia. cbn [sfVal cond_Zopp]. rewrite powerRZ2_neg by auto.
  assert (P : (0 < IZR (2 ^ (- e)))%R) by (apply IZR_lt, Z.pow_pos_nonneg; lia).
  apply IZR_le in E2. rewrite !mult_IZR, abs_IZR, minus_IZR, !mult_IZR in E2.
  set (B := IZR (2 ^ (- e))) in *. set (C := IZR (choose r k)) in *.
  replace (IZR (Zpos m) * / B - C)%R with ((IZR (Zpos m) - C * B) / B)%R by (field; lra).
  unfold Rdiv at 1. rewrite Rabs_mult, Rabs_inv, (Rabs_pos_eq B) by lra.
  replace (2 ^ 52)%R with (IZR (2 ^ 52)) by (rewrite pow_IZR; reflexivity).
  assert (Q : (0 < IZR (2 ^ 52))%R) by (apply IZR_lt; reflexivity).
  apply (Rmult_le_reg_r (B * IZR (2 ^ 52))). { apply Rmult_lt_0_compat; auto. }
  replace (Rabs (IZR (Zpos m) - C * B) * / B * (B * IZR (2 ^ 52)))%R
    with (Rabs (IZR (Zpos m) - C * B) * IZR (2 ^ 52))%R by (field; lra).
  replace (C / IZR (2 ^ 52) * (B * IZR (2 ^ 52)))%R with (C * B)%R by (field; lra). exact E2.
Qed.

Lemma C07_b64_exact r k : (k <= r <= 22)%nat ->
  exists x, @binomial_coefficient (F64 lm) (Z.of_nat r) (Z.of_nat k) = Ok x /\
    f64fin x = true /\ sfVal x = IZR (choose r k).
Proof.
  intros H. pose proof (all64 true r k 22 eq_refl H) as E. unfold check64 in E.
  destruct (binomial_coefficient _ _) as [x| |]; [|discriminate|discriminate].
  destruct x as [s|s| |s m e]; try discriminate. destruct s; [discriminate|].
  apply andb_true_iff in E. destruct E as [E1 E2]. apply Z.leb_le in E1. apply Z.eqb_eq in E2.
  exists (S754_finite false m e). split; auto. split; auto.
  rewrite zchoose_ok in E2 by lia. cbn [sfVal cond_Zopp]. rewrite powerRZ2_neg by auto.
  assert (P : (0 < IZR (2 ^ (- e)))%R) by (apply IZR_lt, Z.pow_pos_nonneg; lia).
  rewrite E2, mult_IZR. field. lra.
Qed.

Lemma C07_b64_inexact : exists r k x, (k <= r <= 34)%nat /\
  @binomial_coefficient (F64 lm) (Z.of_nat r) (Z.of_nat k) = Ok x /\ sfVal x <> IZR (choose r k).
Proof.
  assert (E : existsb (fun k => negb (check64 true 23 k)) (seq 0 24) = true) by (vm_compute; reflexivity).
  apply existsb_exists in E. destruct E as [k [Hk E]]. apply in_seq in Hk.
  destruct (C07_b64_close 23 k ltac:(lia)) as [x [Ex [Hf _]]].
  exists 23%nat, k, x. split; [lia|]. split; auto.
  pose proof (all64 false 23 k 34 eq_refl ltac:(lia)) as E3.
  unfold check64 in E, E3. rewrite Ex in E, E3.
  destruct x as [s|s| |s m e]; try discriminate. destruct s; [discriminate|].
  apply andb_true_iff in E3. destruct E3 as [E1 _]. rewrite E1 in E. cbn [andb] in E.
  apply Z.leb_le in E1. apply negb_true_iff, Z.eqb_neq in E. rewrite zchoose_ok in E by lia.
  cbn [sfVal cond_Zopp]. rewrite powerRZ2_neg by auto. intros H. apply E.
  assert (P : (0 < IZR (2 ^ (- e)))%R) by (apply IZR_lt, Z.pow_pos_nonneg; lia).
  apply eq_IZR. rewrite mult_IZR, <- H. field. lra.
Qed.

End B64.

Lemma C07_throw (N : Num) r k : 0 <= r < 2 ^ 32 -> 0 <= k < 2 ^ 32 ->
  (binomial_coefficient r k = Throw ERunBinomial <-> ~ (k <= r <= 34)) /\
  (forall u, binomial_coefficient r k <> UB u).
Proof.
  intros Hr Hk. destruct (Z_le_gt_dec k r) as [H1|H1]; [destruct (Z_le_gt_dec r 34) as [H2|H2]|].
  - assert (F : forall i, (i < 35)%nat -> nth_error factorials i = Some (nth i factorials (nZ 0))).
    { intros i Hi. apply nth_error_nth'. exact Hi. }
    assert (E : exists x, binomial_coefficient r k = Ok x).
    { rewrite <- (Z2Nat.id r) by lia. rewrite <- (Z2Nat.id k) by lia. rewrite (binom_ok _ _ _ F) by lia. eauto. }
    destruct E as [x ->]. split; [split; [discriminate|lia]|discriminate].
  - rewrite binom_throw by lia. split; [split; auto; lia|discriminate].
  - rewrite binom_throw by lia. split; [split; auto; lia|discriminate].
Qed.
