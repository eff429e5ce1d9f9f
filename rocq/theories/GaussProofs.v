(** Gauss quadrature: the Chebyshev-Wheeler recursion over real numbers. *)
From Coq Require Import ZArith List Bool Reals Lra Lia.
From Verif Require Import Num Qmom XR XRLemmas SpecValid SpecRates SpecPsd SpecSect SpecQmom RateProofs SectProofs.
Import ListNotations.
Local Open Scope R_scope.

Section Chebyshev.
Context (mo : nat -> R).
Record wrow := mkRow { r_prev : nat -> R; r_cur : nat -> R; r_a : R; r_b : R }.
Definition nxt (w : wrow) (j : nat) : R := r_cur w (S j) - r_a w * r_cur w j - r_b w * r_prev w j.
Definition stepW (i : nat) (w : wrow) : wrow :=
  mkRow (r_cur w) (nxt w) (- r_cur w (S i) / r_cur w i + nxt w (S (S i)) / nxt w (S i)) (nxt w (S i) / r_cur w i).
Fixpoint rowW (i : nat) : wrow :=
  match i with O => mkRow (fun _ => 0) mo (mo 1%nat / mo 0%nat) 0 | S i => stepW i (rowW i) end.
Definition sg i := r_cur (rowW i).
Definition sp i := r_prev (rowW i).
Definition aW i := r_a (rowW i).
Definition bW i := r_b (rowW i).
Lemma sg_S i j : sg (S i) j = sg i (S j) - aW i * sg i j - bW i * sp i j. Proof. reflexivity. Qed.
Lemma sp_S i : sp (S i) = sg i. Proof. reflexivity. Qed.
Lemma b_0 : bW 0 = 0. Proof. reflexivity. Qed.
Lemma b_S i : bW (S i) = sg (S i) (S i) / sg i i. Proof. reflexivity. Qed.
Lemma a_S i : aW (S i) = - sg i (S i) / sg i i + sg (S i) (S (S i)) / sg (S i) (S i). Proof. reflexivity. Qed.
Global Opaque rowW.

Context (n : nat) (PV : forall i, (i < n)%nat -> sg i i <> 0).
Lemma sg_low i : (i <= n)%nat -> forall j, (j < i)%nat -> sg i j = 0.
Proof.
  induction i as [i IH] using (well_founded_induction Wf_nat.lt_wf). intros Hi j Hj.
  destruct i as [|[|i]]; [lia| |].
  - replace j with 0%nat by lia. rewrite sg_S, b_0. unfold aW. change (r_a (rowW 0)) with (mo 1%nat / mo 0%nat).
    pose proof (PV 0 ltac:(lia)) as Z. change (sg 0) with mo in *. field. exact Z.
  - rewrite sg_S, sp_S. pose proof (PV (S i) ltac:(lia)) as Z1. pose proof (PV i ltac:(lia)) as Z0.
    destruct (Nat.lt_trichotomy j i) as [L|[->|L]].
    + rewrite (IH (S i)) by lia. rewrite (IH (S i) ltac:(lia) ltac:(lia) j) by lia. rewrite (IH i) by lia. ring.
    + rewrite b_S. rewrite (IH (S i) ltac:(lia) ltac:(lia) i) by lia. field. exact Z0.
    + replace j with (S i) by lia. rewrite a_S, b_S. field. split; assumption.
Qed.

(** polynomials and their coefficients *)
Fixpoint PW (i : nat) (x : R) : R * R :=   (* P_(i-1), P_i *)
  match i with O => (0, 1) | S i => let '(p, q) := PW i x in (q, (x - aW i) * q - bW i * p) end.
Definition pW i x := snd (PW i x).
Definition pP i x := fst (PW i x).
Lemma pW_S i x : pW (S i) x = (x - aW i) * pW i x - bW i * pP i x. Proof. unfold pW, pP. cbn. destruct (PW i x). reflexivity. Qed.
Lemma pP_S i x : pP (S i) x = pW i x. Proof. unfold pW, pP. cbn. destruct (PW i x). reflexivity. Qed.

Section Nodes.
Context (val : nat -> R) (vec : nat -> nat -> R) (d e : list R).
Context (HD : decomposes n d e val vec) (Ed : forall i, (i < n)%nat -> el d i = aW i).
Context (Ee : forall i, (S i < n)%nat -> el e i ^ 2 = bW (S i)) (Hn : (1 <= n)%nat).
Fixpoint cW (i : nat) : R := match i with O => 1 | S i => cW i * el e i end.
Lemma p_vec l : (l < n)%nat -> forall i, (i < n)%nat -> pW i (val l) * vec l 0 = cW i * vec l i.
Proof.
  intros Hl i. induction i as [i IH] using (well_founded_induction Wf_nat.lt_wf). intros Hi.
  destruct HD as (HE & _). destruct i as [|i]; [unfold pW; cbn; ring|].
  pose proof (HE l i Hl ltac:(lia)) as E. destruct (Nat.ltb_spec (S i) n); [|lia]. rewrite Ed in E by lia.
  rewrite pW_S. cbn [cW].
  replace (((val l - aW i) * pW i (val l) - bW i * pP i (val l)) * vec l 0)
     with ((val l - aW i) * (pW i (val l) * vec l 0) - bW i * (pP i (val l) * vec l 0)) by ring.
  rewrite IH by lia. destruct i as [|i].
  - rewrite b_0. cbn [Nat.eqb] in E. cbn [cW]. replace ((val l - aW 0) * (1 * vec l 0%nat)) with (val l * vec l 0%nat - aW 0 * vec l 0%nat) by ring. rewrite E. ring.
  - rewrite pP_S, IH by lia. cbn [Nat.eqb] in E. replace (S i - 1)%nat with i in E by lia.
    rewrite <- (Ee i) by lia. cbn [cW].
    replace ((val l - aW (S i)) * (cW i * el e i * vec l (S i))) with (cW i * el e i * (val l * vec l (S i) - aW (S i) * vec l (S i))) by ring.
    rewrite E. ring.
Qed.
Lemma p_top l : (l < n)%nat -> pW n (val l) * vec l 0 = 0.
Proof.
  intros Hl. destruct n as [|i] eqn:En; [lia|]. rewrite <- En in *. destruct HD as (HE & _).
  pose proof (HE l i Hl ltac:(lia)) as E. destruct (Nat.ltb_spec (S i) n); [lia|]. rewrite Ed in E by lia.
  rewrite En, pW_S.
  replace (((val l - aW i) * pW i (val l) - bW i * pP i (val l)) * vec l 0)
     with ((val l - aW i) * (pW i (val l) * vec l 0) - bW i * (pP i (val l) * vec l 0)) by ring.
  rewrite p_vec by lia. destruct i as [|i].
  - rewrite b_0. cbn [Nat.eqb] in E. cbn [cW]. replace ((val l - aW 0) * (1 * vec l 0%nat)) with (val l * vec l 0%nat - aW 0 * vec l 0%nat) by ring. rewrite E. ring.
  - rewrite pP_S, p_vec by lia. cbn [Nat.eqb] in E. replace (S i - 1)%nat with i in E by lia.
    rewrite <- (Ee i) by lia. cbn [cW].
    replace ((val l - aW (S i)) * (cW i * el e i * vec l (S i))) with (cW i * el e i * (val l * vec l (S i) - aW (S i) * vec l (S i))) by ring.
    rewrite E. ring.
Qed.
Definition tW (i j : nat) : R := mo 0%nat * Sum n (fun l => vec l 0 ^ 2 * pW i (val l) * val l ^ j).
Definition tP (i j : nat) : R := mo 0%nat * Sum n (fun l => vec l 0 ^ 2 * pP i (val l) * val l ^ j).
Lemma t_S i j : tW (S i) j = tW i (S j) - aW i * tW i j - bW i * tP i j.
Proof.
  unfold tW, tP. rewrite (Sum_ext n _ (fun l => vec l 0%nat ^ 2 * pW i (val l) * val l ^ S j + (- aW i * (vec l 0%nat ^ 2 * pW i (val l) * val l ^ j) + - bW i * (vec l 0%nat ^ 2 * pP i (val l) * val l ^ j)))).
  - rewrite Sum_add, Sum_add, !Sum_scal. ring.
  - intros l _. rewrite pW_S. cbn [pow]. ring.
Qed.
Lemma tP_S i : tP (S i) = tW i.
Proof. unfold tP, tW. reflexivity || (apply FunctionalExtensionality.functional_extensionality; intros j; f_equal; apply Sum_ext; intros l _; now rewrite pP_S). Qed.
Lemma sg_t j : forall i, (i <= n)%nat -> (i + j < 2 * n)%nat -> sg i j = tW i j.
Proof.
  induction j as [|j IH]; intros i Hi Hij.
  - destruct (Nat.eq_dec i n) as [->|Ni].
    + rewrite sg_low by lia. unfold tW. rewrite Sum_0; [ring|]. intros l Hl. replace (vec l 0%nat ^ 2 * pW n (val l) * val l ^ 0) with (vec l 0%nat * (pW n (val l) * vec l 0%nat)) by ring. rewrite p_top by auto. ring.
    + unfold tW. rewrite (Sum_ext n _ (fun l => cW i * (vec l 0%nat * vec l i))).
      * rewrite Sum_scal. destruct HD as (_ & HO). rewrite HO by lia. destruct i as [|i].
        -- change (sg 0) with mo. cbn. ring.
        -- rewrite sg_low by lia. cbn [Nat.eqb]. ring.
      * intros l Hl. replace (vec l 0%nat ^ 2 * pW i (val l) * val l ^ 0) with (vec l 0%nat * (pW i (val l) * vec l 0%nat)) by ring. rewrite p_vec by lia. ring.
  - destruct (Nat.eq_dec i n) as [->|Ni].
    + rewrite sg_low by lia. unfold tW. rewrite Sum_0; [ring|]. intros l Hl. replace (vec l 0%nat ^ 2 * pW n (val l) * val l ^ S j) with (vec l 0%nat * (pW n (val l) * vec l 0%nat) * val l ^ S j) by ring. rewrite p_top by auto. ring.
    + assert (E1 : sg i (S j) = sg (S i) j + aW i * sg i j + bW i * sp i j) by (rewrite sg_S; ring).
      assert (E2 : tW i (S j) = tW (S i) j + aW i * tW i j + bW i * tP i j) by (rewrite t_S; ring).
      rewrite E1, E2, (IH (S i)), (IH i) by lia. destruct i as [|i]; [rewrite b_0; ring|]. rewrite tP_S, sp_S, (IH i) by lia. reflexivity.
Qed.
(** the moments are reproduced *)
Lemma gauss_moments r : (r < 2 * n)%nat -> mo r = Sum n (fun l => vec l 0%nat ^ 2 * mo 0%nat * val l ^ r).
Proof.
  intros Hr. change (mo r) with (sg 0 r). rewrite sg_t by lia. unfold tW. rewrite <- Sum_scal. apply Sum_ext. intros l _. unfold pW. cbn. ring.
Qed.
End Nodes.
End Chebyshev.
