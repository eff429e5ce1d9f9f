(** Interpolation of moments: Newton's formula and the difference table. *)
From Coq Require Import ZArith List Bool Reals Lra Lia.
From Verif Require Import Num Defs State Coag Nucl SootModel Momic XR XRLemmas SpecChem SpecCoag SpecValid SpecRates SpecPsd SpecSect SpecQmom SpecLogn SpecMomic
  CoagProofs InterpProofs RateProofs PsdProofs SectProofs QmomRun.
Import ListNotations.
Local Open Scope R_scope.

(** ** Newton's formula *)
Lemma fdiff_ext k f h i : (forall j, f j = h j) -> fdiff k f i = fdiff k h i.
Proof. intros E. revert i. induction k as [|k IH]; intros i; cbn [fdiff]; [apply E|]. now rewrite !IH. Qed.
Lemma fdiff_shift k f i : fdiff k (fun j => f (S j) - f j) i = fdiff (S k) f i.
Proof. revert i. induction k as [|k IH]; intros i; [reflexivity|]. cbn [fdiff] in *. rewrite !IH. reflexivity. Qed.
Lemma fdiff_const k c i : fdiff (S k) (fun _ => c) i = 0.
Proof. revert i. induction k as [|k IH]; intros i; [cbn; ring|]. change (fdiff (S k) (fun _ => c) (S i) - fdiff (S k) (fun _ => c) i = 0). rewrite !IH. ring. Qed.
Lemma fdiff_scal k f c i : fdiff k (fun j => f j * c) i = fdiff k f i * c.
Proof. revert i. induction k as [|k IH]; intros i; cbn [fdiff]; [reflexivity|]. rewrite !IH. ring. Qed.
Lemma gbin_pascal r k : gbin (r + 1) (S k) = gbin r (S k) + gbin r k.
Proof.
  induction k as [|k IH]; [cbn [gbin INR]; field|].
  assert (0 < INR (S k)) by (apply lt_0_INR; lia). assert (0 < INR (S (S k))) by (apply lt_0_INR; lia).
  change (gbin (r + 1) (S (S k))) with (gbin (r + 1) (S k) * ((r + 1 - INR (S k)) / INR (S (S k)))). rewrite IH.
  change (gbin r (S (S k))) with (gbin r (S k) * ((r - INR (S k)) / INR (S (S k)))).
  change (gbin r (S k)) with (gbin r k * ((r - INR k) / INR (S k))).
  assert (E : INR (S (S k)) = INR (S k) + 1) by (rewrite (S_INR (S k)); ring). assert (E1 : INR (S k) = INR k + 1) by apply S_INR.
  rewrite E, E1 in *. field. split; lra.
Qed.
Lemma interp_step n f r : interpolate (S n) f (r + 1) = interpolate (S n) f r + interpolate n (fun j => f (S j) - f j) r.
Proof.
  unfold interpolate. rewrite !(Sum_first (S n)) by lia. replace (S n - 1)%nat with n by lia.
  rewrite (Sum_ext n (fun j => gbin (r + 1) (S j) * fdiff (S j) f 0) (fun j => gbin r (S j) * fdiff (S j) f 0 + gbin r j * fdiff j (fun q => f (S q) - f q) 0)).
  - rewrite Sum_add. change (gbin (r + 1) 0) with 1. change (gbin r 0) with 1. ring.
  - intros j _. rewrite gbin_pascal, fdiff_shift. ring.
Qed.
Lemma gbin_0 k : gbin 0 (S k) = 0.
Proof. induction k as [|k IH]; [cbn; field|]. change (gbin 0 (S k) * ((0 - INR (S k)) / INR (S (S k))) = 0). rewrite IH. ring. Qed.
(** the polynomial passes through the data *)
Lemma interp_node n f j : (j < n)%nat -> interpolate n f (INR j) = f j.
Proof.
  revert n f. induction j as [|j IH]; intros n f H.
  - unfold interpolate. rewrite (Sum_one n 0); [cbn; ring|exact H|]. intros q _ Hq. destruct q; [lia|]. change (INR 0) with 0. rewrite gbin_0. ring.
  - destruct n as [|n]; [lia|]. rewrite S_INR, interp_step, !IH by lia. ring.
Qed.
(** and is exact for quadratic data *)
Lemma interp_quadratic n a b c r : (3 <= n)%nat -> interpolate n (fun j => a + b * INR j + c * INR j ^ 2) r = a + b * r + c * r ^ 2.
Proof.
  intros H. unfold interpolate. set (f := fun j => a + b * INR j + c * INR j ^ 2).
  assert (F1 : forall k, fdiff (S (S (S k))) f 0 = 0).
  { intros k. rewrite <- fdiff_shift. rewrite (fdiff_ext _ _ (fun j => b + c + 2 * c * INR j)).
    2: { intros j. unfold f. rewrite S_INR. ring. }
    rewrite <- fdiff_shift. rewrite (fdiff_ext _ _ (fun _ => 2 * c)) by (intros j; rewrite S_INR; ring). apply fdiff_const. }
  destruct n as [|[|[|n]]]; try lia. do 3 rewrite Sum_first by lia. replace (S (S (S n)) - 1 - 1 - 1)%nat with n by lia.
  rewrite (Sum_0 n) by (intros j _; rewrite F1; ring). cbn [gbin fdiff]. unfold f. cbn [INR]. field.
Qed.
Lemma interp_scal n f c r : interpolate n (fun j => f j * c) r = interpolate n f r * c.
Proof. unfold interpolate. rewrite <- Sum_scalr. apply Sum_ext. intros. rewrite fdiff_scal. ring. Qed.
(** only the values at 0 ... n-1 matter *)
Lemma fdiff_local k f h i : (forall j, (i <= j <= i + k)%nat -> f j = h j) -> fdiff k f i = fdiff k h i.
Proof. revert i. induction k as [|k IH]; intros i H; cbn [fdiff]; [apply H; lia|]. rewrite !IH by (intros; apply H; lia). reflexivity. Qed.
Lemma interp_local n f h r : (forall j, (j < n)%nat -> f j = h j) -> interpolate n f r = interpolate n h r.
Proof. intros H. unfold interpolate. apply Sum_ext. intros k Hk. f_equal. apply fdiff_local. intros; apply H; lia. Qed.

(** ** closure *)
Lemma points_ge n r : (3 <= n)%nat -> (3 <= points n r)%nat.
Proof. unfold points. destruct (Rle_dec 0 r); lia. Qed.
Lemma moment_node M j : (3 <= length M)%nat -> allPos M -> (j < length M)%nat -> momentAt M (INR j) = el M j.
Proof.
  intros L P H. unfold momentAt, points. destruct (Rle_dec 0 (INR j)) as [_|E]; [|destruct E; apply pos_INR].
  rewrite interp_node by auto. apply exp_ln. apply P. apply nth_In. exact H.
Qed.
Lemma moment_lognormal n mu v p r : 0 < n -> (3 <= p)%nat ->
  momentAt (map (fun j => lognormalMoment n mu v (INR j)) (seq 0 p)) r = lognormalMoment n mu v r.
Proof.
  intros Hn Hp. unfold momentAt. rewrite map_length, seq_length.
  rewrite (interp_local _ _ (fun j => ln n + mu * INR j + v / 2 * INR j ^ 2)).
  - rewrite interp_quadratic by now apply points_ge. unfold lognormalMoment. rewrite <- (exp_ln n Hn) at 2. rewrite <- exp_plus. f_equal. field.
  - intros j Hj. assert (j < p)%nat by (unfold points in Hj; destruct (Rle_dec 0 r); lia).
    unfold el. rewrite (nth_indep _ 0 (lognormalMoment n mu v (INR 0))) by (rewrite map_length, seq_length; auto).
    rewrite (map_nth (fun j => lognormalMoment n mu v (INR j)) (seq 0 p) 0%nat j). rewrite seq_nth by auto. rewrite Nat.add_0_l.
    unfold lognormalMoment. rewrite ln_mult by (auto; apply exp_pos). rewrite ln_exp. field.
Qed.
Lemma momentAt_pos M r : 0 < momentAt M r. Proof. apply exp_pos. Qed.

(** ** the model's difference table and Mr *)
Lemma diffs_val (f : nat -> R) i n : diffs (N:=XR) (map (fun j => Fin (f j)) (seq i (S n))) = map (fun j => Fin (f (S j) - f j)) (seq i n).
Proof. revert i. induction n as [|n IH]; intros i; [reflexivity|]. cbn [seq map]. cbn [diffs]. f_equal. apply (IH (S i)). Qed.
Lemma diffRow_val n f : diffRow (N:=XR) n (map (fun j => Fin (f j)) (seq 0 n)) = map (fun k => Fin (fdiff k f 0)) (seq 0 n).
Proof.
  revert f. induction n as [|n IH]; intros f; [reflexivity|].
  transitivity (Fin (f 0%nat) :: diffRow (N:=XR) n (diffs (N:=XR) (map (fun j => Fin (f j)) (seq 0 (S n))))); [reflexivity|].
  rewrite diffs_val, IH. cbn [seq map]. f_equal. rewrite <- seq_shift, map_map. apply map_ext. intros k. now rewrite fdiff_shift.
Qed.
Lemma mapM_ok {A B} (f : A -> res B) (h : A -> B) l : (forall x, In x l -> f x = Ok (h x)) -> mapM f l = Ok (map h l).
Proof. induction l as [|x l IH]; intros H; [reflexivity|]. cbn [mapM map]. rewrite H by (cbn; auto). cbn [bind]. rewrite IH by (intros; apply H; cbn; auto). reflexivity. Qed.
Definition log10R (x : R) : R := ln x / ln 10.
Lemma table_val M : allPos M -> set_diffTable (N:=XR) (length M) (map Fin M) = Ok (map (fun k => Fin (fdiff k (fun j => log10R (el M j)) 0)) (seq 0 (length M))).
Proof.
  intros P. unfold set_diffTable. rewrite (mapM_ok _ (fun k => Fin (log10R (el M k)))).
  - cbn [bind]. now rewrite diffRow_val.
  - intros k Hk. apply in_seq in Hk. transitivity (bind (vget (map Fin M) k) (fun x => Ok (xlog10 x))); [reflexivity|].
    rewrite (vget_fin M k) by lia. cbn [bind]. unfold xlog10.
    assert (PM : 0 < nth k M 0) by (apply P, nth_In; lia). destruct (Rlt_dec 0 (nth k M 0)); [reflexivity|lra].
Qed.
Lemma nn_INR k : @nn XR k = Fin (INR k).
Proof. rewrite nn_val. now rewrite INR_IZR_INZ. Qed.
Lemma nth_table {A} (h : nat -> A) K k z : (k < K)%nat -> nth k (map h (seq 0 K)) z = h k.
Proof.
  intros Hk. rewrite (nth_indep _ z (h 0%nat)) by (rewrite map_length, seq_length; auto).
  rewrite (map_nth h (seq 0 K) 0%nat k). now rewrite seq_nth.
Qed.
(** the Newton sum of row 0 *)
Lemma newton_fold (d : nat -> R) r n K : (n <= K)%nat -> (1 <= n)%nat ->
  fold_left (fun '(l, coef) k => (@nadd XR l (@nmul XR coef (@nth (@num XR) k (map (fun k => Fin (d k)) (seq 0 K)) (@nZ XR 0))),
                                  @nmul XR coef (@ndiv XR (@nsub XR (Fin r) (@nn XR k)) (@nn XR (S k)))))
    (seq 1 (n - 1)) (@nth (@num XR) 0 (map (fun k => Fin (d k)) (seq 0 K)) (@nZ XR 0), Fin r)
  = (Fin (Sum n (fun k => gbin r k * d k)), Fin (gbin r n)).
Proof.
  intros HK H1. assert (NT : forall k, (k < K)%nat -> @nth (@num XR) k (map (fun k => Fin (d k)) (seq 0 K)) (@nZ XR 0) = Fin (d k)).
  { intros k Hk. exact (nth_table (fun k => Fin (d k)) K k (Fin 0) Hk). }
  induction n as [|n IH]; [lia|]. destruct n as [|n].
  - cbn [Nat.sub seq fold_left]. rewrite NT by lia. unfold Sum, sumR. cbn [seq map fold_right gbin INR]. f_equal; f_equal; field.
  - replace (S (S n) - 1)%nat with (S (S n - 1)) by lia. rewrite seq_S, fold_left_app, IH by lia. cbn [fold_left].
    replace (1 + (S n - 1))%nat with (S n) by lia. rewrite NT by lia. rewrite !nn_INR. rewrite (Sum_S (S n)).
    f_equal. change (@nmul XR) with xmul. change (@ndiv XR) with xdiv. change (@nsub XR) with xsub. cbn [xsub].
    rewrite xdiv_fin; [reflexivity|]. apply Rgt_not_eq. apply lt_0_INR. lia.
Qed.
Lemma pow10 x : @npow XR (@nZ XR 10) (Fin x) = Fin (Rpower 10 x).
Proof.
  change (@npow XR) with xpow. change (@nZ XR 10) with (Fin 10). unfold xpow. destruct (Req_EM_T x 0) as [->|].
  - now rewrite Rpower_O by lra.
  - destruct (Rlt_dec 0 10); [reflexivity|lra].
Qed.
Lemma momMr_val M r : (3 <= length M)%nat ->
  momMr (N:=XR) (length M) (map (fun k => Fin (fdiff k (fun j => log10R (el M j)) 0)) (seq 0 (length M))) (Fin r) = Fin (momentAt M r).
Proof.
  intros L. unfold momMr. assert (K : (if @nleb XR (@nZ XR 0) (Fin r) then length M else 3%nat) = points (length M) r).
  { change (@nleb XR (@nZ XR 0) (Fin r)) with (if Rle_dec 0 r then true else false). unfold points. destruct (Rle_dec 0 r); reflexivity. }
  rewrite K. rewrite (newton_fold (fun k => fdiff k (fun j => log10R (el M j)) 0)).
  - rewrite pow10. change (@nfin XR (Fin (Rpower 10 (Sum (points (length M) r) (fun k => gbin r k * fdiff k (fun j => log10R (el M j)) 0))))) with true. cbn iota.
    f_equal. unfold momentAt. fold (interpolate (points (length M) r) (fun j => log10R (el M j)) r).
    unfold log10R, Rdiv. rewrite interp_scal. unfold Rpower. f_equal. field.
    apply Rgt_not_eq. rewrite <- ln_1. apply ln_increasing; lra.
  - unfold points. destruct (Rle_dec 0 r); lia.
  - pose proof (points_ge (length M) r L). lia.
Qed.
(** whatever the table holds, Mr is finite and not negative *)
Lemma momMr_fin n d r : exists v, momMr (N:=XR) n d r = Fin v /\ 0 <= v.
Proof.
  unfold momMr. destruct (fold_left _ _ _) as (l, c). change (@npow XR (@nZ XR 10) l) with (xpow (Fin 10) l). change (@nfin XR) with xfin.
  change (@nZ XR 0) with (Fin 0). destruct l as [x| | |].
  - pose proof (pow10 x) as E. change (@npow XR (@nZ XR 10) (Fin x)) with (xpow (Fin 10) (Fin x)) in E. rewrite E. cbn [xfin]. eexists; split; [reflexivity|]. apply Rlt_le, exp_pos.
  - unfold xpow. rewrite Rabs_right by lra. destruct (Req_EM_T 10 1); [lra|]. destruct (Rlt_dec 10 1); [lra|]. cbn [xfin]. eexists; split; [reflexivity|lra].
  - unfold xpow. rewrite Rabs_right by lra. destruct (Req_EM_T 10 1); [lra|]. destruct (Rlt_dec 10 1); [lra|]. cbn [xfin]. eexists; split; [reflexivity|lra].
  - unfold xpow. destruct (Req_EM_T 10 1); [lra|]. cbn [xfin]. eexists; split; [reflexivity|lra].
Qed.
