(** Proofs for C95: loops whose solver holds negative soot variables, and the mass of burning particles. *)
From Coq Require Import ZArith List Bool Reals Lra Lia.
From Verif Require Import Num Defs State Coag Nucl Growth Oxid Tar SootModel Mono Qmom Momic Calls XR XRLemmas NumLaws SpecState SpecConfig SpecChem SpecCoag SpecValid SpecRates SpecGas SpecPah SpecPsd SpecSect SpecQmom SpecStep SpecFinite SpecMarch SpecBurn
  ConfigProofs CoagProofs StateProofs StateXR ValidProofs PsdProofs PahProofs MonoProofs MonoMain MonoCases ChemAll SectProofs SectMain SectBins SectCases SectFinal FiniteMain VesselProofs StepProofs ClosureProofs MarchProofs MarchMain MarchSect.
Import ListNotations.
Local Open Scope R_scope.

(** ** setState sets negative soot variables to zero *)
Definition clip (y : list R) : list R := map (Rmax 0) y.
Lemma clip_same y : clipNeg (N:=XR) (Z.of_nat (length y)) (map Fin y) = clipNeg (N:=XR) (Z.of_nat (length y)) (map Fin (clip y)).
Proof.
  destruct (clip_ok (N:=XR) (Z.of_nat (length y)) (map Fin y)) as (w & E & L & C); [rewrite map_length; lia|].
  destruct (clip_ok (N:=XR) (Z.of_nat (length y)) (map Fin (clip y))) as (w' & E' & L' & C'); [unfold clip; rewrite !map_length; lia|].
  rewrite E, E'. f_equal. unfold clip in *. rewrite !map_length in *. apply nth_error_ext. intros i.
  destruct (nth_error y i) as [x|] eqn:EX.
  - assert (E1 : nth_error (map Fin y) i = Some (Fin x)) by (rewrite nth_error_map, EX; reflexivity).
    assert (E2 : nth_error (map Fin (map (Rmax 0) y)) i = Some (Fin (Rmax 0 x))) by (rewrite map_map, nth_error_map, EX; reflexivity).
    rewrite (C _ _ E1), (C' _ _ E2). assert (Hi : (i < length y)%nat) by (apply nth_error_Some; congruence).
    replace (Z.of_nat i <? Z.of_nat (length y))%Z with true by (symmetry; apply Z.ltb_lt; lia). cbn [andb]. change (@nltb XR) with xltb. change (@nZ XR 0) with (Fin 0).
    destruct (Rlt_dec x 0) as [N|N].
    + rewrite (xltb_true x 0) by auto. rewrite Rmax_left by lra. rewrite (xltb_false 0 0) by lra. reflexivity.
    + rewrite (xltb_false x 0) by lra. rewrite Rmax_right by lra. rewrite (xltb_false x 0) by lra. reflexivity.
  - apply nth_error_None in EX. rewrite !(proj2 (nth_error_None _ _)) by lia. reflexivity.
Qed.
Lemma set_same (s : state (N:=XR)) t p rho mu yg yp v v' n tv nt c : clipNeg (st_nsoot s) v = clipNeg (st_nsoot s) v' ->
  setState s t p rho mu yg yp v n tv nt c = setState s t p rho mu yg yp v' n tv nt c.
Proof.
  intros E. unfold setState. do 5 (match goal with |- (if ?b then _ else _) = _ => destruct b; [reflexivity|] end). cbv zeta.
  cbn [with_T with_P with_rhoGas with_muGas with_cMin with_MWGas st_nsoot]. rewrite E. reflexivity.
Qed.
Lemma setTo_clip st (m : model (N:=XR)) s g y tar : st_nsoot s = Z.of_nat (length y) -> doAction (st, m, s) (setTo g y tar) = doAction (st, m, s) (setTo g (clip y) tar).
Proof.
  intros E. unfold doAction, setTo. replace (length (clip y)) with (length y) by (unfold clip; now rewrite map_length).
  erewrite set_same; [reflexivity|]. rewrite E. apply clip_same.
Qed.
Lemma clip_nn y x : In x (clip y) -> 0 <= x.
Proof. intros H. apply in_map_iff in H. destruct H as (z & <- & _). apply Rmax_l. Qed.
Lemma clip_len y : length (clip y) = length y. Proof. apply map_length. Qed.
Lemma clip_id y : (forall x, In x y -> 0 <= x) -> clip y = y.
Proof. induction y as [|x y IH]; intros H; [reflexivity|]. cbn [clip map]. f_equal; [apply Rmax_right, H; now left|apply IH; intros; apply H; now right]. Qed.

Definition clipStep (x : step) : step := mkStep (spGas x) (clip (spSoot x)) (spTar x) (spEig x).
Section Same.
Context (p : psdMech) (k : mechs) (n nt : nat) (F : R) (c : Z) (OM : okAll k).
Let b := geometric c F n.
Lemma same_run l : forall a, inv p k n nt F c a -> (forall x, In x l -> length (spSoot x) = n /\ goodStep p k b n nt (clipStep x)) ->
  runActions a (actionsOf l) = runActions a (actionsOf (map clipStep l)).
Proof.
  induction l as [|x l IH]; intros a I H; [reflexivity|]. destruct (H x (or_introl eq_refl)) as (L & GS).
  destruct (one_step p k n nt F c OM a (clipStep x) I GS) as (a1 & E1 & I1).
  assert (E2 : foldM doAction [setTo (spGas x) (spSoot x) (spTar x); ASrc (spEig x)] a = Ok a1).
  { rewrite <- E1. destruct a as ((st & m) & s). destruct I as (_ & _ & _ & S1 & _). unfold clipStep. cbn [foldM spGas spSoot spTar spEig].
    pose proof (setTo_clip st m s (spGas x) (spSoot x) (spTar x) ltac:(congruence)) as Q. exact (f_equal (fun r => bind r _) Q). }
  unfold runActions, actionsOf in *. cbn [flat_map map]. rewrite !foldM_app. rewrite E2.
  match goal with |- _ = bind ?X _ => replace X with (Ok a1) by (symmetry; exact E1) end. cbn [bind]. apply IH; [exact I1|]. intros; apply H; now right.
Qed.
End Same.

(** ** loops *)
Section Loop.
Context (p : psdMech) (n : nat) (nu : nucleationMech) (gr : growthMech) (ox : oxidationMech) (co : coagulationMech) (ta : tarMech) (F : R) (c : Z) (m0 : model (N:=XR)).
Context (GC : goodConfig p n nu co ta F c) (E0 : constructEnum p n nu gr ox co 0 ta (Fin F) c = Ok m0).
Let k := mkMechs nu gr ox co 1.
Let b := geometric c F n.
Context (g : gas) (dt : R) (eig : nat -> eigSolver (N:=XR)) (traj src : nat -> list R).
Context (LT : forall i, length (traj i) = n) (OKS : forall i, goodStep p k b n 0 (mkStep g (clip (traj i)) [] (eig i))).
Context (CALL : forall i st m s, hasAll m k -> sm_psd m = p -> extra p k n F c st m s -> valid s g (clip (traj i)) ->
  exists st' m' s', setSourceTerms st (eig i) m s = Ok (st', m', s') /\ soots m' = map Fin (src i)).
Context (LEN : forall i, length (src i) = n) (NEXT : forall i, traj (S i) = euler dt (traj i) (src i)).
Lemma run_clipped i : exists st' m' s', runActions (None, m0, newState n 0) (actionsOf (map (fun j => mkStep g (traj j) [] (eig j)) (seq 0 (S i)))) = Ok (st', m', s') /\ soots m' = map Fin (src i).
Proof.
  destruct (start _ _ _ _ _ _ _ _ _ _ _ GC E0) as (_ & OM & _ & I0). fold k in OM, I0.
  rewrite (same_run p k n 0 F c OM _ _ I0).
  2:{ intros x Hx. apply in_map_iff in Hx. destruct Hx as (j & <- & _). split; [apply LT|apply OKS]. }
  rewrite map_map. unfold clipStep. cbn [spGas spSoot spTar spEig]. rewrite seq_S, map_app. cbn [map Nat.add].
  destruct (at_end p n nu gr ox co ta F c m0 GC E0 (map (fun j => mkStep g (clip (traj j)) [] (eig j)) (seq 0 i)) (mkStep g (clip (traj i)) [] (eig i))) as (st & m & s & A & B & C & D & E).
  { intros y Hy. apply in_app_or in Hy. destruct Hy as [Hy|[<-|[]]]; [|apply OKS]. apply in_map_iff in Hy. destruct Hy as (j & <- & _). apply OKS. }
  cbn [spGas spSoot spEig] in *. destruct (CALL i st m s A B C D) as (st' & m' & s' & E1 & E2). exists st', m', s'. split; [|exact E2]. etransitivity; [exact E|exact E1].
Qed.
Lemma clip_marches : marches m0 n g dt eig traj.
Proof. intros i. destruct (run_clipped i) as (st' & m' & s' & A & B). exists st', m', s', (src i). auto. Qed.
Lemma clip_only y : y 0%nat = traj 0%nat -> marches m0 n g dt eig y -> forall i, y i = traj i.
Proof.
  intros Y0 M. assert (H : forall i j, (j <= i)%nat -> y j = traj j); [|intros i; now apply (H i)].
  induction i as [|i IH]; intros j Hj; [now replace j with 0%nat by lia|].
  destruct (Nat.eq_dec j (S i)) as [->|Nj]; [|apply IH; lia].
  destruct (M i) as (st' & m' & s' & q & A & B & _ & D). destruct (run_clipped i) as (st1 & m1 & s1 & A1 & B1).
  replace (map (fun j => mkStep g (y j) [] (eig j)) (seq 0 (S i))) with (map (fun j => mkStep g (traj j) [] (eig j)) (seq 0 (S i))) in A.
  2:{ apply map_ext_in. intros j Hj2. apply in_seq in Hj2. rewrite IH by lia. reflexivity. }
  rewrite A1 in A. apply (f_equal (fun r => match r with Ok (_, z, _) => z | _ => m1 end)) in A. subst m'. rewrite B1 in B. apply fins_inj in B. subst q.
  rewrite D, NEXT, IH by lia. reflexivity.
Qed.
End Loop.

(** ** the mass of particles of one size *)
Section Mass.
Context (h M1 : R) (Ph : 0 < h) (PM : 0 < M1) (f : R -> R).
Context (POS : forall M, 0 < M -> f M = h * Rpower M (2 / 3)) (NEG : forall M, M <= 0 -> f M = 0).
Fixpoint masses (i : nat) : R := match i with O => M1 | S j => masses j - f (masses j) end.
Lemma cube M : 0 < M -> exists u, 0 < u /\ M = u ^ 3 /\ Rpower M (2 / 3) = u ^ 2.
Proof.
  intros H. exists (Rpower M (1 / 3)). split; [apply exp_pos|]. split.
  - rewrite <- Rpower_3 by apply exp_pos. rewrite Rpower_mult. replace (1 / 3 * 3) with 1 by field. now rewrite Rpower_1.
  - rewrite <- (Rpower_third2 M). ring.
Qed.
Lemma one_burn M : 0 < M -> - (4 / 27) * h ^ 3 <= M - f M /\ (0 < M - f M -> M - f M < M - h ^ 3).
Proof.
  intros H. rewrite (POS M H). destruct (cube M H) as (u & Pu & E & E2). rewrite E2, E. split.
  - assert (0 <= (3 * u - 2 * h) ^ 2 * (3 * u + h)) by (apply Rmult_le_pos; [apply pow2_ge_0|lra]). nra.
  - intros Q. assert (h < u). { destruct (Rlt_dec h u); auto. assert (u ^ 2 * (u - h) <= 0) by (assert (0 < u ^ 2) by (apply pow_lt; lra); nra). nra. }
    assert (h ^ 2 < u ^ 2) by nra. assert (h * h ^ 2 < h * u ^ 2) by (apply Rmult_lt_compat_l; lra). lra.
Qed.
Lemma lasting n : (forall j, (j <= n)%nat -> 0 < masses j) -> INR n * h ^ 3 <= M1 - masses n.
Proof.
  induction n as [|n IH]; intros H; [cbn [INR masses]; lra|]. rewrite S_INR. assert (0 < masses n) as P by (apply H; lia). pose proof (H (S n) (Nat.le_refl _)) as Q. cbn [masses] in *.
  destruct (one_burn _ P) as (_ & D). specialize (D Q). assert (INR n * h ^ 3 <= M1 - masses n) by (apply IH; intros; apply H; lia). lra.
Qed.
Lemma first_end n : (forall j, (j <= n)%nat -> 0 < masses j) \/ exists e, (e <= n)%nat /\ (forall j, (j < e)%nat -> 0 < masses j) /\ masses e <= 0.
Proof.
  induction n as [|n IH]; [left; intros j Hj; replace j with 0%nat by lia; exact PM|].
  destruct IH as [A|(e & L & A & B)]; [|right; exists e; repeat split; auto; lia].
  destruct (Rlt_dec 0 (masses (S n))) as [P|P].
  - left. intros j Hj. destruct (Nat.eq_dec j (S n)) as [->|]; [exact P|apply A; lia].
  - right. exists (S n). split; [lia|]. split; [intros j Hj; apply A; lia|lra].
Qed.
Lemma frozen e i : masses e <= 0 -> (e <= i)%nat -> masses i = masses e.
Proof. intros H L. induction L as [|i L IH]; [reflexivity|]. cbn [masses]. rewrite IH, NEG by auto. ring. Qed.
Lemma burnt : exists e, (forall i, (i < e)%nat -> 0 < masses i) /\ - (4 / 27) * h ^ 3 <= masses e <= 0 /\ (forall i, (e <= i)%nat -> masses i = masses e) /\ INR e * h ^ 3 < M1 + h ^ 3.
Proof.
  assert (P3 : 0 < h ^ 3) by (apply pow_lt; auto).
  destruct (archimed_cor1 (h ^ 3 / M1)) as (n & Hn & Pn); [apply Rdiv_lt_0_compat; auto|]. assert (0 < INR n) by (apply lt_0_INR; lia).
  assert (BIG : M1 < INR n * h ^ 3). { apply (Rmult_lt_reg_l (/ INR n * / M1)); [apply Rmult_lt_0_compat; now apply Rinv_0_lt_compat|]. replace (/ INR n * / M1 * M1) with (/ INR n) by (field; lra). replace (/ INR n * / M1 * (INR n * h ^ 3)) with (h ^ 3 / M1) by (field; lra). exact Hn. }
  destruct (first_end n) as [A|(e & L & A & B)].
  - pose proof (lasting n A). pose proof (A n (Nat.le_refl _)). lra.
  - exists e. split; [exact A|]. destruct e as [|e]; [cbn [masses] in B; lra|]. split; [|split].
    + split; [|exact B]. cbn [masses]. apply one_burn. apply A. lia.
    + intros i Hi. now apply frozen.
    + assert (Q : INR e * h ^ 3 <= M1 - masses e) by (apply lasting; intros; apply A; lia). pose proof (A e ltac:(lia)). rewrite S_INR. lra.
Qed.
End Mass.
