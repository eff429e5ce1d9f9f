(** The quadrature method of moments on extended reals. *)
From Coq Require Import ZArith List Bool Reals Lra Lia.
From Verif Require Import Num Defs State Binomial Coag Nucl Growth Oxid Tar SootModel Qmom Calls XR XRLemmas NumLaws SpecBinomial BinomialProofs
  SpecChem SpecCoag SpecValid SpecRates SpecGas SpecPah SpecPsd SpecSect SpecQmom CoagProofs StateXR ValidProofs InterpProofs GasProofs RateProofs PsdProofs PahProofs MonoProofs ChemAll SectProofs SectMain.
Import ListNotations.
Local Open Scope R_scope.

(** ** nodes *)
Lemma bad_ok (x : xr) : badValue (N:=XR) x = false -> exists v, x = Fin v /\ 0 <= v.
Proof.
  unfold badValue. change (@nfin XR) with xfin. change (@nltb XR) with xltb. change (@nZ XR 0) with (Fin 0).
  destruct x as [v| | |]; cbn; try discriminate. destruct (Rlt_dec v 0); cbn; [discriminate|]. intros _. exists v. split; [reflexivity|lra].
Qed.
Lemma bads_ok (l : list xr) : existsb (badValue (N:=XR)) l = false -> exists v, l = map Fin v /\ nonneg v.
Proof.
  induction l as [|a l IH]; intros H; [exists []; split; [reflexivity|intros ? []]|]. cbn [existsb] in H. apply orb_false_iff in H. destruct H as (H1 & H2).
  destruct (bad_ok a H1) as (v & -> & P). destruct (IH H2) as (l' & -> & P'). exists (v :: l'). split; [reflexivity|]. intros y [<-|Hy]; auto.
Qed.
Lemma wheeler_len eig (m : list xr) n : let '(w, a) := wheeler (N:=XR) eig m n in length w = n /\ length a = n.
Proof.
  unfold wheeler. destruct (wheelerAB (N:=XR) m n) as [a b]. destruct (eig n a _) as [ev vec]. rewrite !map_length, seq_length. auto.
Qed.
Lemma downselect_val eig soot n : nonneg soot -> (2 <= length soot)%nat -> 0 < el soot 0 -> (1 <= n)%nat ->
  exists w a q, downselect (N:=XR) eig (map Fin soot) n = Ok (map Fin w, map Fin a) /\ (1 <= q <= n)%nat /\ length w = q /\ length a = q /\ nonneg w /\ nonneg a /\
    ((q < n)%nat -> (2 <= n)%nat /\ let '(w1, a1) := wheeler (N:=XR) eig (map Fin soot) n in badValues w1 a1 = true) /\
    ((1 < q)%nat -> wheeler (N:=XR) eig (map Fin soot) q = (map Fin w, map Fin a)) /\
    (q = 1%nat -> w = [el soot 0] /\ a = [el soot 1 / el soot 0]).
Proof.
  intros NN L P0. induction n as [|n IH]; intros Hn; [lia|]. destruct n as [|n].
  - exists [el soot 0], [el soot 1 / el soot 0], 1%nat. unfold downselect. rewrite !vget_fin by lia. cbn [bind].
    change (nth 0 soot 0) with (el soot 0). change (nth 1 soot 0) with (el soot 1). change (@ndiv XR) with xdiv. rewrite xdiv_fin by lra.
    split; [reflexivity|]. split; [lia|]. do 2 (split; [reflexivity|]).
    split; [intros y [<-|[]]; lra|]. split.
    + intros y [<-|[]]. assert (0 <= el soot 1) by (apply NN, nth_In; lia). apply Rmult_le_pos; auto. apply Rlt_le, Rinv_0_lt_compat; auto.
    + split; [lia|]. split; [lia|]. intros _. split; reflexivity.
  - change (downselect eig (map Fin soot) (S (S n))) with (let '(w, a) := wheeler (N:=XR) eig (map Fin soot) (S (S n)) in if badValues w a then downselect (N:=XR) eig (map Fin soot) (S n) else Ok (w, a)).
    pose proof (wheeler_len eig (map Fin soot) (S (S n))) as LL. destruct (wheeler (N:=XR) eig (map Fin soot) (S (S n))) as [w a] eqn:EW. destruct LL as (L1 & L2).
    destruct (badValues w a) eqn:EB.
    + destruct (IH ltac:(lia)) as (w1 & a1 & q & E & Q & A1 & A2 & A3 & A4 & A5 & A6 & A7). exists w1, a1, q. split; [exact E|]. split; [lia|].
      do 4 (split; [assumption|]). split; [intros _; split; [lia|reflexivity]|]. split; assumption.
    + unfold badValues in EB. apply orb_false_iff in EB. destruct EB as (B1 & B2).
      destruct (bads_ok _ B1) as (w1 & -> & P1). destruct (bads_ok _ B2) as (a1 & -> & P2). rewrite map_length in L1, L2.
      exists w1, a1, (S (S n)). split; [reflexivity|]. split; [lia|]. do 4 (split; [assumption|]). split; [lia|]. split; [intros _; exact EW|lia].
Qed.

Lemma upd_app {A} (l : list A) y r x i : i = length l -> upd (l ++ y :: r) i x = l ++ x :: r.
Proof. intros ->. induction l as [|a l IH]; cbn; [reflexivity|]. now rewrite IH. Qed.
Lemma assign_val w : nonneg w -> forall p, (length w <= p)%nat ->
  assignNonneg (N:=XR) (map Fin (repeat 0 p)) (map Fin w) = Ok (map Fin (w ++ repeat 0 (p - length w))).
Proof.
  intros NN p Hp. unfold assignNonneg. rewrite map_length.
  assert (G : forall n i pre, (i + n = length w)%nat -> pre = firstn i w ->
    foldM (fun v j => vset v j (if ngeb (nth j (map Fin w) (@nZ XR 0)) (nZ 0) return xr then nth j (map Fin w) (nZ 0) else nZ 0)) (seq i n) (map Fin (pre ++ repeat 0 (p - i)))
    = Ok (map Fin (w ++ repeat 0 (p - length w)))).
  { induction n as [|n IH]; intros i pre E ->.
    - cbn [seq foldM]. rewrite firstn_all2 by lia. do 3 f_equal. f_equal. lia.
    - cbn [seq foldM]. rewrite nth_fin. assert (Hy : 0 <= nth i w 0) by (apply NN, nth_In; lia).
      assert (EG : @nleb XR (nZ 0) (Fin (nth i w 0)) = true).
      { change (@nZ XR 0) with (Fin 0). change (@nleb XR) with xleb. cbn. destruct (Rle_dec 0 (nth i w 0)); [reflexivity|lra]. }
      rewrite EG. unfold vset. assert (LP : length (firstn i w) = i) by (rewrite firstn_length; lia).
      assert (LT : Nat.ltb i (length (map Fin (firstn i w ++ repeat 0 (p - i)))) = true) by (rewrite map_length, app_length, LP, repeat_length; apply Nat.ltb_lt; lia).
      rewrite LT. cbn [bind]. rewrite <- (IH (S i) (firstn (S i) w)) by (auto; lia). f_equal.
      replace (p - i)%nat with (S (p - S i)) by lia. cbn [repeat]. rewrite !map_app. cbn [map].
      rewrite upd_app by (rewrite map_length; symmetry; exact LP).
      rewrite <- map_app. assert (EF : firstn (S i) w = firstn i w ++ [nth i w 0]).
      { clear - E. revert i E. induction w as [|a w IH]; intros [|i] E; cbn [length] in E; try lia; [reflexivity|]. cbn [firstn nth app]. f_equal. apply IH. lia. }
      rewrite EF, !map_app, <- app_assoc. reflexivity. }
  specialize (G (length w) 0%nat [] ltac:(lia) eq_refl). rewrite Nat.sub_0_r in G. exact G.
Qed.

Lemma half2 p : Nat.div (2 * p) 2 = p. Proof. rewrite Nat.mul_comm. apply Nat.div_mul. lia. Qed.
Lemma nodes_val eig soot p (w0 a0 : list xr) : nonneg soot -> length soot = (2 * p)%nat -> (1 <= p)%nat -> length w0 = p -> length a0 = p ->
  exists w x, getWtsAbs (N:=XR) eig (map Fin soot) w0 a0 = Ok (map Fin w, map Fin x) /\
    length w = p /\ length x = p /\ nonneg w /\ nonneg x /\ nodesOf eig soot p w x /\
    (el soot 0 = 0 -> w = repeat 0 p /\ x = repeat 0 p) /\
    (0 < el soot 0 -> exists w1 x1 q, (1 <= q <= p)%nat /\ length w1 = q /\ length x1 = q /\ w = w1 ++ repeat 0 (p - q) /\ x = x1 ++ repeat 0 (p - q) /\
       ((q < p)%nat -> (2 <= p)%nat /\ let '(w2, a2) := wheeler (N:=XR) eig (map Fin soot) p in badValues w2 a2 = true) /\
       ((1 < q)%nat -> wheeler (N:=XR) eig (map Fin soot) q = (map Fin w1, map Fin x1)) /\
       (q = 1%nat -> w1 = [el soot 0] /\ x1 = [el soot 1 / el soot 0])).
Proof.
  intros NN L Hp Lw La. unfold nodesOf, getWtsAbs. rewrite !vget_fin by lia. cbn [bind]. change (nth 0 soot 0) with (el soot 0).
  assert (Z : forall (l : list xr), length l = p -> map (fun _ => @nZ XR 0) l = map Fin (repeat 0 p)).
  { intros l <-. clear. induction l; [reflexivity|]. cbn [map length repeat]. rewrite IHl. reflexivity. }
  rewrite !Z by (auto; rewrite map_length, repeat_length; auto).
  change (@nleb XR) with xleb. change (@nZ XR 0) with (Fin 0). unfold xleb.
  assert (P0 : 0 <= el soot 0) by (apply NN, nth_In; lia).
  assert (NR : nonneg (repeat 0 p)) by (intros y Hy; apply repeat_spec in Hy; lra).
  destruct (Rle_dec (el soot 0) 0) as [Q|Q].
  - exists (repeat 0 p), (repeat 0 p). rewrite !repeat_length. split; [reflexivity|]. do 2 (split; [reflexivity|]). do 2 (split; [assumption|]).
    split; [reflexivity|]. split; [auto|]. lra.
  - rewrite map_length, L, half2.
    destruct (downselect_val eig soot p NN ltac:(lia) ltac:(lra) Hp) as (w1 & a1 & q & E & A0 & A1 & A2 & A3 & A4 & A5 & A6 & A7).
    rewrite E. cbn [bind]. rewrite assign_val by (auto; lia). cbn [bind]. rewrite assign_val by (auto; lia). cbn [bind].
    exists (w1 ++ repeat 0 (p - length w1)), (a1 ++ repeat 0 (p - length a1)). rewrite !app_length, !repeat_length.
    assert (NR2 : forall n, nonneg (repeat 0 n)) by (intros n y Hy; apply repeat_spec in Hy; lra).
    split; [reflexivity|]. split; [lia|]. split; [lia|]. split; [intros y Hy; apply in_app_or in Hy; destruct Hy; [auto|eapply NR2; eauto]|].
    split; [intros y Hy; apply in_app_or in Hy; destruct Hy; [auto|eapply NR2; eauto]|]. split; [reflexivity|]. split; [lra|].
    intros _. exists w1, a1, q. rewrite A1, A2. split; [lia|]. split; [reflexivity|]. split; [reflexivity|]. split; [reflexivity|]. split; [reflexivity|]. auto.
Qed.
