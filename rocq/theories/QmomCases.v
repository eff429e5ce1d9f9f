(** Further statements about the quadrature method: recovery of populations, lost
    growth, agreement with the monodisperse model, a solver of order two. *)
From Coq Require Import ZArith List Bool Reals Lra Lia Permutation.
From Verif Require Import Num Defs State Binomial Coag Nucl Growth Oxid Tar SootModel Mono Qmom Calls XR XRLemmas NumLaws SpecBinomial
  SpecChem SpecCoag SpecValid SpecRates SpecGas SpecPah SpecPsd SpecSect SpecQmom CoagProofs StateXR ValidProofs InterpProofs GasProofs RateProofs PsdProofs PahProofs MonoProofs ChemAll SectProofs SectMain QmomProofs QmomRun QmomMain GaussProofs GaussMain QmomFinal.
Import ListNotations.
Local Open Scope R_scope.

(** ** two quadratures of the same moments *)
Definition rest (l : nat) (x : list R) := firstn l x ++ skipn (S l) x.
Lemma rest_in l x q : (l < length x)%nat -> (q < length x)%nat -> q <> l -> In (el x q) (rest l x).
Proof.
  intros Hl Hq Nq. unfold rest. apply in_or_app. destruct (Nat.lt_ge_cases q l).
  - left. unfold el. rewrite <- (firstn_skipn l x), app_nth1 by (rewrite firstn_length; lia). rewrite firstn_app, firstn_firstn. rewrite firstn_length. replace (Nat.min l l) with l by lia.
    apply in_or_app. left. apply nth_In. rewrite firstn_length. lia.
  - right. unfold el. rewrite <- (firstn_skipn (S l) x) at 1. rewrite app_nth2 by (rewrite firstn_length; lia). apply nth_In. rewrite firstn_length, skipn_length. lia.
Qed.
Lemma rest_split l x : (l < length x)%nat -> x = firstn l x ++ el x l :: skipn (S l) x.
Proof.
  intros H. rewrite <- (firstn_skipn l x) at 1. f_equal. clear -H. revert l H. induction x as [|a x IH]; intros [|l] H; cbn in H; try lia; [reflexivity|].
  cbn [skipn]. rewrite (IH l) by lia. reflexivity.
Qed.
Lemma rest_notin l x : (l < length x)%nat -> NoDup x -> ~ In (el x l) (rest l x).
Proof. intros H ND. rewrite (rest_split l x H) in ND. apply NoDup_remove_2 in ND. exact ND. Qed.
Lemma rest_len l x : (l < length x)%nat -> length (rest l x) = (length x - 1)%nat.
Proof. intros H. unfold rest. rewrite app_length, firstn_length, skipn_length. lia. Qed.
Lemma roots_nz rs y : ~ In y rs -> ev (roots rs) y <> 0.
Proof.
  induction rs as [|r rs IH]; intros H; [cbn; lra|]. cbn [roots fold_right]. rewrite pm_ev. fold (roots rs). rewrite Rplus_0_l. apply Rmult_integral_contrapositive. split.
  - intros E. apply H. left. lra.
  - apply IH. intros Q. apply H. now right.
Qed.
Lemma lin w x W X c N : (length c <= N)%nat -> (forall r, (r < N)%nat -> nodeMoment w x r = nodeMoment W X r) ->
  Sum (length w) (fun l => el w l * ev c (el x l)) = Sum (length W) (fun l => el W l * ev c (el X l)).
Proof.
  intros L H.
  assert (G : forall w x, Sum (length w) (fun l => el w l * ev c (el x l)) = Sum (length c) (fun i => el c i * nodeMoment w x i)).
  { clear. intros w x. unfold nodeMoment. rewrite (Sum_ext (length w) _ (fun l => Sum (length c) (fun i => el c i * (el w l * el x l ^ i)))).
    - rewrite Sum_swap. apply Sum_ext. intros i _. apply Sum_scal.
    - intros l _. rewrite ev_sum, <- Sum_scal. apply Sum_ext. intros; ring. }
  rewrite !G. apply Sum_ext. intros i Hi. rewrite H by lia. reflexivity.
Qed.
Lemma sub_nodes w x W X p : population w x -> population W X -> length w = p -> length W = p ->
  (forall r, (r < 2 * p)%nat -> nodeMoment w x r = nodeMoment W X r) -> forall y, In y x -> In y X.
Proof.
  intros (L & PW & _ & ND) (L2 & _ & _ & ND2) Lw LW H y Hy. apply (In_nth _ _ 0) in Hy. destruct Hy as (l & Hl & <-). fold (el x l).
  set (c := roots (X ++ rest l x)).
  assert (Lc : (length c <= 2 * p)%nat) by (unfold c; rewrite roots_len, app_length, rest_len; lia).
  pose proof (lin w x W X c (2 * p) Lc H) as E.
  rewrite (Sum_0 (length W)) in E.
  2: { intros j Hj. unfold c. rewrite roots_zero; [ring|]. apply in_or_app. left. apply nth_In. lia. }
  rewrite (Sum_one (length w) l) in E; [|lia|].
  2: { intros j Hj Nj. unfold c. rewrite roots_zero; [ring|]. apply in_or_app. right. apply rest_in; lia. }
  assert (0 < el w l) by (apply PW, nth_In; lia). apply Rmult_integral in E. destruct E as [E|E]; [lra|].
  destruct (in_dec Req_EM_T (el x l) X) as [|N]; [assumption|]. exfalso. apply (roots_nz (X ++ rest l x) (el x l)); [|exact E].
  intros Q. apply in_app_or in Q. destruct Q as [Q|Q]; [exact (N Q)|]. exact (rest_notin l x Hl ND Q).
Qed.
Lemma same_weight w x W X p l j : population w x -> population W X -> length w = p -> length W = p ->
  (forall r, (r < 2 * p)%nat -> nodeMoment w x r = nodeMoment W X r) -> (l < p)%nat -> (j < p)%nat -> el x l = el X j -> el w l = el W j.
Proof.
  intros HP1 HP2 Lw LW H Hl Hj EX. pose proof HP1 as (L & PW & _ & ND). pose proof HP2 as (L2 & _ & _ & ND2).
  pose proof (sub_nodes W X w x p HP2 HP1 LW Lw ltac:(intros; symmetry; now apply H)) as SB.
  set (c := roots (rest l x)).
  assert (Lc : (length c <= 2 * p)%nat) by (unfold c; rewrite roots_len, rest_len; lia).
  pose proof (lin w x W X c (2 * p) Lc H) as E.
  rewrite (Sum_one (length w) l) in E; [|lia|].
  2: { intros q Hq Nq. unfold c. rewrite roots_zero; [ring|]. apply rest_in; lia. }
  rewrite (Sum_one (length W) j) in E; [|lia|].
  2: { intros q Hq Nq. unfold c. rewrite roots_zero; [ring|]. assert (IN : In (el X q) x) by (apply SB, nth_In; lia).
       apply (In_nth _ _ 0) in IN. destruct IN as (t & Ht & Et). rewrite <- Et. fold (el x t). apply rest_in; try lia. intros ->. fold (el x l) in Et.
       apply Nq. apply (proj1 (NoDup_nth X 0) ND2); try lia. fold (el X q) (el X j). congruence. }
  rewrite <- EX in E. apply Rmult_eq_reg_r in E; [exact E|]. apply roots_nz, rest_notin; [lia|assumption].
Qed.
Lemma combine_in (w x : list R) a b : length x = length w -> In (a, b) (combine w x) <-> exists l, (l < length w)%nat /\ a = el w l /\ b = el x l.
Proof.
  intros L. split.
  - intros H. apply (In_nth _ _ (0, 0)) in H. destruct H as (l & Hl & E). rewrite combine_length, L, Nat.min_id in Hl. rewrite combine_nth in E by auto. injection E as <- <-. exists l. auto.
  - intros (l & Hl & -> & ->). unfold el. rewrite <- combine_nth by auto. apply nth_In. rewrite combine_length, L, Nat.min_id. exact Hl.
Qed.
Lemma combine_nodup (w x : list R) : NoDup x -> NoDup (combine w x).
Proof.
  revert w. induction x as [|b x IH]; intros [|a w] ND; cbn [combine]; try apply NoDup_nil. inversion ND; subst. apply NoDup_cons; [|auto]. intros Q. apply H1. exact (in_combine_r _ _ _ _ Q).
Qed.
Lemma same_nodes w x W X p : population w x -> population W X -> length w = p -> length W = p ->
  (forall r, (r < 2 * p)%nat -> nodeMoment w x r = nodeMoment W X r) -> Permutation (combine w x) (combine W X).
Proof.
  intros HP1 HP2 Lw LW H. pose proof HP1 as (L & _ & _ & ND). pose proof HP2 as (L2 & _ & _ & ND2).
  assert (ONE : forall w x W X, population w x -> population W X -> length w = p -> length W = p -> (forall r, (r < 2 * p)%nat -> nodeMoment w x r = nodeMoment W X r) ->
     forall a, In a (combine w x) -> In a (combine W X)).
  { clear. intros w x W X HP1 HP2 Lw LW H (a, b) Hab. pose proof HP1 as (L & _ & _ & ND). pose proof HP2 as (L2 & _ & _ & ND2).
    apply (combine_in w x) in Hab; [|assumption]. destruct Hab as (l & Hl & -> & ->). apply combine_in; [assumption|].
    assert (IN : In (el x l) X) by (apply (sub_nodes w x W X p); auto; apply nth_In; lia). apply (In_nth _ _ 0) in IN. destruct IN as (j & Hj & Ej). fold (el X j) in Ej.
    exists j. split; [lia|]. split; [|congruence]. apply (same_weight w x W X p); auto; lia. }
  apply NoDup_Permutation; [now apply combine_nodup|now apply combine_nodup|]. intros a. split; apply ONE; auto. intros; symmetry; now apply H.
Qed.

(** the quadrature method finds again a population of [p] sizes *)
Lemma el_moments w x n r : (r < n)%nat -> el (momentsOf w x n) r = nodeMoment w x r.
Proof. intros H. unfold momentsOf. now rewrite el_seq. Qed.
Lemma C34_pop_l m s g k W X p eig st : population W X -> (p <= length X)%nat -> readyQmom m s g k (momentsOf W X (2 * p)) p -> (mC k = C_NONE \/ (p <= 17)%nat) -> honest eig p ->
  exists m' s' w x, setSourceTerms st eig m s = Ok (st, m', s') /\ nodesAre s' w x /\ length w = p /\ population w x /\
    (forall r, (r < 2 * p)%nat -> nodeMoment w x r = nodeMoment W X r) /\ (length X = p -> Permutation (combine w x) (combine W X)).
Proof.
  intros PO Hp RD HC HH. destruct (C34_l m s g k _ p eig st RD HC HH (pop_realizable W X p PO Hp)) as (m' & s' & w & x & E & ND & Lw & PW & G).
  assert (G2 : forall r, (r < 2 * p)%nat -> nodeMoment w x r = nodeMoment W X r) by (intros; rewrite G, el_moments by auto; reflexivity).
  exists m', s', w, x. do 5 (split; [assumption|]). intros EL. apply (same_nodes w x W X p); auto. destruct PO as (L & _). congruence.
Qed.

(** ** C36 *)
Lemma allPos_iff w : forall x, length x = length w -> allPos w x = true <-> (forall i, (i < length w)%nat -> 0 < el w i /\ 0 < el x i).
Proof.
  induction w as [|a w IH]; intros [|b x] L; try discriminate L.
  - split; [intros _ i H; cbn in H; lia|reflexivity].
  - cbn [allPos]. injection L as L. specialize (IH x L). split.
    + intros H. apply andb_prop in H. destruct H as (H1 & H2). apply andb_prop in H1. destruct H1 as (A & B).
      intros [|i] Hi; [unfold el; cbn [nth]; destruct (Rlt_dec 0 a), (Rlt_dec 0 b); auto; discriminate|]. apply (proj1 IH H2). cbn in Hi. lia.
    + intros H. pose proof (H 0%nat ltac:(cbn; lia)) as (A & B). unfold el in A, B. cbn [nth] in A, B. destruct (Rlt_dec 0 a); [|lra]. destruct (Rlt_dec 0 b); [|lra].
      cbn [andb]. apply IH. intros i Hi. exact (H (S i) ltac:(cbn; lia)).
Qed.
Lemma frac_zero w x r i : length x = length w -> (i < length w)%nat -> el w i = 0 \/ el x i = 0 -> fracMoment w x r = 0.
Proof.
  intros L Hi Z. unfold fracMoment. destruct (allPos w x) eqn:E; [|reflexivity]. apply (proj1 (allPos_iff w x L)) with (i := i) in E; [|assumption]. lra.
Qed.
Lemma frac_pos w x r : length x = length w -> (forall i, (i < length w)%nat -> 0 < el w i /\ 0 < el x i) ->
  fracMoment w x r = Sum (length w) (fun i => el w i * Rpower (el x i) r).
Proof. intros L H. unfold fracMoment. apply (allPos_iff w x L) in H. now rewrite H. Qed.

Lemma r_gas m s g k soot p eig st r m' s' w x : readyQmom m s g k soot p -> setSourceTerms st eig m s = Ok (r, m', s') -> nodesAre s' w x ->
  length w = p /\ length x = p /\ nonneg w /\ nonneg x /\
  gasBudget m' k g (nucl k g (nodeHits k g w x)) (kgrow k g (el soot 0) (el soot 1) * areaCoef * fracMoment w x (1 - 1 / 3)) (koxid k g (el soot 0) (el soot 1) * areaCoef * fracMoment w x (1 - 1 / 3)).
Proof.
  intros RD E ND. destruct (r_nodes m s g k soot p eig RD) as (w1 & x1 & EN & Lw & Lx & NW & NX & _).
  assert (HC : mC k = C_NONE \/ (p <= 17)%nat).
  { pose proof RD as (HQ & HM & OM & V & L & RG). destruct (coagOn m) eqn:On.
    - right. destruct (Nat.le_gt_cases p 17); [assumption|]. exfalso.
      rewrite (q_throw m s g k soot p eig w1 x1 HQ HM OM V L RG EN Lw Lx NW NX st On) in E by lia. discriminate.
    - left. destruct OM as (_ & _ & _ & _ & OC & _). now apply (coag_off_k m). }
  destruct (r_same m s g k soot p eig st RD HC w1 x1 r m' s' EN Lw Lx NW NX E w x ND) as (-> & ->).
  destruct (r_call m s g k soot p eig st RD HC w1 x1 EN Lw Lx NW NX) as (m2 & s2 & E2 & _ & _ & G2 & _). rewrite E in E2. injection E2 as _ -> _. auto.
Qed.
Lemma C36_zero_l m s g k soot p eig st r m' s' w x i : readyQmom m s g k soot p -> setSourceTerms st eig m s = Ok (r, m', s') -> nodesAre s' w x ->
  (i < p)%nat -> el w i = 0 \/ el x i = 0 ->
  let o := nucl k g (nodeHits k g w x) in
  soots m' = map (fun r => Fin (oJ o * nucMass (oGas o) ^ r + condense k g w x o r + smoluchowski k g w x r)) (seq 0 (2 * p)) /\
  gasBudget m' k g o 0 0.
Proof.
  intros RD E ND Hi Z o. destruct (r_gas m s g k soot p eig st r m' s' w x RD E ND) as (Lw & Lx & NW & NX & G).
  destruct (C35_l m s g k soot p eig st r m' s' w x RD E ND) as (_ & S1). assert (LL : length x = length w) by congruence.
  assert (F : forall r, fracMoment w x r = 0) by (intros; apply (frac_zero w x _ i); auto; lia). split.
  - rewrite S1. apply map_ext. intros q. fold o. unfold qmomSource. rewrite F. f_equal. ring.
  - rewrite F, !Rmult_0_r in G. exact G.
Qed.
Lemma C36_pos_l m s g k soot p eig st r m' s' w x : readyQmom m s g k soot p -> setSourceTerms st eig m s = Ok (r, m', s') -> nodesAre s' w x ->
  (forall i, (i < p)%nat -> 0 < el w i /\ 0 < el x i) ->
  let o := nucl k g (nodeHits k g w x) in
  let kk := kgrow k g (el soot 0) (el soot 1) - koxid k g (el soot 0) (el soot 1) in
  soots m' = map (fun r => Fin (oJ o * nucMass (oGas o) ^ r + condense k g w x o r
     + kk * areaCoef * INR r * Sum p (fun i => el w i * Rpower (el x i) (INR r - 1 / 3)) + smoluchowski k g w x r)) (seq 0 (2 * p)) /\
  gasBudget m' k g o (kgrow k g (el soot 0) (el soot 1) * areaCoef * Sum p (fun i => el w i * Rpower (el x i) (1 - 1 / 3))) (koxid k g (el soot 0) (el soot 1) * areaCoef * Sum p (fun i => el w i * Rpower (el x i) (1 - 1 / 3))).
Proof.
  intros RD E ND P o kk. destruct (r_gas m s g k soot p eig st r m' s' w x RD E ND) as (Lw & Lx & NW & NX & G).
  destruct (C35_l m s g k soot p eig st r m' s' w x RD E ND) as (_ & S1). assert (LL : length x = length w) by congruence.
  assert (F : forall r, fracMoment w x r = Sum p (fun i => el w i * Rpower (el x i) r)) by (intros; rewrite frac_pos; rewrite ?Lw; auto). split.
  - rewrite S1. apply map_ext. intros q. fold o. unfold qmomSource. rewrite F. reflexivity.
  - rewrite F in G. exact G.
Qed.

(** monodisperse soot *)
Lemma mono_NaN eig N mm n p : 0 < N -> 0 < mm -> (2 <= n <= p)%nat -> noticesNaN eig ->
  In NaN (snd (wheeler (N:=XR) eig (map Fin (momentsOf [N] [mm] (2 * p))) n)).
Proof.
  intros PN Pm Hn HN. unfold wheeler.
  assert (EM : forall j, (j < 2 * p)%nat -> @nth (@num XR) j (map Fin (momentsOf [N] [mm] (2 * p))) (@nZ XR 0) = Fin (N * mm ^ j)).
  { intros j Hj. rewrite nth_fin. fold (el (momentsOf [N] [mm] (2 * p)) j). rewrite el_moments by auto. f_equal.
    unfold nodeMoment. cbn [length]. rewrite Sum_S. unfold Sum, sumR, el. cbn [seq map fold_right nth]. ring. }
  assert (IN : In NaN (fst (wheelerAB (N:=XR) (map Fin (momentsOf [N] [mm] (2 * p))) n))).
  { unfold wheelerAB. cbv zeta. cbn [fst]. right. replace (n - 1)%nat with (S (n - 2)) by lia. cbn [wheelerRec map fst]. left.
    cbn [Nat.sub]. rewrite !EM by lia. assert (NZ : N * mm ^ 0 <> 0) by (cbn; lra).
    change (@ndiv XR) with xdiv. rewrite !(xdiv_fin _ (N * mm ^ 0)) by exact NZ. change (@nZ XR 0) with (Fin 0).
    change (@nopp XR (Fin (N * mm ^ 1))) with (Fin (- (N * mm ^ 1))). rewrite !(xdiv_fin _ (N * mm ^ 0)) by exact NZ. fin.
    assert (Z1 : N * mm ^ 2 - N * mm ^ 1 / (N * mm ^ 0) * (N * mm ^ 1) - 0 * 0 = 0) by (cbn [pow]; field; lra).
    assert (Z2 : N * mm ^ 3 - N * mm ^ 1 / (N * mm ^ 0) * (N * mm ^ 2) - 0 * 0 = 0) by (cbn [pow]; field; lra).
    rewrite Z1, Z2. unfold xdiv. destruct (Req_EM_T 0 0); [|lra]. unfold signed. destruct (Rlt_dec 0 0); [lra|]. reflexivity. }
  destruct (wheelerAB (N:=XR) (map Fin (momentsOf [N] [mm] (2 * p))) n) as [a b]. cbn [fst] in IN.
  destruct (HN n a (map (fun x => @nopp XR (@nsqrt XR (@nabs XR x))) b) ltac:(lia) IN) as (l & Hl & El).
  match goal with |- context [eig n a ?q] => change q with (map (fun x => @nopp XR (@nsqrt XR (@nabs XR x))) b) end.
  destruct (eig n a (map (fun x => @nopp XR (@nsqrt XR (@nabs XR x))) b)) as [ev0 ec]. cbn [snd fst] in *. rewrite <- El. apply in_map. apply in_seq. lia.
Qed.
Lemma C36_mono_l m s g k N mm p eig st : 0 < N -> 0 < mm -> (2 <= p)%nat -> readyQmom m s g k (momentsOf [N] [mm] (2 * p)) p ->
  (mC k = C_NONE \/ (p <= 17)%nat) -> noticesNaN eig ->
  exists m' s', setSourceTerms st eig m s = Ok (st, m', s') /\ nodesAre s' (N :: repeat 0 (p - 1)) (mm :: repeat 0 (p - 1)).
Proof.
  intros PN Pm Hp RD HC HN. set (soot := momentsOf [N] [mm] (2 * p)) in *.
  destruct (r_nodes m s g k soot p eig RD) as (w & x & EN & Lw & Lx & NW & NX & _ & _ & K).
  assert (E0 : el soot 0 = N). { unfold soot. rewrite el_moments by lia. unfold nodeMoment. cbn [length]. rewrite Sum_S. unfold Sum, sumR, el. cbn [seq map fold_right nth]. ring. }
  assert (E1 : el soot 1 = N * mm). { unfold soot. rewrite el_moments by lia. unfold nodeMoment. cbn [length]. rewrite Sum_S. unfold Sum, sumR, el. cbn [seq map fold_right nth]. ring. }
  rewrite E0, E1 in K. destruct (K PN) as (w1 & x1 & q & Hq & L1 & L2 & Ew & Ex & _ & K1 & K2).
  assert (EQ1 : q = 1%nat).
  { destruct (Nat.eq_dec q 1) as [|N1]; [assumption|]. exfalso. pose proof (mono_NaN eig N mm q p PN Pm ltac:(lia) HN) as IN. fold soot in IN.
    rewrite (K1 ltac:(lia)) in IN. cbn [snd] in IN. apply in_map_iff in IN. destruct IN as (y & Q & _). discriminate. }
  destruct (K2 EQ1) as (A & B). rewrite EQ1 in Ew, Ex. rewrite A in Ew. rewrite B in Ex. replace (N * mm / N) with mm in Ex by (field; lra). cbn [app] in Ew, Ex.
  destruct (r_call m s g k soot p eig st RD HC w x EN Lw Lx NW NX) as (m' & s' & E & ND & _). rewrite <- Ew, <- Ex. exists m', s'. auto.
Qed.

(** ** C37 *)
Lemma mono_exact (m : model (N:=XR)) s g k M0 M1 st eig :
  sm_psd m = P_MONO -> hasAll m k -> okAll k -> noTar m -> valid s g [M0; M1] -> regular k g M0 M1 -> 0 < M0 ->
  length (wts s) = 1%nat -> length (absc s) = 1%nat ->
  let i := M0 * kernel k g (dimerMass g) (M1 / M0) in
  let o := nucl k g i in
  setSourceTerms st eig m s = Ok (st, finish (outM k g m i []) (monoSources k g o M0 M1 M0 (M1 / M0)) (Fin (oN1 o))
    (Fin (kgrow k g M0 M1 * surface M0 M1)) (Fin (- (koxid k g M0 M1 * surface M0 M1))), outS k g (with_wa s [Fin M0] [Fin (M1 / M0)])).
Proof.
  intros Hp HM OM HT V RG P0 Lw La i o. set (s' := outS k g (with_wa s [Fin M0] [Fin (M1 / M0)])).
  pose proof OM as (_ & _ & OG & OO & OC & OF).
  set (w' := M0). set (x' := M1 / M0).
  assert (Hi : 0 <= i). { unfold i. apply Rmult_le_pos; [lra|]. eapply kernel_nneg; eauto. }
  set (m2 := outM k g m i []). set (s1 := with_wa s [Fin w'] [Fin x']) in *.
  assert (V' : valid s1 g [M0; M1]) by exact V.
  assert (EC : sm_coag m = with_f (mC k) (mF k)) by (destruct HM as (_ & _ & _ & E); exact E).
  assert (EJ : runNucl (collSum (sm_coag m)) m s1 = Ok (Fin (oJ o), m2, s')).
  { apply (runNucl_all _ m s1 g [M0; M1] k i []); auto. intros E. rewrite EC.
    assert (Vc := outS_valid k s1 g _ i V'). unfold outS, nucl in Vc. rewrite E in Vc. cbn [oGas] in Vc.
    pose proof (collSum_one _ _ _ k (dimerMass g) w' x' Vc OC OF eq_refl eq_refl) as CS. rewrite Rabs_pos_eq in CS by (unfold w'; lra). exact CS. }
  destruct (outM_rest k g m i []) as (R1 & _ & _ & _ & _ & R6 & _ & R8). fold m2 in R1, R6, R8.
  pose proof (outM_GOC k g m i [] (proj2 HM)) as HG. fold m2 in HG.
  assert (V2 : valid s' (oGas o) [M0; M1]) by (apply (outS_valid k s1 g _ i V')).
  destruct (outS_rest k g s1) as (W2 & A2 & _).
  assert (TV : monoTermsOf (Fin M0) (Fin M1) m s1 = Ok (monoT (oGas o) k M0 M1 w' x' (oJ o) (oMass o) (oConc o), m2, s')).
  { apply (monoTerms_val m m2 s1 s' (oGas o) k M0 M1 w' x' (oJ o) (oMass o) (oConc o) [] []); auto.
    - congruence.
    - apply regular_out. exact RG.
    - exact (outM_off k g m i [] HM).
    - intros E. apply (outM_dimer k g m i []). rewrite <- E. unfold m2. symmetry. now apply outM_isPAH.
    - intros E. unfold m2 in E. rewrite outM_isPAH in E by auto. unfold o, nucl. rewrite E. reflexivity. }
  unfold setSourceTerms. rewrite Hp. unfold setSourceTermsMONO.
  rewrite (v_soot _ _ _ V). cbn [map vget nth_error bind].
  assert (ES : monoSetWA (N:=XR) (Fin M0) (Fin M1) s = Ok s1).
  { unfold monoSetWA. change (@nltb XR) with xltb. change (@nZ XR 0) with (Fin 0). unfold xltb. destruct (Rlt_dec 0 M0); [|lra].
    destruct (wts s) as [|a [|]] eqn:E1; try discriminate Lw. destruct (absc s) as [|b [|]] eqn:E2; try discriminate La.
    unfold vset. cbn [length Nat.ltb Nat.leb bind upd]. change (@ndiv XR) with xdiv. rewrite xdiv_fin by lra. reflexivity. }
  rewrite ES. cbn [bind]. unfold noTar in HT. rewrite HT. cbn [newTar ta_mech]. rewrite TV. cbn [bind].
  f_equal. apply f_equal2; [|reflexivity]. apply f_equal2; [reflexivity|].
  assert (KO : koxid k (oGas o) M0 M1 = koxid k g M0 M1) by (unfold o; apply koxid_out).
  assert (KG : kgrow k (oGas o) M0 M1 = kgrow k g M0 M1) by (unfold o; apply kgrow_out).
  assert (KK : forall a b, kernel k (oGas o) a b = kernel k g a b) by (intros; unfold o; apply kernel_out).
  unfold monoT. cbn [mt_N0 mt_C0 mt_N1 mt_Cnd1 mt_G1 mt_X1]. rewrite !KK, KO, KG. apply finish_eq; try reflexivity.
  unfold monoSources, x', w'. xsimp. unfold oN1. repeat (apply f_equal2; [f_equal; ring|]). reflexivity.
Qed.
Lemma outM_nucl k g m i eff : sm_nucl (outM k g m i eff) = if isP k then pahObj g (sm_nucl m) i else sm_nucl m.
Proof. unfold outM. destruct (isP k); [apply storeNucl_nucl|reflexivity]. Qed.
Lemma gasSrc_same (m1 m2 : model (N:=XR)) a b c : sm_nucl m1 = sm_nucl m2 -> sm_grow m1 = sm_grow m2 -> sm_oxid m1 = sm_oxid m2 -> gasSrc m1 a b c = gasSrc m2 a b c.
Proof. intros E1 E2 E3. unfold gasSrc. now rewrite E1, E2, E3. Qed.
Lemma areaCoef_sphere x : 0 < x -> areaCoef * Rpower x (1 - 1 / 3) = sphere x.
Proof.
  intros H. unfold areaCoef, sphere. destruct (Rlt_dec 0 x); [|lra]. rewrite diam_split by auto. replace (1 - 1 / 3) with (2 / 3) by lra.
  rewrite <- !Rpower_third2. ring.
Qed.
