(** Proofs about the nucleation, growth and oxidation rates. *)
From Coq Require Import ZArith List Bool Reals Lra Lia.
From Verif Require Import Num Defs State Coag Nucl Growth Oxid XR XRLemmas SpecChem SpecCoag SpecValid SpecRates CoagProofs StateXR ValidProofs InterpProofs GasProofs.
Import ListNotations.
Local Open Scope R_scope.

(** ** tanh *)
Lemma cosh_pos x : 0 < cosh x.
Proof. unfold cosh. pose proof (exp_pos x). pose proof (exp_pos (- x)). lra. Qed.
Lemma tanh_lt1 x : tanh x < 1.
Proof.
  unfold tanh. pose proof (cosh_pos x). apply (Rmult_lt_reg_r (cosh x)); auto. unfold Rdiv.
  rewrite Rmult_assoc, Rinv_l by lra. unfold sinh, cosh. pose proof (exp_pos (- x)). lra.
Qed.
Lemma tanh_sign x : (x < 0 -> tanh x < 0) /\ (0 <= x -> 0 <= tanh x).
Proof.
  unfold tanh. pose proof (cosh_pos x). split; intros Hx.
  - assert (sinh x < 0). { unfold sinh. assert (exp x < exp (- x)) by (apply exp_increasing; lra). lra. }
    assert (0 < / cosh x) by now apply Rinv_0_lt_compat. unfold Rdiv. nra.
  - assert (0 <= sinh x).
    { unfold sinh. destruct Hx as [Hx|<-]; [|rewrite Ropp_0; lra].
      assert (exp (- x) < exp x) by (apply exp_increasing; lra). lra. }
    apply Rmult_le_pos; auto. now apply Rlt_le, Rinv_0_lt_compat.
Qed.

(** ** values of the species data *)
Lemma massC_val : rMW C_ = massC. Proof. rewrite rMW_val. unfold molarMass. cbn [atomsC atomsH atomsO]. lra. Qed.
Lemma massC_pos : 0 < massC. Proof. unfold massC; lra. Qed.
#[global] Hint Resolve massC_pos : xpos.
Ltac vals := cvals; rewrite ?massC_val, ?rMW_val.

Ltac negs := repeat match goal with |- context [IZR (Zneg ?p)] => change (IZR (Zneg p)) with (- IZR (Zpos p)) end.

(** ** sums *)
Lemma foldM_ext {A B} (f f' : A -> B -> res A) l : forall a, (forall x a, In x l -> f a x = f' a x) -> foldM f l a = foldM f' l a.
Proof.
  induction l as [|x l IH]; intros a H; cbn [foldM]; auto. rewrite H by now left.
  destruct (f' a x); cbn [bind]; auto. apply IH. intros; apply H; now right.
Qed.
Lemma foldM_sum (h : nat -> R) (f : xr -> nat -> res xr) n : forall i a,
  (forall k b, (i <= k < i + n)%nat -> f (Fin b) k = Ok (Fin (b + h k))) ->
  foldM f (seq i n) (Fin a) = Ok (Fin (a + sumR (map h (seq i n)))).
Proof.
  induction n as [|n IH]; intros i a H; cbn [seq foldM map sumR fold_right].
  - now rewrite Rplus_0_r.
  - rewrite H by lia. cbn [bind]. rewrite IH by (intros; apply H; lia). unfold sumR. cbn [fold_right map]. now rewrite Rplus_assoc.
Qed.
Lemma map_nth_all {A} (l : list A) d : map (fun k => nth k l d) (seq 0 (length l)) = l.
Proof.
  induction l as [|a l IH]; auto. cbn [length seq map]. f_equal. rewrite <- seq_shift, map_map. exact IH.
Qed.
Lemma dot_seq a b : length a = length b -> dot a b = sumR (map (fun k => nth k a 0 * nth k b 0) (seq 0 (length a))).
Proof.
  revert b. induction a as [|x a IH]; destruct b as [|y b]; cbn [length]; intros E; try discriminate; auto.
  unfold dot in *. cbn [combine map seq fst snd nth]. unfold sumR in *. cbn [fold_right]. f_equal.
  rewrite <- seq_shift, map_map. apply IH. congruence.
Qed.
Lemma sumR_nneg l : (forall x, In x l -> 0 <= x) -> 0 <= sumR l.
Proof.
  induction l as [|x l IH]; intros H; unfold sumR; cbn [fold_right]; [lra|].
  apply Rplus_le_le_0_compat; [apply H; now left|apply IH; intros; apply H; now right].
Qed.
Lemma dot_nneg a b : (forall x, In x a -> 0 <= x) -> (forall x, In x b -> 0 <= x) -> 0 <= dot a b.
Proof.
  intros Ha Hb. apply sumR_nneg. intros x Hx. apply in_map_iff in Hx. destruct Hx as ([u w] & <- & Hi).
  apply Rmult_le_pos; [apply Ha; now apply in_combine_l in Hi|apply Hb; now apply in_combine_r in Hi].
Qed.

Section S.
Context (s : state (N:=XR)) (g : gas) (soot : list R) (V : valid s g soot).
Let Ht := v_Tpos _ _ _ V.
Let Hc := v_cMinpos _ _ _ V.
Let ET := v_T _ _ _ V.
Let EC := v_cMin _ _ _ V.

Lemma nucl_formula coll nu : gasOnly (nu_class nu) ->
  nuclRate coll nu s = Ok (Fin (nuclFormula (nu_class nu) g), nu, s, None).
Proof.
  intros (K1 & K2 & K3). unfold nuclRate.
  destruct (nu_class nu); try congruence; cbn [nuclFormula]; try reflexivity;
    unfold nuclLL, nuclLIN, nuclLINA1, nuclMB, nuclFAIR; rewrite (v_conc _ _ _ V); cbn [bind];
    do 4 f_equal; rewrite ?ET, ?EC; xsimp; cvals; f_equal; unfold perParticle; negs.
  1,2,3: field; lra.
  - ring.
  - replace (- (41000) / (gT g * (1987 / 1000))) with (- (41000 / (1987 / 1000)) / gT g) by (field; lra). field; lra.
Qed.

Lemma moments_nneg v M0 M1 : seesMoments v soot M0 M1 -> 0 <= M0 /\ 0 <= M1.
Proof.
  pose proof (v_sootpos _ _ _ V) as P. intros [(_ & A & B)|(_ & _ & _ & m & _ & _ & Pm & -> & ->)].
  - split; apply P; eapply nth_error_In; eauto.
  - split; [now apply sumR_nneg|apply dot_nneg; auto]. intros; now apply Rlt_le, Pm.
Qed.

Lemma getM01_val v M0 M1 : seesMoments v soot M0 M1 -> getM01 v s = Ok (Fin M0, Fin M1).
Proof.
  pose proof (v_soot _ _ _ V) as ES.
  intros [(K & A & B)|(K & L & Ln & m & Em & Lm & Pm & -> & ->)].
  - unfold getM01. destruct (sv_psd v); try congruence; unfold vget; rewrite ES, !nth_error_map, A, B; reflexivity.
  - unfold getM01, get_M0_sectional, get_M1_sectional. rewrite K, Ln, Em, ES.
    change (@nZ XR 0) with (Fin 0).
    rewrite (foldM_sum (fun k => nth k soot 0)).
    2:{ intros k b Hk. rewrite vget_fin by lia. reflexivity. }
    cbn [bind].
    rewrite (foldM_sum (fun k => nth k soot 0 * nth k m 0)).
    2:{ intros k b Hk. rewrite !vget_fin by lia. reflexivity. }
    cbn [bind]. rewrite map_nth_all, <- dot_seq by auto. now rewrite !Rplus_0_l.
Qed.

Lemma foldM_sum2 (h1 h2 : nat -> R) (f : xr * xr -> nat -> res (xr * xr)) n : forall i a b,
  (forall k a b, (i <= k < i + n)%nat -> f (Fin a, Fin b) k = Ok (Fin (a + h1 k), Fin (b + h2 k))) ->
  foldM f (seq i n) (Fin a, Fin b) = Ok (Fin (a + sumR (map h1 (seq i n))), Fin (b + sumR (map h2 (seq i n)))).
Proof.
  induction n as [|n IH]; intros i a b H; cbn [seq foldM map sumR fold_right].
  - now rewrite !Rplus_0_r.
  - rewrite H by lia. cbn [bind]. rewrite IH by (intros; apply H; lia). unfold sumR. cbn [fold_right map]. now rewrite !Rplus_assoc.
Qed.

Lemma hacaM01_val v M0 M1 : seesMoments v soot M0 M1 -> hacaM01 v s = Ok (Fin M0, Fin M1).
Proof.
  pose proof (v_soot _ _ _ V) as ES.
  intros [(K & A & B)|(K & L & Ln & m & Em & Lm & Pm & -> & ->)].
  - unfold hacaM01, vget. rewrite ES, !nth_error_map, A, B. cbn [option_map bind].
    destruct (sv_psd v); try congruence; reflexivity.
  - unfold hacaM01. rewrite (v_nsoot _ _ _ V), K, Em, ES, !vget_fin by lia. cbn [bind].
    destruct (Z.ltb_spec (Z.of_nat (length soot)) 0); [lia|]. rewrite Nat2Z.id.
    change (@nZ XR 0) with (Fin 0).
    rewrite (foldM_sum2 (fun k => nth k soot 0) (fun k => nth k soot 0 * nth k m 0)).
    2:{ intros k a b Hk. rewrite !vget_fin by lia. reflexivity. }
    rewrite map_nth_all, <- dot_seq by auto. now rewrite !Rplus_0_l.
Qed.

Lemma growArea_val M0 M1 : 0 <= M0 -> 0 <= M1 -> growArea (N:=XR) (Fin M0) (Fin M1) = Fin (surface M0 M1).
Proof.
  intros H0 H1. unfold growArea, surface. change (@nltb XR) with xltb. change (@nZ XR 0) with (Fin 0).
  unfold xltb. destruct (Rlt_dec 0 M0) as [P0|P0]; [|reflexivity].
  destruct (Rlt_dec 0 M1) as [P1|P1].
  - xsimp. cvals. f_equal.
    replace (6 / (piC * 1850) * M1 / M0) with (6 * (M1 / M0) / (piC * sootDensity))
      by (unfold sootDensity; field; split; nz).
    unfold diam. rewrite <- Rpower_third2. ring.
  - assert (M1 = 0) by lra. subst M1. xsimp.
    replace (6 / (rpi * 1850) * 0 / M0) with 0 by (field; split; nz).
    rewrite xpow_0pos by lra. xsimp. f_equal. ring.
Qed.

Ltac ifx := change (@nltb XR) with xltb; change (@nleb XR) with xleb; change (@neqb XR) with xeqb; change (@nZ XR 0) with (Fin 0).

(** *** HACA *)
Lemma haca_terms : 0 <= haca4 g /\ 0 <= haca5 g /\ 0 <= hacaUp g /\ 0 <= hacaDown g.
Proof.
  pose proof (conc_nneg _ _ _ V) as K. pose proof (K C2H2) as K1. pose proof (K O2) as K2. pose proof (K H_) as K3.
  pose proof (K OH) as K4. pose proof (K H2) as K5. pose proof (K H2O) as K6.
  assert (A : 0 <= haca4 g) by (unfold haca4; nneg). assert (B : 0 <= haca5 g) by (unfold haca5; nneg).
  repeat split; auto; [unfold hacaUp; nneg|unfold hacaDown; nneg].
Qed.
Lemma hacaRadicals_nneg : 0 <= hacaRadicals g.
Proof.
  destruct haca_terms as (_ & _ & A & B). unfold hacaRadicals. destruct (Req_EM_T (hacaDown g) 0); [lra|].
  apply Rmult_le_pos; [|lra]. apply Rmult_le_pos; auto. apply Rlt_le, Rinv_0_lt_compat. lra.
Qed.

Lemma hacaSites_val : hacaSites s = Ok (Fin (haca4 g), Fin (haca5 g), Fin (hacaRadicals g)).
Proof.
  unfold hacaSites. rewrite !(v_conc _ _ _ V), ET. cbn [bind]. cbv zeta. ifx.
  xcbn. xconst. repeat xstep. negs.
  set (D := _ + _ + _ + _ + _).
  assert (E4 : 80000000 * Rpower (gT g) (156 / 100) * exp (- (38) / 10 / (19872036 / 10000000000 * gT g)) * conc g C2H2 / 1000 = haca4 g).
  { unfold haca4. replace (- (38) / 10) with (- (38 / 10)) by lra. field. }
  assert (E5 : 2200000000000 * exp (- (75) / 10 / (19872036 / 10000000000 * gT g)) * conc g O2 / 1000 = haca5 g).
  { unfold haca5. rewrite Rpower_O by auto. replace (- (75) / 10) with (- (75 / 10)) by lra. field. }
  assert (ED : D = hacaDown g).
  { unfold D, hacaDown. rewrite E4, E5. rewrite Rpower_O by auto. replace (- (171) / 10) with (- (171 / 10)) by lra. field. }
  rewrite ED, E4, E5. do 2 f_equal.
  unfold xeqb, hacaRadicals. destruct (Req_EM_T (hacaDown g) 0) as [|K]; [reflexivity|].
  rewrite xdiv_fin by auto. f_equal. unfold hacaUp. rewrite Rpower_O by auto.
  replace (- (143) / 100) with (- (143 / 100)) by lra. field. auto.
Qed.

Lemma active_bounds M0 M1 : 0 <= activeSites g M0 M1 <= 1.
Proof.
  assert (T1 : forall x, 0 <= (if Rlt_dec x 0 then 1 else tanh x) <= 1).
  { intros x. destruct (Rlt_dec x 0); [lra|]. pose proof (tanh_lt1 x). pose proof (proj2 (tanh_sign x)). lra. }
  unfold activeSites. destruct (Rlt_dec 0 M0); [|lra]. destruct (Req_EM_T M1 M0); [lra|].
  destruct (Rlt_dec 0 M1); apply T1.
Qed.

Lemma tail_val x : (if xltb (xtanh (Fin x)) (Fin 0) then Fin 1 else xtanh (Fin x)) = Fin (if Rlt_dec x 0 then 1 else tanh x).
Proof.
  unfold xtanh, xltb. destruct (tanh_sign x) as [A B].
  destruct (Rlt_dec (tanh x) 0), (Rlt_dec x 0); auto; exfalso; lra.
Qed.

Lemma alpha_val M0 M1 : 0 <= M0 -> 0 <= M1 -> ~ hacaDegenerate g M0 M1 ->
  hacaAlpha s (Fin M0) (Fin M1) = Fin (activeSites g M0 M1).
Proof.
  intros H0 H1 ND. unfold hacaAlpha, activeSites. cbv zeta. rewrite ET. ifx.
  change (@nZ XR 1) with (Fin 1).
  change (@nsub XR (nlit 33167 (-3)) (@nmul XR (nlit 154 (-4)) (Fin (gT g)))) with (Fin (hacaA g)).
  replace (@nadd XR (nlit (-25786) (-4)) (@nmul XR (nlit 112 (-5)) (Fin (gT g)))) with (Fin (hacaB g)).
  2:{ xsimp. negs. f_equal. unfold hacaB. field. }
  unfold xltb at 2 3. destruct (Rlt_dec 0 M0) as [P0|P0].
  2:{ rewrite xltb_false by lra. reflexivity. }
  change (@ndiv XR (Fin M1) (Fin M0)) with (xdiv (Fin M1) (Fin M0)). rewrite xdiv_fin by lra.
  change (@nlog10 XR) with xlog10. change (@ndiv XR) with xdiv. change (@nadd XR) with xadd. change (@ntanh XR) with xtanh.
  destruct (Req_EM_T M1 M0) as [E|NE].
  - subst M1. replace (M0 / M0) with 1 by (field; lra). rewrite xlog10_fin by lra. rewrite ln_1.
    replace (0 / ln 10) with 0 by (field; pose proof (ln_increasing 1 10 ltac:(lra) ltac:(lra)) as K; rewrite ln_1 in K; lra).
    rewrite xdiv_0.
    destruct (Rtotal_order (hacaA g) 0) as [K|[K|K]].
    + rewrite signed_neg by auto. cbn [xadd xtanh]. rewrite xltb_true by lra. reflexivity.
    + exfalso. apply ND. split; auto.
    + rewrite signed_pos by auto. cbn [xadd xtanh]. rewrite xltb_false by lra. reflexivity.
  - destruct (Rlt_dec 0 M1) as [P1|P1].
    + rewrite xlog10_fin by pos.
      assert (L10 : 0 < ln 10) by (rewrite <- ln_1; apply ln_increasing; lra).
      assert (NL : ln (M1 / M0) <> 0).
      { intros K. apply NE. assert (M1 / M0 = 1). { apply ln_inv; [pos|lra|]. now rewrite ln_1. }
        replace M1 with (M1 / M0 * M0) by (field; lra). rewrite H. ring. }
      assert (NL' : ln (M1 / M0) / ln 10 <> 0).
      { intros K. apply NL. replace (ln (M1 / M0)) with (ln (M1 / M0) / ln 10 * ln 10) by (field; lra). rewrite K. ring. }
      rewrite xdiv_fin by auto. cbn [xadd]. apply tail_val.
    + assert (M1 = 0) by lra. subst M1. replace (0 / M0) with 0 by (field; lra).
      unfold xlog10. destruct (Rlt_dec 0 0); [lra|]. destruct (Req_EM_T 0 0); [|lra].
      cbn [xdiv xadd]. rewrite Rplus_0_l. apply tail_val.
Qed.

Lemma alpha_nan M0 : 0 < M0 -> hacaA g = 0 -> hacaAlpha s (Fin M0) (Fin M0) = NaN.
Proof.
  intros P0 HA. unfold hacaAlpha. cbv zeta. rewrite ET. ifx.
  change (@nZ XR 1) with (Fin 1).
  change (@nsub XR (nlit 33167 (-3)) (@nmul XR (nlit 154 (-4)) (Fin (gT g)))) with (Fin (hacaA g)).
  rewrite HA. unfold xltb at 2 3. destruct (Rlt_dec 0 M0); [|lra].
  change (@ndiv XR (Fin M0) (Fin M0)) with (xdiv (Fin M0) (Fin M0)). rewrite xdiv_fin by lra.
  replace (M0 / M0) with 1 by (field; lra).
  change (@nlog10 XR) with xlog10. rewrite xlog10_fin by lra. rewrite ln_1.
  replace (0 / ln 10) with 0 by (field; pose proof (ln_increasing 1 10 ltac:(lra) ltac:(lra)) as K; rewrite ln_1 in K; lra).
  change (@ndiv XR) with xdiv. rewrite xdiv_0, signed_0. reflexivity.
Qed.

(** *** growth *)
Lemma grow_formula gr v M0 M1 : seesMoments v soot M0 M1 -> (gr_class gr = G_HACA -> ~ hacaDegenerate g M0 M1) ->
  growRate gr v s = Ok (Fin (growFormula (gr_class gr) g M0 M1)).
Proof.
  intros SM ND. destruct (moments_nneg _ _ _ SM) as [P0 P1].
  unfold growRate. destruct (gr_class gr) eqn:Ec; cbn [growFormula]; auto.
  - unfold growLL. rewrite (getM01_val _ _ _ SM). cbn [bind]. cbv zeta. rewrite growArea_val by auto. ifx.
    unfold xltb. destruct (Rlt_dec 0 (surface M0 M1)); [|reflexivity].
    rewrite (v_conc _ _ _ V), ET. cbn [bind]. xsimp. vals. negs. do 2 f_equal. field. nz.
  - unfold growLIN. rewrite (v_conc _ _ _ V), ET. cbn [bind]. xsimp. vals. negs. do 2 f_equal. ring.
  - unfold growHACA. rewrite (hacaM01_val _ _ _ SM). cbn [bind]. rewrite hacaSites_val. cbn [bind]. cbv zeta.
    rewrite alpha_val by auto. xsimp. vals. unfold hacaMass. do 2 f_equal. field. nz.
  - unfold growMB. rewrite (getM01_val _ _ _ SM). cbn [bind]. cbv zeta. rewrite growArea_val by auto. ifx.
    unfold xltb. destruct (Rlt_dec 0 (surface M0 M1)); [|reflexivity].
    rewrite (v_conc _ _ _ V), ET. cbn [bind].
    destruct (Rlt_dec 0 (conc g C2H2)) as [K|K].
    + xsimp. negs. do 2 f_equal. ring.
    + pose proof (conc_nneg _ _ _ V C2H2). replace (conc g C2H2) with 0 by lra. xsimp. rewrite xpow_0pos by lra.
      xsimp. do 2 f_equal. ring.
  - unfold growFAIR. rewrite (getM01_val _ _ _ SM). cbn [bind]. cbv zeta. rewrite growArea_val by auto. ifx.
    unfold xltb. destruct (Rlt_dec 0 (surface M0 M1)); [|reflexivity].
    rewrite (v_conc _ _ _ V), ET. cbn [bind]. xsimp. vals. negs. do 2 f_equal.
    replace (- (24000) / (gT g * (1987 / 1000))) with (- (24000 / (1987 / 1000)) / gT g) by (field; lra). ring.
Qed.

(** *** oxidation *)
Lemma neohOH_val eff : neohOH (Fin eff) s = Ok (Fin (hitsOH g eff)).
Proof.
  unfold neohOH, hitsOH. rewrite (v_conc _ _ _ V), ET. cbn [bind]. xsimp. vals. reflexivity.
Qed.

Lemma oxid_formula o v M0 M1 : seesMoments v soot M0 M1 -> (ox_class o = O_HACA -> ~ hacaDegenerate g M0 M1) ->
  oxidRate o v s = Ok (Fin (oxidFormula (ox_class o) g M0 M1)).
Proof.
  intros SM ND. destruct (moments_nneg _ _ _ SM) as [P0 P1].
  pose proof (press_nneg _ _ _ V O2) as PO.
  unfold oxidRate. destruct (ox_class o) eqn:Ec; cbn [oxidFormula]; auto.
  - unfold oxidLL. rewrite (v_conc _ _ _ V), ET. cbn [bind]. xsimp. vals. negs. reflexivity.
  - unfold oxidLEE_NEOH. rewrite (v_press _ _ _ V), ET. cbn [bind]. cbv zeta.
    change (@nlit XR 13 (-2)) with (Fin (13 / 100)). rewrite neohOH_val. cbn [bind]. xsimp. vals. negs. unfold atm.
    replace (- (1977824) / 100) with (- (1977824 / 100)) by lra. reflexivity.
  - unfold oxidMB. rewrite (getM01_val _ _ _ SM). cbn [bind]. rewrite (v_conc _ _ _ V), ET. cbn [bind]. xsimp. reflexivity.
  - unfold oxidFAIR. rewrite (v_conc _ _ _ V), ET. cbn [bind]. xsimp. rewrite (Rmult_comm (gT g)). reflexivity.
  - unfold oxidNSC_NEOH. rewrite !(v_press _ _ _ V), ET. cbn [bind]. cbv zeta. unfold nsc, atm.
    set (p := partialP g O2) in *.
    destruct (Req_EM_T p 0) as [E|NE].
    + rewrite E. xsimp. replace (446 / 100000 * exp (-7650 / gT g) * (0 / 101325)) with 0 by field.
      rewrite xdiv_0, signed_pos by pos. cbn [xadd xdiv]. xsimp. negs. do 2 f_equal. unfold sootDensity. field.
      split; nz.
    + assert (0 < p) by lra. xsimp. negs. do 2 f_equal. unfold sootDensity.
      pose proof (exp_pos (2063 / gT g)). pose proof (exp_pos (- (7650) / gT g)). pose proof (exp_pos (- (48817) / gT g)).
      pose proof (exp_pos (- (15098) / gT g)). field. repeat split; try nz.
  - unfold oxidHACA. rewrite (getM01_val _ _ _ SM). cbn [bind]. rewrite hacaSites_val. cbn [bind]. cbv zeta.
    change (@nlit XR 13 (-2)) with (Fin (13 / 100)). rewrite neohOH_val. cbn [bind].
    rewrite alpha_val by auto. xsimp. vals. unfold hacaMass. do 2 f_equal. field. nz.
  - unfold oxidAJ_RED. rewrite !(v_press _ _ _ V), ET. cbn [bind]. xsimp. cvals. negs. do 2 f_equal. field. nz.
  - unfold oxidBROWN. rewrite !(v_press _ _ _ V), ET. cbn [bind]. xsimp. cvals. negs. unfold atm. do 2 f_equal. field. nz.
  - unfold oxidOPTJ. rewrite (v_press _ _ _ V), ET. cbn [bind]. cbv zeta.
    change (@nlit XR 15 (-2)) with (Fin (15 / 100)). rewrite neohOH_val. cbn [bind]. xsimp. vals. negs. reflexivity.
  - unfold oxidOPTG. rewrite (v_press _ _ _ V), ET. cbn [bind]. cbv zeta.
    change (@nlit XR 1 (-1)) with (Fin (1 / 10)). rewrite neohOH_val. cbn [bind]. xsimp. vals. negs. reflexivity.
Qed.
End S.

(** ** C16: finite and non-negative *)
Section Sign.
Context (s : state (N:=XR)) (g : gas) (soot : list R) (V : valid s g soot).
Let Ht := v_Tpos _ _ _ V.
Let Hc := v_cMinpos _ _ _ V.
Let K := conc_nneg _ _ _ V.
Let KP := press_nneg _ _ _ V.

Lemma nuclFormula_nneg c : 0 <= nuclFormula c g.
Proof.
  pose proof (K C2H2) as A. pose proof (K C6H6) as B. pose proof avo_pos. pose proof Ht. pose proof Hc.
  destruct c; cbn [nuclFormula]; unfold perParticle; try lra; nneg.
Qed.
Lemma hacaMass_nneg r : 0 <= r -> 0 <= hacaMass r.
Proof. intros. unfold hacaMass. pose proof avo_pos. pose proof massC_pos. nneg. Qed.
Lemma hacaMass_le r q : r <= q -> hacaMass r <= hacaMass q.
Proof.
  intros. unfold hacaMass. apply Rmult_le_compat_l; [pose proof avo_pos; pose proof massC_pos; nneg|lra].
Qed.
Lemma growFormula_nneg c M0 M1 : 0 <= growFormula c g M0 M1.
Proof.
  pose proof (K C2H2) as A. pose proof massC_pos. pose proof Ht.
  destruct c; cbn [growFormula]; try lra.
  - destruct (Rlt_dec 0 (surface M0 M1)); [nneg|lra].
  - nneg.
  - apply hacaMass_nneg. destruct (active_bounds g M0 M1). pose proof (hacaRadicals_nneg s g soot V).
    destruct (haca_terms s g soot V) as (B & _). nneg.
  - destruct (Rlt_dec 0 (surface M0 M1)); [|lra]. destruct (Rlt_dec 0 (conc g C2H2)); [nneg|lra].
  - destruct (Rlt_dec 0 (surface M0 M1)); [nneg|lra].
Qed.
Lemma hitsOH_nneg e : 0 <= e -> 0 <= hitsOH g e.
Proof. intros. unfold hitsOH. pose proof (K OH) as A. pose proof massC_pos. nneg. Qed.
Lemma nsc_nneg t p : 0 <= p -> 0 <= nsc t p.
Proof.
  intros Hp. unfold nsc. cbv zeta. unfold sootDensity.
  pose proof (exp_pos (- 15098 / t)). pose proof (exp_pos (- 7650 / t)). pose proof (exp_pos (- 48817 / t)). pose proof (exp_pos (2063 / t)).
  set (kB := 446 / 100000 * exp (- 7650 / t)) in *. assert (0 < kB) by (unfold kB; lra).
  assert (0 <= kB * p) by nneg.
  set (x := kB * p / _). assert (X : 0 <= x <= 1).
  { unfold x. split; [nneg|]. apply (Rmult_le_reg_r (kB * p + 151000 * exp (- 48817 / t))); [lra|].
    unfold Rdiv. rewrite Rmult_assoc, Rinv_l by lra. lra. }
  apply Rmult_le_pos; [lra|]. apply Rplus_le_le_0_compat; [|apply Rmult_le_pos; lra].
  apply Rmult_le_pos; [nneg|]. apply Rmult_le_pos; [lra|]. apply Rlt_le, Rinv_0_lt_compat. nra.
Qed.
Lemma oxidFormula_nneg c M0 M1 : 0 <= oxidFormula c g M0 M1.
Proof.
  pose proof (K O2) as A. pose proof (K OH) as B. pose proof (KP O2) as C. pose proof (KP OH) as D.
  pose proof massC_pos. pose proof Ht. pose proof avo_pos. pose proof boltz_pos.
  destruct c; cbn [oxidFormula]; try lra; unfold atm in *; try nneg.
  - pose proof (hitsOH_nneg (13 / 100) ltac:(lra)). apply Rplus_le_le_0_compat; nneg.
  - apply Rplus_le_le_0_compat; [apply nsc_nneg|]; nneg.
  - pose proof (hitsOH_nneg (13 / 100) ltac:(lra)). apply Rplus_le_le_0_compat; auto.
    apply hacaMass_nneg. destruct (active_bounds g M0 M1). pose proof (hacaRadicals_nneg s g soot V).
    destruct (haca_terms s g soot V) as (_ & Q & _). nneg.
  - pose proof (hitsOH_nneg (15 / 100) ltac:(lra)). apply Rplus_le_le_0_compat; nneg.
  - pose proof (hitsOH_nneg (1 / 10) ltac:(lra)). apply Rplus_le_le_0_compat; nneg.
Qed.

Lemma C16_nucl coll nu : gasOnly (nu_class nu) -> exists r, nuclRate coll nu s = Ok (Fin r, nu, s, None) /\ 0 <= r.
Proof. intros H. eexists; split; [eapply nucl_formula; eauto|apply nuclFormula_nneg]. Qed.
Lemma C16_grow gr v M0 M1 : seesMoments v soot M0 M1 -> (gr_class gr = G_HACA -> ~ hacaDegenerate g M0 M1) ->
  exists r, growRate gr v s = Ok (Fin r) /\ 0 <= r.
Proof. intros H H'. eexists; split; [eapply grow_formula; eauto|apply growFormula_nneg]. Qed.
Lemma C16_oxid o v M0 M1 : seesMoments v soot M0 M1 -> (ox_class o = O_HACA -> ~ hacaDegenerate g M0 M1) ->
  exists r, oxidRate o v s = Ok (Fin r) /\ 0 <= r.
Proof. intros H H'. eexists; split; [eapply oxid_formula; eauto|apply oxidFormula_nneg]. Qed.

(** ** C17 *)
Lemma conc0 sp : gY g sp = 0 -> conc g sp = 0.
Proof. intros E. unfold conc. rewrite E. unfold Rdiv. ring. Qed.
Lemma press0 sp : gY g sp = 0 -> partialP g sp = 0.
Proof. intros E. unfold partialP. rewrite conc0 by auto. ring. Qed.

Lemma C17_nucl coll nu : (nu_class nu = N_LL \/ nu_class nu = N_LIN \/ nu_class nu = N_MB \/ nu_class nu = N_FAIR) ->
  gY g C2H2 = 0 -> nuclRate coll nu s = Ok (Fin 0, nu, s, None).
Proof.
  intros H E. rewrite (nucl_formula s g soot V).
  - do 5 f_equal. destruct H as [->|[->|[->| ->]]]; cbn [nuclFormula]; rewrite conc0 by auto; ring.
  - unfold gasOnly. destruct H as [->|[->|[->| ->]]]; repeat split; discriminate.
Qed.
Lemma C17_lina1 coll nu : nu_class nu = N_LINA1 -> gY g C6H6 = 0 -> nuclRate coll nu s = Ok (Fin 0, nu, s, None).
Proof.
  intros H E. rewrite (nucl_formula s g soot V).
  - do 5 f_equal. rewrite H; cbn [nuclFormula]; rewrite conc0 by auto; ring.
  - unfold gasOnly. rewrite H. repeat split; discriminate.
Qed.
Lemma C17_grow gr v M0 M1 : seesMoments v soot M0 M1 -> (gr_class gr = G_HACA -> ~ hacaDegenerate g M0 M1) ->
  gY g C2H2 = 0 -> growRate gr v s = Ok (Fin 0).
Proof.
  intros H H' E. rewrite (grow_formula s g soot V _ _ M0 M1) by auto. do 2 f_equal.
  destruct (gr_class gr); cbn [growFormula]; auto; rewrite ?conc0 by auto.
  - destruct (Rlt_dec 0 (surface M0 M1)); auto. unfold Rdiv. ring.
  - ring.
  - unfold haca4. rewrite conc0 by auto. unfold hacaMass, Rdiv. ring.
  - destruct (Rlt_dec 0 (surface M0 M1)); auto. destruct (Rlt_dec 0 0); auto; lra.
  - destruct (Rlt_dec 0 (surface M0 M1)); auto. ring.
Qed.
Lemma nsc0 t : nsc t 0 = 0.
Proof. unfold nsc. cbv zeta. rewrite !Rmult_0_r. unfold Rdiv. ring. Qed.
Lemma C17_oxid o v M0 M1 : seesMoments v soot M0 M1 -> (ox_class o = O_HACA -> ~ hacaDegenerate g M0 M1) ->
  gY g O2 = 0 -> gY g OH = 0 -> oxidRate o v s = Ok (Fin 0).
Proof.
  intros H H' E E'. rewrite (oxid_formula s g soot V _ _ M0 M1) by auto. do 2 f_equal.
  assert (Z : forall e, hitsOH g e = 0) by (intros; unfold hitsOH; rewrite conc0 by auto; ring).
  destruct (ox_class o); cbn [oxidFormula]; auto; unfold atm; rewrite ?Z, ?conc0, ?press0 by auto; unfold haca5;
    rewrite ?conc0 by auto; unfold hacaMass; replace (0 / 101325) with 0 by field; rewrite ?nsc0; unfold Rdiv; ring.
Qed.
End Sign.

(** ** PAH loop *)
Section Pah.
Context (s : state (N:=XR)) (g : gas) (soot : list R) (V : valid s g soot).
Let Ht := v_Tpos _ _ _ V.
Let ET := v_T _ _ _ V.

Lemma rpahMW_val sp : rpahMW sp = pahMolarMass sp.
Proof. Local Transparent rpahMW. destruct sp; unfold rpahMW, pahMolarMass, massC, massH; cbn [pahAtomsC pahAtomsH]; lra. Local Opaque rpahMW. Qed.
Lemma rpahGamma_val sp : rpahGamma sp = sticking sp.
Proof. Local Transparent rpahGamma. destruct sp; unfold rpahGamma, sticking; lra. Local Opaque rpahGamma. Qed.
Lemma pahMolarMass_pos sp : 0 < pahMolarMass sp.
Proof. rewrite <- rpahMW_val. apply rpahMW_pos. Qed.
Lemma pahMass_pos sp : 0 < pahMass sp.
Proof. unfold pahMass. pose proof (pahMolarMass_pos sp). pose proof avo_pos. pos. Qed.

Lemma Rpower_split x : 0 < x -> sqrt (/ x) * Rpower x (2 / 3) = Rpower x (1 / 6).
Proof.
  intros H. rewrite <- Rpower_sqrt by pos. replace (/ x) with (Rpower x (-1)) by (replace (-1) with (- (1)) by lra; rewrite Rpower_Ropp, Rpower_1; auto).
  rewrite Rpower_mult, <- Rpower_plus. f_equal. lra.
Qed.

Lemma preFac_val m : 0 < m ->
  @nmul XR (pahPreFac s) (@npow XR (Fin m) (@ndiv XR (nZ 1) (nZ 6))) = Fin (betaSelf (gT g) m).
Proof.
  intros H. unfold pahPreFac. rewrite ET. xsimp. cvals. f_equal. unfold betaSelf, sootDensity.
  replace (piC * boltzmann * gT g / m) with (piC * boltzmann * gT g * / m) by reflexivity.
  rewrite (sqrt_mult (piC * boltzmann * gT g) (/ m)) by nneg.
  replace (6 * m / (piC * 1850)) with (6 / (piC * 1850) * m) by (field; nz).
  rewrite <- Rpower_mult_distr by pos. rewrite <- (Rpower_split m H). ring.
Qed.

Lemma pahDensity_nneg sp : 0 <= pahDensity g sp.
Proof.
  unfold pahDensity. pose proof (pahMolarMass_pos sp). pose proof avo_pos. pose proof (v_rhopos _ _ _ V). pose proof (v_pahpos _ _ _ V sp). nneg.
Qed.
Lemma betaSelf_pos t m : 0 < t -> 0 < m -> 0 < betaSelf t m.
Proof. intros. unfold betaSelf, sootDensity. pos. Qed.
Lemma sticking_pos sp : 0 < sticking sp. Proof. destruct sp; unfold sticking; lra. Qed.
Lemma pahLoss_nneg sp : 0 <= pahLoss g sp.
Proof.
  unfold pahLoss. pose proof (pahDensity_nneg sp). pose proof (betaSelf_pos (gT g) (pahMass sp) Ht (pahMass_pos sp)).
  pose proof (sticking_pos sp). assert (0 <= pahDensity g sp ^ 2) by nra. nneg.
Qed.
Lemma pahLoss0 sp : gPah g sp = 0 -> pahLoss g sp = 0.
Proof. intros E. unfold pahLoss, pahDensity. rewrite E. unfold Rdiv. ring. Qed.

Lemma pahNdot_val sp : pahNdot s sp = Ok (Fin (pahLoss g sp)).
Proof.
  unfold pahNdot. rewrite (v_pah _ _ _ V), (v_rho _ _ _ V). cbn [bind]. cbv zeta.
  pose proof (pahMass_pos sp) as Pm. pose proof (preFac_val (pahMass sp) Pm) as PF.
  assert (EM : @ndiv XR (pahMW sp) Na = Fin (pahMass sp)).
  { xsimp. cvals. rewrite rpahMW_val. reflexivity. }
  rewrite EM. rewrite X_pahGamma.
  assert (E2 : @npow XR (Fin (pahMass sp)) (@ndiv XR (nZ 1) (nZ 6)) = Fin (Rpower (pahMass sp) (1 / 6))) by (xsimp; reflexivity).
  rewrite E2 in *.
  assert (E3 : exists q, pahPreFac s = Fin q). { unfold pahPreFac. rewrite ET. clear PF E2. xsimp. eauto. }
  destruct E3 as (q & E3). rewrite E3 in *.
  change (Fin (q * Rpower (pahMass sp) (1 / 6)) = Fin (betaSelf (gT g) (pahMass sp))) in PF.
  assert (PF' : q * Rpower (pahMass sp) (1 / 6) = betaSelf (gT g) (pahMass sp)) by congruence. clear PF E2 E3 EM.
  xsimp. cvals. rewrite rpahMW_val, rpahGamma_val. do 2 f_equal. unfold pahLoss. rewrite <- PF'. unfold pahDensity. ring.
Qed.

Lemma pahLoop_val : pahLoop s =
  Ok (mkAcc (Fin (dimerRate g))
            (Fin (pahSum (fun sp => pahLoss g sp * IZR (pahAtomsC sp) * massC / avogadro)))
            (Fin (gCMin g + pahSum (fun sp => pahLoss g sp * 2 * IZR (pahAtomsC sp))))
            (Fin (pahSum (fun sp => pahLoss g sp * 2 * IZR (pahAtomsH sp))))
            (map (fun sp => Fin (- pahLoss g sp * pahMass sp)) allPah)).
Proof.
  unfold pahLoop, allPah, pahStep. cbn [foldM]. rewrite !pahNdot_val. cbn [bind]. rewrite (v_cMin _ _ _ V).
  cbn [a_nDotD a_mDimer a_cMin a_hMin a_rates app]. cbn [pahNC pahNH].
  xsimp. cvals. rewrite massC_val, !rpahMW_val. unfold dimerRate, pahSum, allPah, sumR. cbn [map fold_right pahAtomsC pahAtomsH].
  unfold pahMass.
  f_equal. f_equal.
  - f_equal. field.
  - f_equal. field. nz.
  - f_equal. ring.
  - f_equal. ring.
  - unfold Rdiv. repeat (apply f_equal2; [f_equal; ring|]). reflexivity.
Qed.

Lemma C17_pah_ coll nu s' nu' r e : (forall sp, gPah g sp = 0) ->
  nu_class nu = N_PAH -> nuclRate (N:=XR) coll nu s = Ok (r, nu', s', e) ->
  r = Fin 0 /\ nu_pah nu' = repeat (Fin 0) 6.
Proof.
  intros Z Hc. unfold nuclRate. rewrite Hc. unfold nuclPAH.
  assert (PL : exists a b c, pahLoop s = Ok (mkAcc (Fin 0) (Fin 0) a b c) /\ c = repeat (Fin 0) 6).
  { do 3 eexists. split.
    - rewrite pahLoop_val. f_equal. f_equal; f_equal; unfold dimerRate, pahSum, sumR, allPah; cbn [map fold_right];
        rewrite !pahLoss0 by auto; unfold Rdiv; ring.
    - unfold allPah. cbn [map repeat]. rewrite !pahLoss0 by auto. repeat (apply f_equal2; [f_equal; ring|]). reflexivity. }
  destruct PL as (a & b & c & PL & Ec). rewrite PL. cbn [bind a_nDotD a_mDimer a_cMin a_hMin a_rates]. cbv zeta.
  assert (F : xltb (Fin 0) (Fin 0) = false) by (apply xltb_false; lra).
  change (@nltb XR) with xltb. change (@nZ XR 0) with (Fin 0). rewrite F. cbn [andb].
  assert (E3 : exists q, forall x, pahPreFac (with_cMin s x) = Fin q).
  { unfold pahPreFac. cbn [T with_cMin]. rewrite ET. xsimp. eauto. }
  destruct E3 as (q & E3). rewrite E3.
  destruct (coll _ _) as [[Ib ef]| |]; cbn [bind]; intros H; try discriminate.
  match type of H with Ok (?a, ?b, ?c, ?d) = _ => assert (HR : r = a) by congruence; assert (HN : nu' = b) by congruence end.
  clear H. split.
  - rewrite HR. clear. xsimp. rewrite xpow_0pos by lra. xsimp. f_equal. ring.
  - rewrite HN. exact Ec.
Qed.
End Pah.

(** ** C18 and C54 *)
Section Doc.
Context (s : state (N:=XR)) (g : gas) (soot : list R) (V : valid s g soot).
Let Ht := v_Tpos _ _ _ V.
Let Hc := v_cMinpos _ _ _ V.

Lemma C18_bound v M0 M1 gr : gr_class gr = G_HACA -> seesMoments v soot M0 M1 -> ~ hacaDegenerate g M0 M1 ->
  exists r, growRate gr v s = Ok (Fin r) /\ 0 <= r <= hacaMass (haca4 g * hacaRadicals g).
Proof.
  intros Hg SM ND. exists (growFormula G_HACA g M0 M1). rewrite (grow_formula s g soot V _ _ M0 M1) by auto. rewrite Hg.
  split; [reflexivity|]. split; [apply (growFormula_nneg s g soot V)|]. cbn [growFormula]. apply hacaMass_le.
  destruct (active_bounds g M0 M1). destruct (haca_terms s g soot V) as (A & _). pose proof (hacaRadicals_nneg s g soot V).
  assert (0 <= haca4 g * hacaRadicals g) by nneg. nra.
Qed.
Lemma C18_nan v M0 M1 gr : gr_class gr = G_HACA -> seesMoments v soot M0 M1 -> hacaDegenerate g M0 M1 ->
  growRate gr v s = Ok NaN.
Proof.
  intros Hg SM (P0 & -> & HA). unfold growRate. rewrite Hg. unfold growHACA.
  rewrite (hacaM01_val s g soot V _ _ _ SM). cbn [bind]. rewrite (hacaSites_val s g soot V). cbn [bind]. cbv zeta.
  rewrite (alpha_nan s g soot V) by auto. reflexivity.
Qed.

Lemma C54_doc_nucl_ll coll nu d : nu_class nu = N_LL -> docNucl N_LL g = Some d ->
  nuclRate coll nu s = Ok (Fin d, nu, s, None).
Proof.
  intros E H. rewrite (nucl_formula s g soot V) by (rewrite E; repeat split; discriminate). do 5 f_equal.
  cbn [docNucl] in H. injection H as <-. rewrite E. cbn [nuclFormula]. unfold perParticle. negs. field. lra.
Qed.
Lemma C54_doc_nucl_bad coll nu d : nu_class nu = N_LIN /\ 0 < gY g C2H2 \/ nu_class nu = N_LINA1 /\ 0 < gY g C6H6 ->
  docNucl (nu_class nu) g = Some d ->
  exists r, nuclRate coll nu s = Ok (Fin r, nu, s, None) /\ r < d.
Proof.
  intros H E. exists (nuclFormula (nu_class nu) g).
  split; [apply (nucl_formula s g soot V); destruct H as [[-> _]|[-> _]]; repeat split; discriminate|].
  assert (CP : forall sp, 0 < gY g sp -> 0 < conc g sp).
  { intros sp Hs. unfold conc. pose proof (v_rhopos _ _ _ V). rewrite <- rMW_val. pos. }
  pose proof avo_pos. pose proof (exp_pos (- (21100) / gT g)) as PE.
  destruct H as [[Hn Hy]|[Hn Hy]]; rewrite Hn in *; cbn [docNucl nuclFormula] in *; injection E as <-; apply CP in Hy; unfold perParticle; negs.
  - assert (P : 0 < exp (- (21100) / gT g) * conc g C2H2 * (2 * avogadro / gCMin g)) by pos. lra.
  - assert (P : 0 < conc g C6H6 * (6 * avogadro / gCMin g)) by pos.
    assert (exp (- (21100) / gT g) < exp (- (21000) / gT g)).
    { apply exp_increasing. apply Rmult_lt_compat_r; [now apply Rinv_0_lt_compat|lra]. }
    nra.
Qed.

Lemma C54_doc_oxid_good v M0 M1 o d : ox_class o = O_LL \/ ox_class o = O_NSC_NEOH -> seesMoments v soot M0 M1 ->
  docOxid (ox_class o) g = Some d -> oxidRate o v s = Ok (Fin d).
Proof.
  intros H SM E. rewrite (oxid_formula s g soot V _ _ M0 M1) by (auto; destruct H as [-> | ->]; discriminate). do 2 f_equal.
  assert (SQ : Rpower (gT g) (1 / 2) = sqrt (gT g)) by (replace (1 / 2) with (/ 2) by lra; now apply Rpower_sqrt).
  assert (SN : Rpower (gT g) (- (1 / 2)) = / sqrt (gT g)) by now rewrite Rpower_Ropp, SQ.
  destruct H as [Ho|Ho]; rewrite Ho in *; cbn [docOxid oxidFormula] in *; injection E as <-.
  - rewrite SQ. field.
  - rewrite SN. unfold atm, Rdiv. ring.
Qed.
Lemma C54_doc_oxid_bad v M0 M1 o d : ox_class o = O_OPTG \/ ox_class o = O_OPTJ -> seesMoments v soot M0 M1 ->
  0 < gY g O2 -> gY g OH = 0 -> docOxid (ox_class o) g = Some d ->
  exists r, oxidRate o v s = Ok (Fin r) /\ d = r * gT g /\ 0 < r.
Proof.
  intros H SM HO HH E. exists (oxidFormula (ox_class o) g M0 M1).
  split; [apply (oxid_formula s g soot V); auto; destruct H as [-> | ->]; discriminate|].
  assert (SQ : Rpower (gT g) (1 / 2) = sqrt (gT g)) by (replace (1 / 2) with (/ 2) by lra; now apply Rpower_sqrt).
  assert (SS : sqrt (gT g) * sqrt (gT g) = gT g) by (apply sqrt_sqrt; lra).
  assert (SP : 0 < sqrt (gT g)) by (apply sqrt_lt_R0; lra).
  assert (PP : 0 < partialP g O2).
  { unfold partialP, conc. pose proof (v_rhopos _ _ _ V). rewrite <- rMW_val. pose proof avo_pos. pose proof boltz_pos. pos. }
  assert (Z : forall e, hitsOH g e = 0) by (intros; unfold hitsOH; rewrite (conc0 g) by auto; ring).
  assert (EX : forall p, 0 < exp p) by apply exp_pos.
  destruct H as [Ho|Ho]; rewrite Ho in *; cbn [docOxid oxidFormula] in *; injection E as <-;
    rewrite SQ, Z, (press0 g OH) by auto; (split; [|rewrite Rplus_0_r; pos]); unfold atm; negs;
    match goal with |- context [exp ?a] => generalize (exp a); intros ex end; generalize dependent (Rpower (gT g) (- (1 / 2))); intros rp;
    revert SS SP; generalize (sqrt (gT g)); intros q SS SP; rewrite <- SS; field; lra.
Qed.
End Doc.

(** cases for the hypotheses *)
Lemma rates_case : exists (s : state (N:=XR)) g soot v1 v2 M0 M1, valid s g soot /\ 0 < gY g C2H2 /\ 0 < gY g O2 /\
  sv_psd v1 = P_MONO /\ seesMoments v1 soot M0 M1 /\ sv_psd v2 = P_SECT /\ (exists M0' M1', seesMoments v2 soot M0' M1' /\ 0 < M0' /\ ~ hacaDegenerate g M0' M1') /\
  0 < M0 /\ ~ hacaDegenerate g M0 M1.
Proof.
  destruct (demo_reached [5; 3]) as (s & _ & V); [cbn [In]; intros; lra|].
  exists s, demoGas, [5; 3], (mkView (N:=XR) P_MONO 2 []), (mkView (N:=XR) P_SECT 2 (map Fin [1; 2])), 5, 3.
  split; [exact V|]. cbn [gY demoGas]. do 2 (split; [lra|]). split; [reflexivity|].
  split; [left; repeat split; discriminate|]. split; [reflexivity|]. split.
  - exists 8, 11. split; [|split; [lra|]].
    + right. repeat split; cbn [length sv_nsoot]; try lia. exists [1; 2]. repeat split.
      * cbn [In]; intros; lra.
      * unfold sumR; cbn [fold_right]; lra.
      * unfold dot, sumR; cbn [combine map fold_right fst snd]; lra.
    + intros (_ & K & _); lra.
  - split; [lra|]. intros (_ & K & _); lra.
Qed.
(** the HACA degeneracy is reachable *)
Lemma haca_case : exists (s : state (N:=XR)) g soot v M0 M1, valid s g soot /\ seesMoments v soot M0 M1 /\ hacaDegenerate g M0 M1.
Proof.
  set (g := mkGas (331670 / 154) 101325 (1 / 5) (1 / 10000) 100 (fun _ => 1 / 20) (fun _ => 1 / 100)).
  destruct (argsOf_ok g [1; 1] []) as (s & E & V & _).
  - repeat split; cbn [gT gP gRho gMu gCMin gY gPah g]; intros; lra.
  - intros; cbn; lra.
  - unfold pahVec, allPah. cbn [map fold_left gPah g]. lra.
  - cbn [In]; intros; lra.
  - contradiction.
  - exists s, g, [1; 1], (mkView (N:=XR) P_MONO 2 []), 1, 1. split; [exact V|]. split; [left; repeat split; discriminate|].
    split; [lra|]. split; [reflexivity|]. unfold hacaA. cbn [gT g]. field.
Qed.
