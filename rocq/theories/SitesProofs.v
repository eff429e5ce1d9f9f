(** Lemmas for C81. *)
From Coq Require Import ZArith List Bool Reals Lra Lia.
From Verif Require Import Num Defs State Coag Nucl Growth Oxid SootModel Qmom Calls XR XRLemmas SpecChem SpecCoag SpecValid SpecRates SpecGas SpecState SpecPsd SpecSites
  CoagProofs MiscProofs ValidProofs RateProofs PsdProofs MonoMain MonoCases RichProofs HeatProofs HeatCases.
Import ListNotations.
Local Open Scope R_scope.

Lemma ln10 : 0 < ln 10.
Proof. rewrite <- ln_1. apply ln_increasing; lra. Qed.
Lemma log_neg M0 M1 : 0 < M1 < M0 -> log10R (M1 / M0) < 0.
Proof.
  intros H. unfold log10R. assert (E : M1 / M0 < 1). { apply Rmult_lt_reg_r with M0; [lra|]. replace (M1 / M0 * M0) with M1 by (field; lra). lra. }
  assert (P : 0 < M1 / M0) by (apply Rdiv_lt_0_compat; lra). pose proof (ln_increasing _ _ P E) as K. rewrite ln_1 in K. pose proof ln10 as L.
  apply Rmult_lt_reg_r with (ln 10); [exact L|]. replace (ln (M1 / M0) / ln 10 * ln 10) with (ln (M1 / M0)) by (field; lra). lra.
Qed.
(** what the code computes, with the switch made explicit *)
Lemma arg_form t L : L < 0 ->
  (33167 / 1000 - 154 / 10000 * t) / L + (- (25786 / 10000) + 112 / 100000 * t) =
  (t - (33167 / 1000 - 25786 / 10000 * L) / (154 / 10000 - 112 / 100000 * L)) * ((154 / 10000 - 112 / 100000 * L) / - L).
Proof. intros H. field. lra. Qed.
Lemma switch_bounds m : log10R m < 0 -> 2153 < switchT m < 2303.
Proof.
  intros H. unfold switchT. set (L := log10R m) in *. assert (P : 0 < 154 / 10000 - 112 / 100000 * L) by lra.
  split; apply Rmult_lt_reg_r with (154 / 10000 - 112 / 100000 * L); try exact P.
  - replace ((33167 / 1000 - 25786 / 10000 * L) / (154 / 10000 - 112 / 100000 * L) * (154 / 10000 - 112 / 100000 * L)) with (33167 / 1000 - 25786 / 10000 * L) by (field; lra).
    lra.
  - replace ((33167 / 1000 - 25786 / 10000 * L) / (154 / 10000 - 112 / 100000 * L) * (154 / 10000 - 112 / 100000 * L)) with (33167 / 1000 - 25786 / 10000 * L) by (field; lra).
    lra.
Qed.
Lemma active_below g M0 M1 : 0 < M1 < M0 -> gT g < switchT (M1 / M0) -> activeSites g M0 M1 = 1.
Proof.
  intros H T. pose proof (log_neg M0 M1 H) as L. unfold activeSites. cbv zeta. destruct (Rlt_dec 0 M0); [|lra]. destruct (Req_EM_T M1 M0); [lra|]. destruct (Rlt_dec 0 M1); [|lra].
  unfold hacaA, hacaB. fold (log10R (M1 / M0)). rewrite arg_form by exact L. fold (switchT (M1 / M0)).
  assert (P : 0 < (154 / 10000 - 112 / 100000 * log10R (M1 / M0)) / - log10R (M1 / M0)) by (apply Rdiv_lt_0_compat; lra).
  match goal with |- (if Rlt_dec ?x 0 then _ else _) = _ => destruct (Rlt_dec x 0) as [|K] end; [reflexivity|]. exfalso. apply K.
  replace 0 with (0 * ((154 / 10000 - 112 / 100000 * log10R (M1 / M0)) / - log10R (M1 / M0))) by ring. apply Rmult_lt_compat_r; [exact P|lra].
Qed.
Lemma active_at g M0 M1 : 0 < M1 < M0 -> gT g = switchT (M1 / M0) -> activeSites g M0 M1 = 0.
Proof.
  intros H T. pose proof (log_neg M0 M1 H) as L. unfold activeSites. cbv zeta. destruct (Rlt_dec 0 M0); [|lra]. destruct (Req_EM_T M1 M0); [lra|]. destruct (Rlt_dec 0 M1); [|lra].
  unfold hacaA, hacaB. fold (log10R (M1 / M0)). rewrite arg_form by exact L. fold (switchT (M1 / M0)). rewrite T.
  replace ((switchT (M1 / M0) - switchT (M1 / M0)) * ((154 / 10000 - 112 / 100000 * log10R (M1 / M0)) / - log10R (M1 / M0))) with 0 by (field; lra).
  destruct (Rlt_dec 0 0); [lra|]. unfold tanh. rewrite sinh_0. unfold Rdiv. ring.
Qed.
(** any mean mass below 1 kg, or no particles, or no mass *)
Lemma active_low g M0 M1 : 0 <= M1 -> 0 <= M0 -> (M1 < M0 \/ M0 = 0) -> gT g <= 2153 -> activeSites g M0 M1 = 1.
Proof.
  intros H1 H0 H T. destruct (Rlt_dec 0 M0) as [P|NP]; [|unfold activeSites; cbv zeta; destruct (Rlt_dec 0 M0); lra].
  destruct (Rlt_dec 0 M1) as [P1|NP1]; [apply active_below; [lra|]; pose proof (switch_bounds (M1 / M0) (log_neg M0 M1 ltac:(lra))); lra|].
  unfold activeSites. cbv zeta. destruct (Rlt_dec 0 M0); [|lra]. destruct (Req_EM_T M1 M0); [lra|]. destruct (Rlt_dec 0 M1); [lra|].
  unfold hacaB. match goal with |- (if Rlt_dec ?x 0 then _ else _) = _ => destruct (Rlt_dec x 0) as [|K] end; [reflexivity|]. exfalso. apply K. lra.
Qed.
Lemma not_degenerate g M0 M1 : (M1 < M0 \/ M0 = 0) -> ~ hacaDegenerate g M0 M1.
Proof. intros H (A & B & _). lra. Qed.

Section Rates.
Context (s : state (N:=XR)) (g : gas) (soot : list R) (V : valid s g soot).
Lemma C81_rates f v M0 M1 gr ox : seesMoments v soot M0 M1 -> (M1 < M0 \/ M0 = 0) -> activeSites g M0 M1 = f -> gr_class gr = G_HACA -> ox_class ox = O_HACA ->
  growRate gr v s = Ok (Fin (addedBy g f)) /\ oxidRate ox v s = Ok (Fin (removedBy g f + hitsOH g (13 / 100))).
Proof.
  intros SM H E G O. split.
  - rewrite (grow_formula s g soot V gr v M0 M1 SM); [|intros _; now apply not_degenerate]. rewrite G. cbn [growFormula]. now rewrite E.
  - rewrite (oxid_formula s g soot V ox v M0 M1 SM); [|intros _; now apply not_degenerate]. rewrite O. cbn [oxidFormula]. now rewrite E.
Qed.
End Rates.

Lemma C81_all_ (s : state (N:=XR)) g soot v M0 M1 gr ox : valid s g soot -> seesMoments v soot M0 M1 -> (M1 < M0 \/ M0 = 0) -> gr_class gr = G_HACA -> ox_class ox = O_HACA ->
  gT g <= 2153 -> growRate gr v s = Ok (Fin (addedBy g 1)) /\ oxidRate ox v s = Ok (Fin (removedBy g 1 + hitsOH g (13 / 100))).
Proof.
  intros V SM H G O T. destruct (moments_nneg s g soot V _ _ _ SM) as [P0 P1]. eapply C81_rates; eauto. now apply active_low.
Qed.
Lemma C81_switch_ (s : state (N:=XR)) g soot v M0 M1 gr ox : valid s g soot -> seesMoments v soot M0 M1 -> 0 < M1 < M0 -> gr_class gr = G_HACA -> ox_class ox = O_HACA ->
  2153 < switchT (M1 / M0) < 2303 /\
  (gT g < switchT (M1 / M0) -> growRate gr v s = Ok (Fin (addedBy g 1)) /\ oxidRate ox v s = Ok (Fin (removedBy g 1 + hitsOH g (13 / 100)))) /\
  (gT g = switchT (M1 / M0) -> growRate gr v s = Ok (Fin 0) /\ oxidRate ox v s = Ok (Fin (hitsOH g (13 / 100)))).
Proof.
  intros V SM H G O. split; [now apply switch_bounds, log_neg|]. split; intros T.
  - eapply C81_rates; eauto; [lra|]. now apply active_below.
  - destruct (C81_rates s g soot V 0 v M0 M1 gr ox SM ltac:(lra) (active_at g M0 M1 H T) G O) as [A B]. rewrite A, B. unfold addedBy, removedBy, hacaMass. split; do 2 f_equal; ring.
Qed.

(** ** the published fit *)
Lemma tanh_38 x : x <= 3 / 8 -> tanh x <= 9 / 25.
Proof.
  intros H. unfold tanh, sinh, cosh. rewrite exp_Ropp. pose proof (exp_pos x) as P. assert (E : exp (x + x) <= (12842 / 10000) ^ 3) by (apply quarter_hi; cbn [INR]; lra). rewrite exp_plus in E. set (e := exp x) in *.
  replace ((e - / e) / 2 / ((e + / e) / 2)) with ((e * e - 1) / (e * e + 1)) by (field; repeat split; try lra; nra).
  assert (0 < e * e) by nra. apply Rmult_le_reg_r with (e * e + 1); [lra|]. replace ((e * e - 1) / (e * e + 1) * (e * e + 1)) with (e * e - 1) by (field; lra). lra.
Qed.
Lemma log_ge n k : 10 ^ k <= n -> INR k <= log10R n.
Proof.
  intros H. unfold log10R. pose proof ln10 as L. assert (P : 0 < 10 ^ k) by (apply pow_lt; lra). apply Rmult_le_reg_r with (ln 10); [exact L|]. replace (ln n / ln 10 * ln 10) with (ln n) by (field; lra).
  rewrite <- ln_pow by lra. destruct H as [H|H]; [left; apply ln_increasing; assumption|rewrite H; lra].
Qed.
Lemma fitted_low t n : 1800 <= t <= 2153 -> 10 ^ 6 <= n -> 0 <= fitted t n <= 9 / 25.
Proof.
  intros T N. unfold fitted. split; [apply Rmax_l|]. apply Rmax_lub; [lra|]. apply tanh_38. pose proof (log_ge n 6 N) as K. cbn [INR] in K. set (L := log10R n) in *. set (A := 33167 / 1000 - 154 / 10000 * t).
  assert (PA : 0 <= A) by (unfold A; lra). assert (A / L <= A / 6). { apply Rmult_le_compat_l; [exact PA|]. apply Rinv_le_contravar; lra. } unfold A in *. lra.
Qed.
Lemma mass_mono a b : a <= b -> hacaMass a <= hacaMass b.
Proof. intros H. unfold hacaMass. pose proof massC_pos. pose proof avo_pos. apply Rmult_le_compat_l; [|lra]. apply Rlt_le. apply Rdiv_lt_0_compat; lra. Qed.

Section Present.
Context (s : state (N:=XR)) (g : gas) (soot : list R) (V : valid s g soot).
Lemma conc_pos sp : 0 < gY g sp -> 0 < conc g sp.
Proof. intros Y. destruct V as ((_ & _ & R & _) & _). unfold conc. apply Rdiv_lt_0_compat; [now apply Rmult_lt_0_compat|apply mm_pos]. Qed.
Opaque conc.
Lemma added_pos : 0 < gY g C2H2 -> 0 < gY g H_ -> 0 < addedBy g 1.
Proof.
  intros Y1 Y2. pose proof (conc_pos _ Y1) as K1. pose proof (conc_pos _ Y2) as K2. pose proof (conc_nneg _ _ _ V) as K.
  destruct (haca_terms s g soot V) as (A & B & _ & _).
  assert (H4 : 0 < haca4 g). { unfold haca4. repeat apply Rmult_lt_0_compat; try lra; try apply exp_pos. }
  assert (HU : 0 < hacaUp g). { unfold hacaUp. apply Rplus_lt_le_0_compat; [repeat apply Rmult_lt_0_compat; try lra; apply exp_pos|].
    pose proof (K OH). repeat apply Rmult_le_pos; try lra; apply Rlt_le, exp_pos. }
  assert (HD : 0 < hacaDown g). { unfold hacaDown. pose proof (K H2). pose proof (K H2O). apply Rplus_lt_le_0_compat; [|exact B]. apply Rplus_le_lt_0_compat; [|exact H4].
    repeat apply Rplus_le_le_0_compat; repeat apply Rmult_le_pos; try lra; apply Rlt_le, exp_pos. }
  unfold addedBy, hacaMass, hacaRadicals. destruct (Req_EM_T (hacaDown g) 0); [lra|]. pose proof massC_pos. pose proof avo_pos.
  assert (Q : 0 < hacaUp g / hacaDown g) by now apply Rdiv_lt_0_compat. assert (W : 0 < 2 * massC / avogadro) by (apply Rdiv_lt_0_compat; lra).
  set (q := hacaUp g / hacaDown g) in *. set (w := 2 * massC / avogadro) in *. set (h := haca4 g) in *. clearbody q w h. repeat apply Rmult_lt_0_compat; lra.
Qed.
Transparent conc.
End Present.

Lemma C81_published_ (s : state (N:=XR)) g soot v M0 M1 gr : valid s g soot -> seesMoments v soot M0 M1 -> 0 < M1 < M0 -> gr_class gr = G_HACA ->
  1800 <= gT g <= 2153 -> 10 ^ 6 <= meanAtoms M0 M1 ->
  exists r, growRate gr v s = Ok (Fin r) /\ 0 <= addedBy g (fitted (gT g) (meanAtoms M0 M1)) <= 9 / 25 * r /\ (0 < gY g C2H2 -> 0 < gY g H_ -> 0 < r).
Proof.
  intros V SM H G T N. exists (addedBy g 1). split; [eapply (C81_all_ s g soot v M0 M1 gr (newOxid O_HACA)); eauto; lra|].
  split; [|apply (added_pos s g soot V)]. pose proof (fitted_low _ _ T N) as F. destruct (haca_terms s g soot V) as (A & _). pose proof (hacaRadicals_nneg s g soot V) as B.
  set (f := fitted _ _) in *. assert (P : 0 <= haca4 g * hacaRadicals g) by now apply Rmult_le_pos. unfold addedBy. split.
  - unfold hacaMass. pose proof massC_pos. pose proof avo_pos. assert (W : 0 < 2 * massC / avogadro) by (apply Rdiv_lt_0_compat; lra).
    set (w := 2 * massC / avogadro) in *. clearbody w. apply Rmult_le_pos; [lra|]. apply Rmult_le_pos; [lra|]. apply Rmult_le_pos; lra.
  - replace (9 / 25 * hacaMass (haca4 g * hacaRadicals g * 1)) with (hacaMass (haca4 g * hacaRadicals g * (9 / 25))) by (unfold hacaMass; ring). apply mass_mono. apply Rmult_le_compat_l; [exact P|lra].
Qed.

(** ** the jump *)
Lemma hot_state t soot : 0 < t -> (forall x, In x soot -> 0 <= x) -> exists s, call (newState (length soot) 0) (argsOf (hotGas t) soot []) = SetOk s /\ valid s (hotGas t) soot.
Proof.
  intros T H. destruct (argsOf_any (newState (length soot) 0) (hotGas t) soot [] eq_refl eq_refl eq_refl) as (s & C & V & _);
    [|intros; cbn; lra|unfold pahVec, allPah; cbn [map fold_left gPah hotGas]; lra|exact H|intros ? []|exists s; auto].
  unfold okGas, hotGas. cbn [gT gP gRho gMu gCMin gY gPah]. repeat split; intros; lra.
Qed.
Definition karr (A n E t : R) : R := A * Rpower t n * exp (- E / (19872036 / 10000000000 * t)).
Lemma karr_mono A n E t t' : 0 <= A -> 0 <= n -> 0 <= E -> 0 < t <= t' -> 0 <= karr A n E t <= karr A n E t'.
Proof.
  intros HA Hn HE T. unfold karr. assert (P1 : 0 < Rpower t n) by apply exp_pos. assert (P2 : 0 < exp (- E / (19872036 / 10000000000 * t))) by apply exp_pos.
  assert (R1 : Rpower t n <= Rpower t' n) by (apply Rle_Rpower_l; lra).
  assert (R2 : exp (- E / (19872036 / 10000000000 * t)) <= exp (- E / (19872036 / 10000000000 * t'))).
  { apply exp_mono. unfold Rdiv. rewrite !(Ropp_mult_distr_l_reverse E). apply Ropp_le_contravar. apply Rmult_le_compat_l; [exact HE|]. apply Rinv_le_contravar; lra. }
  split; [repeat apply Rmult_le_pos; lra|]. apply Rmult_le_compat; try lra; [repeat apply Rmult_le_pos; lra|]. apply Rmult_le_compat_l; lra.
Qed.
Definition hc (sp : gasSp) : R := conc (hotGas 1) sp / 1000.
Lemma hc_pos sp : 0 < hc sp.
Proof. unfold hc, conc, hotGas. cbn [gRho gY]. pose proof (mm_pos sp). apply Rdiv_lt_0_compat; [|lra]. apply Rdiv_lt_0_compat; lra. Qed.
Lemma term_mono A n E t t' sp : 0 <= A -> 0 <= n -> 0 <= E -> 0 < t <= t' -> 0 <= karr A n E t * hc sp <= karr A n E t' * hc sp.
Proof. intros HA Hn HE T. pose proof (karr_mono A n E t t' HA Hn HE T). pose proof (hc_pos sp). split; [apply Rmult_le_pos; lra|apply Rmult_le_compat_r; lra]. Qed.
Lemma hot4 t t' : 0 < t <= t' -> 0 <= haca4 (hotGas t) <= haca4 (hotGas t').
Proof. intros T. exact (term_mono (8 * 10 ^ 7) (156 / 100) (38 / 10) t t' C2H2 ltac:(lra) ltac:(lra) ltac:(lra) T). Qed.
Lemma hot5 t t' : 0 < t <= t' -> 0 <= haca5 (hotGas t) <= haca5 (hotGas t').
Proof. intros T. exact (term_mono (22 * 10 ^ 11) 0 (75 / 10) t t' O2 ltac:(lra) ltac:(lra) ltac:(lra) T). Qed.
Lemma hotUp t t' : 0 < t <= t' -> 0 <= hacaUp (hotGas t) <= hacaUp (hotGas t').
Proof.
  intros T. pose proof (term_mono (42 * 10 ^ 12) 0 13 t t' H_ ltac:(lra) ltac:(lra) ltac:(lra) T) as A. pose proof (term_mono (10 ^ 10) (734 / 1000) (143 / 100) t t' OH ltac:(lra) ltac:(lra) ltac:(lra) T) as B.
  change (hacaUp (hotGas t)) with (karr (42 * 10 ^ 12) 0 13 t * hc H_ + karr (10 ^ 10) (734 / 1000) (143 / 100) t * hc OH).
  change (hacaUp (hotGas t')) with (karr (42 * 10 ^ 12) 0 13 t' * hc H_ + karr (10 ^ 10) (734 / 1000) (143 / 100) t' * hc OH). lra.
Qed.
Lemma hotDown t t' : 0 < t <= t' -> hacaDown (hotGas t) <= hacaDown (hotGas t').
Proof.
  intros T. pose proof (term_mono (39 * 10 ^ 11) 0 11 t t' H2 ltac:(lra) ltac:(lra) ltac:(lra) T) as A. pose proof (term_mono (368 * 10 ^ 6) (1139 / 1000) (171 / 10) t t' H2O ltac:(lra) ltac:(lra) ltac:(lra) T) as B.
  pose proof (hot4 t t' T). pose proof (hot5 t t' T).
  change (hacaDown (hotGas t)) with (karr (39 * 10 ^ 11) 0 11 t * hc H2 + karr (368 * 10 ^ 6) (1139 / 1000) (171 / 10) t * hc H2O + 2 * 10 ^ 13 * hc H_ + haca4 (hotGas t) + haca5 (hotGas t)).
  change (hacaDown (hotGas t')) with (karr (39 * 10 ^ 11) 0 11 t' * hc H2 + karr (368 * 10 ^ 6) (1139 / 1000) (171 / 10) t' * hc H2O + 2 * 10 ^ 13 * hc H_ + haca4 (hotGas t') + haca5 (hotGas t')). lra.
Qed.
Lemma hot_facts t : 0 < t -> 0 < haca4 (hotGas t) /\ 0 < hacaUp (hotGas t) /\ 0 < hacaDown (hotGas t).
Proof.
  intros T. assert (P : forall A n E sp, 0 < A -> 0 < karr A n E t * hc sp). { intros A n E sp HA. apply Rmult_lt_0_compat; [|apply hc_pos]. unfold karr. repeat apply Rmult_lt_0_compat; try lra; apply exp_pos. }
  pose proof (P (8 * 10 ^ 7) (156 / 100) (38 / 10) C2H2 ltac:(lra)) as P1. pose proof (P (42 * 10 ^ 12) 0 13 H_ ltac:(lra)) as P2. pose proof (P (10 ^ 10) (734 / 1000) (143 / 100) OH ltac:(lra)) as P3.
  pose proof (P (39 * 10 ^ 11) 0 11 H2 ltac:(lra)) as P4. pose proof (P (368 * 10 ^ 6) (1139 / 1000) (171 / 10) H2O ltac:(lra)) as P5. pose proof (hc_pos H_) as P6. destruct (hot5 t t ltac:(lra)) as [P7 _].
  change (0 < haca4 (hotGas t)) in P1. split; [exact P1|]. split.
  - change (hacaUp (hotGas t)) with (karr (42 * 10 ^ 12) 0 13 t * hc H_ + karr (10 ^ 10) (734 / 1000) (143 / 100) t * hc OH). lra.
  - change (hacaDown (hotGas t)) with (karr (39 * 10 ^ 11) 0 11 t * hc H2 + karr (368 * 10 ^ 6) (1139 / 1000) (171 / 10) t * hc H2O + 2 * 10 ^ 13 * hc H_ + haca4 (hotGas t) + haca5 (hotGas t)). lra.
Qed.
Definition floor_ : R := hacaMass (haca4 (hotGas 2153) * (hacaUp (hotGas 2153) / hacaDown (hotGas 2303) * (2 * (23 * 10 ^ 14)))).
Lemma floor_pos : 0 < floor_.
Proof.
  destruct (hot_facts 2153 ltac:(lra)) as (A & B & _). destruct (hot_facts 2303 ltac:(lra)) as (_ & _ & C). unfold floor_, hacaMass. pose proof massC_pos. pose proof avo_pos.
  assert (W : 0 < 2 * massC / avogadro) by (apply Rdiv_lt_0_compat; lra). assert (Q : 0 < hacaUp (hotGas 2153) / hacaDown (hotGas 2303)) by now apply Rdiv_lt_0_compat.
  set (q := hacaUp (hotGas 2153) / hacaDown (hotGas 2303)) in *. set (w := 2 * massC / avogadro) in *. set (h := haca4 (hotGas 2153)) in *. clearbody q w h. repeat apply Rmult_lt_0_compat; lra.
Qed.
Lemma floor_le t : 2153 <= t <= 2303 -> floor_ <= addedBy (hotGas t) 1.
Proof.
  intros T. destruct (hot_facts t ltac:(lra)) as (_ & _ & D). pose proof (hot4 2153 t ltac:(lra)) as A. pose proof (hotUp 2153 t ltac:(lra)) as B. pose proof (hotDown t 2303 ltac:(lra)) as C.
  unfold floor_, addedBy. apply mass_mono. unfold hacaRadicals. destruct (Req_EM_T (hacaDown (hotGas t)) 0); [lra|]. rewrite Rmult_1_r.
  assert (I : 0 < / hacaDown (hotGas 2303)) by (apply Rinv_0_lt_compat; lra). assert (I' : / hacaDown (hotGas 2303) <= / hacaDown (hotGas t)) by (apply Rinv_le_contravar; lra).
  assert (Q : 0 <= hacaUp (hotGas 2153) / hacaDown (hotGas 2303) <= hacaUp (hotGas t) / hacaDown (hotGas t)) by (split; [apply Rmult_le_pos; lra|apply Rmult_le_compat; lra]).
  apply Rmult_le_compat; try lra.
Qed.

Lemma C81_jump_ : exists c, 0 < c /\ forall M0 M1 d, 0 < M1 < M0 -> 0 < d ->
  exists t t' (s s' : state (N:=XR)), Rabs (t - t') < d /\
    call (newState 2 0) (argsOf (hotGas t) [M0; M1] []) = SetOk s /\ call (newState 2 0) (argsOf (hotGas t') [M0; M1] []) = SetOk s' /\
    valid s (hotGas t) [M0; M1] /\ valid s' (hotGas t') [M0; M1] /\
    forall v, sv_psd v <> P_SECT -> exists r, growRate (newGrow G_HACA) v s = Ok (Fin r) /\ c <= r /\ growRate (newGrow G_HACA) v s' = Ok (Fin 0).
Proof.
  exists floor_. split; [exact floor_pos|]. intros M0 M1 d H D. pose proof (switch_bounds (M1 / M0) (log_neg M0 M1 H)) as B. set (T := switchT (M1 / M0)) in *.
  set (t := Rmax 2153 (T - d / 2)). assert (Ht : 2153 <= t < T /\ T - t < d). { unfold t. split; [split; [apply Rmax_l|apply Rmax_lub_lt; lra]|]. pose proof (Rmax_r 2153 (T - d / 2)). lra. }
  assert (IN : forall x, In x [M0; M1] -> 0 <= x) by (intros x [<-|[<-|[]]]; lra).
  destruct (hot_state t [M0; M1] ltac:(lra) IN) as (s & C & V). destruct (hot_state T [M0; M1] ltac:(lra) IN) as (s' & C' & V').
  exists t, T, s, s'. split; [rewrite Rabs_left; lra|]. split; [exact C|]. split; [exact C'|]. split; [exact V|]. split; [exact V'|]. intros v Hv.
  assert (SM : seesMoments v [M0; M1] M0 M1) by (left; auto). exists (addedBy (hotGas t) 1).
  destruct (C81_switch_ s _ _ v M0 M1 (newGrow G_HACA) (newOxid O_HACA) V SM H eq_refl eq_refl) as (_ & E & _). destruct (C81_switch_ s' _ _ v M0 M1 (newGrow G_HACA) (newOxid O_HACA) V' SM H eq_refl eq_refl) as (_ & _ & E').
  split; [apply E; cbn [gT hotGas]; fold T; lra|]. split; [apply floor_le; lra|]. apply E'. reflexivity.
Qed.

(** ** a case: particles of 10^-19 kg *)
Lemma C81_case_ : exists (m : model (N:=XR)) s, constructEnum P_MONO 2 N_LL G_HACA O_HACA C_FM 0 T_NONE (nZ 2) 100 = Ok m /\
  call (newState 2 0) (argsOf (hotGas 1900) [10 ^ 15; / 10 ^ 4] []) = SetOk s /\ valid s (hotGas 1900) [10 ^ 15; / 10 ^ 4] /\
  seesMoments (viewOf m) [10 ^ 15; / 10 ^ 4] (10 ^ 15) (/ 10 ^ 4) /\ 0 < / 10 ^ 4 < 10 ^ 15 /\ 1800 <= gT (hotGas 1900) <= 2153 /\ 10 ^ 6 <= meanAtoms (10 ^ 15) (/ 10 ^ 4) /\
  0 < gY (hotGas 1900) C2H2 /\ 0 < gY (hotGas 1900) H_.
Proof.
  assert (IN : forall x, In x [10 ^ 15; / 10 ^ 4] -> 0 <= x) by (intros x [<-|[<-|[]]]; lra).
  destruct (hot_state 1900 [10 ^ 15; / 10 ^ 4] ltac:(lra) IN) as (s & C & V).
  destruct (constructEnum (N:=XR) P_MONO 2 N_LL G_HACA O_HACA C_FM 0 T_NONE (nZ 2) 100) as [m| |] eqn:E; try discriminate. destruct (built _ _ _ _ _ _ _ _ _ _ _ E) as (_ & Hp & _).
  exists m, s. split; [reflexivity|]. split; [exact C|]. split; [exact V|]. split; [apply sees_moment; rewrite Hp; discriminate|]. split; [lra|]. cbn [gT gY hotGas]. split; [lra|]. split; [|lra].
  Transparent avogadro massC. unfold meanAtoms, massC, avogadro. change (602214076 * 10 ^ 18)%Z with 602214076000000000000000000%Z. lra.
Qed.
