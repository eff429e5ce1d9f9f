(** The direction of AJ_RED tar cracking (C93). *)
From Coq Require Import ZArith List Bool Reals Lra Lia.
From Verif Require Import Num Defs State Coag Nucl Growth Oxid Tar SootModel Mono Qmom Calls XR XRLemmas NumLaws
  SpecChem SpecCoag SpecValid SpecRates SpecGas SpecTar SpecPah SpecPsd CoagProofs StateXR ValidProofs InterpProofs GasProofs MiscProofs RateProofs PsdProofs MonoProofs MonoTar.
Import ListNotations.
Local Open Scope R_scope.

Lemma tanh_gt x : -1 < tanh x.
Proof. pose proof (tanh_lt1 (- x)) as H. unfold tanh in *. unfold sinh, cosh in *. rewrite Ropp_involutive in H.
  replace ((exp (- x) - exp x) / 2 / ((exp (- x) + exp x) / 2)) with (- ((exp x - exp (- x)) / 2 / ((exp x + exp (- x)) / 2))) in H.
  - lra.
  - pose proof (exp_pos x). pose proof (exp_pos (- x)). field. lra.
Qed.

Section Constant.
Local Transparent avogadro boltzmann.
Lemma gasR : 0 < avogadro * boltzmann <= 83145 / 10.
Proof.
  unfold avogadro, boltzmann. change (602214076 * 10 ^ 18)%Z with 602214076000000000000000000%Z.
  change (10 ^ 29)%Z with 100000000000000000000000000000%Z. split; lra.
Qed.
End Constant.

(** the hot factor: ratio of the two rate constants *)
Definition hot (t : R) : R := exp (- IZR (12 * 10 ^ 7) / (avogadro * boltzmann * t)).
Definition bracket (t cl : R) : R :=
  (311 / 10 / 94 * IZR (10 ^ 7) + IZR (10 ^ 8)) * phenol0 cl + IZR (44 * 10 ^ 7) * hot t * benzene0 t cl.

Lemma reduced_form t n0 : 0 < t ->
  crackingReduced t n0 = n0 * exp (- IZR (10 ^ 8) / (avogadro * boltzmann * t)) * bracket t (tarLog n0).
Proof.
  intros Ht. unfold crackingReduced, bracket, hot, arrhenius.
  assert (A : 0 < avogadro * boltzmann * t) by (apply Rmult_lt_0_compat; [apply gasR|exact Ht]).
  replace (- IZR (22 * 10 ^ 7) / (avogadro * boltzmann * t))
    with (- IZR (10 ^ 8) / (avogadro * boltzmann * t) + - IZR (12 * 10 ^ 7) / (avogadro * boltzmann * t)).
  - rewrite exp_plus. ring.
  - change (22 * 10 ^ 7)%Z with (10 ^ 8 + 12 * 10 ^ 7)%Z. rewrite plus_IZR. pose proof avo_pos. pose proof boltz_pos. field. repeat split; lra.
Qed.

Lemma hot_bound t : 0 < t <= 2500 -> 0 < hot t <= 1 / 228.
Proof.
  intros [Ht Hu]. unfold hot. split; [apply exp_pos|].
  assert (A : 0 < avogadro * boltzmann * t) by (apply Rmult_lt_0_compat; [apply gasR|exact Ht]).
  assert (B : avogadro * boltzmann * t <= 20787000) by (clear A; pose proof gasR as G; set (r := avogadro * boltzmann) in *; clearbody r; nra).
  assert (C : 57 / 10 <= IZR (12 * 10 ^ 7) / (avogadro * boltzmann * t)).
  { change (12 * 10 ^ 7)%Z with 120000000%Z. set (r := avogadro * boltzmann * t) in *. clearbody r.
    apply (Rmult_le_reg_r r); auto. replace (120000000 / r * r) with 120000000 by (field; lra). lra. }
  replace (- IZR (12 * 10 ^ 7) / (avogadro * boltzmann * t)) with (- (IZR (12 * 10 ^ 7) / (avogadro * boltzmann * t))) by (unfold Rdiv; ring).
  rewrite exp_Ropp. replace (1 / 228) with (/ 228) by lra. apply Rinv_le_contravar; [lra|].
  apply Rle_trans with (exp (57 / 10)).
  - replace (57 / 10) with (INR 57 * (1 / 10)) by (rewrite INR_IZR_INZ; cbn; lra).
    assert (P : forall n x, exp (INR n * x) = exp x ^ n).
    { induction n as [|n IH]; intros x; [cbn [INR pow]; rewrite Rmult_0_l; apply exp_0|].
      rewrite S_INR, Rmult_plus_distr_r, Rmult_1_l, exp_plus, IH. cbn [pow]. ring. }
    rewrite P. apply Rle_trans with ((11 / 10) ^ 57); [lra|]. apply pow_incr. pose proof (exp_ineq1 (1 / 10)). lra.
  - destruct (Rle_lt_or_eq_dec _ _ C) as [K| <-]; [left; now apply exp_increasing|right; reflexivity].
Qed.

Lemma creates_bracket t cl : 0 < t <= 2500 -> 0 <= cl <= 5 -> bracket t cl < 0.
Proof.
  intros Ht Hc. pose proof (hot_bound t Ht) as (H1 & H2). unfold bracket.
  assert (B : benzene0 t cl <= 3).
  { unfold benzene0, phenol0, naphthalene, toluene0.
    match goal with |- context[tanh ?a] => pose proof (tanh_gt a); generalize dependent (tanh a); intros th Hth end.
    assert (0 <= cl * t) by (apply Rmult_le_pos; lra). assert (t * t <= 2500 * t) by nra. assert (cl * t <= 5 * t) by nra. assert (cl * cl <= 5 * cl) by nra. nra. }
  change (IZR (10 ^ 7)) with 10000000. change (IZR (10 ^ 8)) with 100000000. change (IZR (44 * 10 ^ 7)) with 440000000.
  unfold phenol0. assert (hot t * benzene0 t cl <= 3 / 228) by nra. nra.
Qed.
Lemma consumes_bracket t cl : 0 < t <= 2500 -> 9 <= cl <= 25 -> 0 < bracket t cl.
Proof.
  intros Ht Hc. pose proof (hot_bound t Ht) as (H1 & H2). unfold bracket.
  assert (B : -1 <= benzene0 t cl).
  { unfold benzene0, phenol0, naphthalene, toluene0.
    match goal with |- context[tanh ?a] => pose proof (tanh_lt1 a); generalize dependent (tanh a); intros th Hth end.
    assert (0 <= cl * t) by (apply Rmult_le_pos; lra). assert (0 <= t * t) by nra. assert (0 <= cl * cl) by nra.
    lra. }
  change (IZR (10 ^ 7)) with 10000000. change (IZR (10 ^ 8)) with 100000000. change (IZR (44 * 10 ^ 7)) with 440000000.
  unfold phenol0. assert (- (1 / 228) <= hot t * benzene0 t cl) by nra. nra.
Qed.

Lemma ln10_pos : 0 < ln 10. Proof. rewrite <- ln_1. apply ln_increasing; lra. Qed.
Lemma tarLog_pow10 n : tarLog (10 ^ n) = INR n.
Proof.
  unfold tarLog. destruct (Rlt_dec 0 (10 ^ n)) as [K|K]; [|exfalso; apply K, pow_lt; lra].
  rewrite <- Rpower_pow by lra. unfold Rpower. rewrite ln_exp. field. pose proof ln10_pos. lra.
Qed.
Lemma tarLog_mono x y : 0 < x -> x <= y -> tarLog x <= tarLog y.
Proof.
  intros Hx Hy. unfold tarLog. destruct (Rlt_dec 0 x); [|lra]. destruct (Rlt_dec 0 y); [|lra].
  apply Rmult_le_compat_r; [left; apply Rinv_0_lt_compat, ln10_pos|].
  destruct (Rle_lt_or_eq_dec _ _ Hy) as [K| <-]; [left; now apply ln_increasing|lra].
Qed.
Lemma tarLog_power c : tarLog (Rpower 10 c) = c.
Proof.
  unfold tarLog. destruct (Rlt_dec 0 (Rpower 10 c)) as [K|K]; [|exfalso; apply K, exp_pos].
  unfold Rpower. rewrite ln_exp. field. pose proof ln10_pos. lra.
Qed.

Lemma creates_l t n0 : 0 < t <= 2500 -> 1 <= n0 <= 10 ^ 5 -> crackingReduced t n0 < 0.
Proof.
  intros Ht [H1 H2]. rewrite reduced_form by tauto.
  assert (B : bracket t (tarLog n0) < 0).
  { apply creates_bracket; [exact Ht|]. split.
    - replace 0 with (tarLog (10 ^ 0)) by (rewrite tarLog_pow10; reflexivity). apply tarLog_mono; cbn; lra.
    - replace 5 with (tarLog (10 ^ 5)) by (rewrite tarLog_pow10, INR_IZR_INZ; reflexivity). apply tarLog_mono; lra. }
  pose proof (exp_pos (- IZR (10 ^ 8) / (avogadro * boltzmann * t))) as P.
  assert (Q : 0 < n0 * exp (- IZR (10 ^ 8) / (avogadro * boltzmann * t))) by (apply Rmult_lt_0_compat; lra).
  set (e := n0 * _) in *. clearbody e. nra.
Qed.
Lemma consumes_l t n0 : 0 < t <= 2500 -> 10 ^ 9 <= n0 <= 10 ^ 25 -> 0 < crackingReduced t n0.
Proof.
  intros Ht [H1 H2]. rewrite reduced_form by tauto.
  assert (0 < n0) by lra.
  apply Rmult_lt_0_compat.
  - apply Rmult_lt_0_compat; [lra|apply exp_pos].
  - apply consumes_bracket; [exact Ht|]. split.
    + replace 9 with (tarLog (10 ^ 9)) by (rewrite tarLog_pow10, INR_IZR_INZ; reflexivity). apply tarLog_mono; lra.
    + replace 25 with (tarLog (10 ^ 25)) by (rewrite tarLog_pow10, INR_IZR_INZ; reflexivity). apply tarLog_mono; lra.
Qed.

Lemma continuity_pt_ext (f h : R -> R) x : (forall y, f y = h y) -> continuity_pt f x -> continuity_pt h x.
Proof. intros E H e He. destruct (H e He) as (d & Hd & K). exists d. split; [exact Hd|]. intros y Hy. rewrite <- !E. now apply K. Qed.
Lemma bracket_cont t : continuity (bracket t).
Proof.
  unfold bracket, benzene0, phenol0, naphthalene, toluene0, tanh.
  intros c.
  set (u := fun c => - (198 / 100) + 618 / 1000000 * t + 124 / 1000 * c - 285 / 100000 * c * c
                + 414 / 1000000000 * t * t - 497 / 10000000 * t * c).
  set (w := fun x => sinh x / cosh x).
  assert (Cu : continuity u) by (unfold u; intros x; reg).
  assert (Cw : continuity w).
  { intros x. unfold w. apply (continuity_pt_div sinh cosh).
    - apply derivable_continuous_pt, derivable_pt_sinh.
    - apply derivable_continuous_pt, derivable_pt_cosh.
    - unfold cosh. pose proof (exp_pos x). pose proof (exp_pos (- x)). lra. }
  assert (Cz : continuity (comp w u)) by (apply continuity_comp; assumption).
  set (z := comp w u) in *.
  change (continuity_pt (fun cl => (311 / 10 / 94 * IZR (10 ^ 7) + IZR (10 ^ 8)) * (277 / 10000 * cl - 218 / 1000)
    + IZR (44 * 10 ^ 7) * hot t * (1 - (277 / 10000 * cl - 218 / 1000)
        - (1 / 2 * z cl - 576 / 1000 + 233 / 1000000 * t - 169 / 1000000000 * t * t)
        - (265 / 1000000 * t - cl * (111 / 1000000 * cl + 932 / 100000000 * t)))) c).
  assert (Ez : continuity_pt z c) by apply Cz.
  clearbody z. 
  apply (continuity_pt_ext (plus_fct (fun cl => (311 / 10 / 94 * IZR (10 ^ 7) + IZR (10 ^ 8)) * (277 / 10000 * cl - 218 / 1000)
     + IZR (44 * 10 ^ 7) * hot t * (1 - (277 / 10000 * cl - 218 / 1000)
        - (- (576 / 1000) + 233 / 1000000 * t - 169 / 1000000000 * t * t)
        - (265 / 1000000 * t - cl * (111 / 1000000 * cl + 932 / 100000000 * t))))
     (mult_real_fct (- (1 / 2) * IZR (44 * 10 ^ 7) * hot t) z))).
  - intros x. unfold plus_fct, mult_real_fct. ring.
  - apply continuity_pt_plus; [|now apply continuity_pt_scal]. reg.
Qed.

Lemma balance_l t : 0 < t <= 2500 -> exists n0, 10 ^ 5 < n0 < 10 ^ 9 /\ crackingReduced t n0 = 0.
Proof.
  intros Ht.
  destruct (IVT (bracket t) 5 9 (bracket_cont t)) as (c & (C1 & C2) & E).
  - lra.
  - apply creates_bracket; [exact Ht|lra].
  - apply consumes_bracket; [exact Ht|lra].
  - exists (Rpower 10 c).
    assert (N5 : c <> 5) by (intros ->; pose proof (creates_bracket t 5 Ht); lra).
    assert (N9 : c <> 9) by (intros ->; pose proof (consumes_bracket t 9 Ht); lra).
    split; [|rewrite reduced_form by tauto; rewrite tarLog_power, E; ring].
    rewrite <- !Rpower_pow by lra. rewrite !INR_IZR_INZ. cbn [Z.of_nat Pos.of_succ_nat Pos.succ].
    split; apply Rpower_lt; lra.
Qed.

(** the rates as the mechanism returns them *)
Section Rate.
Context (s : state (N:=XR)) (g : gas) (soot : list R) (V : valid s g soot).
Context (n0 : R) (tr : list xr) (Et : tarVar s = Fin n0 :: tr).
Lemma creates_rate : gT g <= 2500 -> 1 <= n0 <= 10 ^ 5 -> exists r, crackRate (newTar T_AJ_RED) s = Ok (Fin r) /\ r < 0.
Proof. intros HT Hn. eexists. split; [exact (crackAJ_val s g soot V n0 tr Et)|]. apply creates_l; [split; [exact (v_Tpos _ _ _ V)|exact HT]|exact Hn]. Qed.
Lemma consumes_rate : gT g <= 2500 -> 10 ^ 9 <= n0 <= 10 ^ 25 -> exists r, crackRate (newTar T_AJ_RED) s = Ok (Fin r) /\ 0 < r.
Proof. intros HT Hn. eexists. split; [exact (crackAJ_val s g soot V n0 tr Et)|]. apply consumes_l; [split; [exact (v_Tpos _ _ _ V)|exact HT]|exact Hn]. Qed.
End Rate.

(** *** the whole call without soot *)
Lemma reactions_0 k sp : reactions k 0 0 0 sp = 0.
Proof.
  assert (R0 : forall a b, reacts a b 0 sp = 0) by (intros a b; unfold reacts, Rdiv; ring).
  unfold reactions, nuclGas, growGas, oxidGas, viaAcetylene. destruct (mN k), (mG k), (mO k); rewrite ?R0; ring.
Qed.

Lemma depo_none (s : state (N:=XR)) g mt n0 tr : valid s g [0; 0] -> mtar s = Fin mt -> tarVar s = Fin n0 :: tr ->
  depoRate (newTar T_AJ_RED) s = Ok (Fin 0).
Proof.
  intros V Em Et. unfold depoRate. cbn [ta_class newTar]. unfold depoAJ_RED. rewrite Et, (v_soot _ _ _ V). cbn [map vget nth_error bind].
  f_equal. change (@nltb XR) with xltb. change (@nZ XR 0) with (Fin 0). unfold xltb.
  destruct (Rlt_dec 0 0) as [Q|Q]; [lra|]. xsimp. f_equal. ring.
Qed.
Lemma gasify_none g : gY g CO2 = 0 -> gY g H2O = 0 -> tarGasify g = 0.
Proof.
  intros A B. unfold tarGasify, partialP, conc. rewrite A, B.
  replace (gRho g * 0 / molarMass CO2 * (avogadro * boltzmann * gT g)) with 0 by (unfold Rdiv; ring).
  replace (gRho g * 0 / molarMass H2O * (avogadro * boltzmann * gT g)) with 0 by (unfold Rdiv; ring).
  unfold pow0. destruct (Rlt_dec 0 0); [lra|]. rewrite sqrt_0. unfold Rdiv. ring.
Qed.

Lemma aj_alone (m : model (N:=XR)) s g k w x mt n0 ts0 st eig :
  sm_psd m = P_MONO -> hasMechs m k -> okAny k -> mN k = N_NONE -> valid s g [0; 0] -> regular k g 0 0 ->
  wts s = [Fin w] -> absc s = [Fin x] -> 0 < mt -> mtar s = Fin mt -> tarVar s = [Fin n0] ->
  tarSources (sm_sources m) = [Fin ts0] -> sm_tar m = newTar T_AJ_RED -> gY g CO2 = 0 -> gY g H2O = 0 ->
  exists m' s' z, setSourceTerms st eig m s = Ok (st, m', s') /\
    soots m' = [z; Fin 0] /\ holdsGas (gases m') (fun _ => 0) /\ tarSources (sm_sources m') = [Fin (- crackingReduced (gT g) n0)].
Proof.
  intros Hp HM OM HN V RG EW EA Pm Em Et Es HT Y1 Y2.
  pose proof (gasify_none g Y1 Y2) as G0.
  assert (V' : valid (with_wa s [Fin w] [Fin x]) g [0; 0]) by exact V.
  assert (S0 : surface 0 0 = 0) by (unfold surface; repeat destruct (Rlt_dec _ _); try lra; ring).
  assert (J0 : nuclTar (mN k) g mt n0 = 0) by (rewrite HN; reflexivity).
  eexists. eexists. eexists. split; [|split; [|split]].
  - unfold setSourceTerms. rewrite Hp. unfold setSourceTermsMONO.
    rewrite (v_soot _ _ _ V). cbn [map vget nth_error bind]. rewrite (monoSetWA_val s 0 0 w x [] [] EW EA).
    destruct (Rlt_dec 0 0) as [Q|Q]; [lra|]. cbn [bind].
    rewrite HT. cbn [newTar ta_mech].
    change (tarVar (with_wa s [Fin w] [Fin x])) with (tarVar s). rewrite Et. cbn [vget nth_error bind].
    pose proof (terms_tar m s g k 0 0 w x [] [] mt n0 [] Hp HM OM V RG Pm Em Et) as TT.
    destruct (Rlt_dec 0 0) as [Q'|_]; [lra|]. rewrite J0 in TT. rewrite TT. cbn [bind].
    unfold monoTarTerms. rewrite HT. cbn [ta_mech newTar].
    change (mkTar T_AJ_RED T_AJ_RED) with (newTar T_AJ_RED).
    rewrite (crackAJ_val _ g _ V' n0 [] Et), (gasifyAJ_val _ g _ V'), (depo_none _ g mt n0 [] V' Em Et), G0.
    cbn [bind]. change (mtar (with_wa s [Fin w] [Fin x])) with (mtar s). rewrite Em, Es. unfold vset. cbn [length Nat.ltb Nat.leb bind upd]. reflexivity.
  - unfold soots, finish, monoT, setTarSources. cbn [sm_sources with_sources sootSources mt_N0 mt_C0 mt_N1 mt_Cnd1 mt_G1 mt_X1 mt_A].
    rewrite S0. apply f_equal2; [reflexivity|]. xsimp. apply f_equal2; [f_equal; ring|reflexivity].
  - assert (RZ : forall sp, reactions k (0 * nucMass g) (kgrow k g 0 0 * surface 0 0) (koxid k g 0 0 * surface 0 0) sp = 0)
      by (intros sp; rewrite S0, !Rmult_0_l, !Rmult_0_r; apply reactions_0).
    assert (HG : forall l, holdsGas l (reactions k (0 * nucMass g) (kgrow k g 0 0 * surface 0 0) (koxid k g 0 0 * surface 0 0)) -> holdsGas l (fun _ => 0)).
    { intros l (A & B). split; [exact A|]. intros sp. rewrite (B sp), (RZ sp). reflexivity. }
    apply HG. exact (mono_gas m k _ _ _ HM OM).
  - unfold tarred, finish, monoT, setTarSources. cbn [sm_sources with_sources sootSources tarSources mt_N0 mt_C0 mt_N1 mt_Cnd1 mt_G1 mt_X1 mt_A].
    rewrite S0. xsimp. apply f_equal2; [f_equal; ring|]. reflexivity.
Qed.
