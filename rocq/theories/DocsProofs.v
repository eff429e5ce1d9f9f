(** Lemmas for C83. *)
From Coq Require Import ZArith List Bool Reals Lra Lia.
From Verif Require Import Num Defs State Coag Nucl Growth Oxid SootModel Qmom Calls XR XRLemmas SpecChem SpecCoag SpecValid SpecRates SpecGas SpecState SpecPah SpecPsd SpecSites SpecDocs
  CoagProofs MiscProofs ValidProofs RateProofs PsdProofs PahProofs PahMain MonoProofs MonoMain MonoCases RichProofs HeatProofs HeatCases ContProofs SitesProofs.
Import ListNotations.
Local Open Scope R_scope.

Lemma sqrtR x : 0 < x -> sqrt x = Rpower x (1 / 2).
Proof. intros H. rewrite <- Rpower_sqrt by exact H. f_equal. lra. Qed.

(** ** growth *)
Lemma factor_surface M0 M1 : 0 < M0 -> 0 < M1 -> docSurfaceFactor M0 M1 = sqrt (surface M0 M1).
Proof.
  intros P0 P1. unfold docSurfaceFactor. pose proof massC_pos as PM. pose proof piC_pos as PP. assert (PS : 0 < piC * sootDensity) by (unfold sootDensity; lra).
  rewrite surface_pow by exact P0. unfold pow0. set (q := piC * sootDensity) in *. clearbody q.
  assert (PX : 0 < 6 * (M1 / M0) / q) by (repeat apply Rdiv_lt_0_compat; try lra; apply Rmult_lt_0_compat; [lra|apply Rdiv_lt_0_compat; lra]).
  destruct (Rlt_dec 0 (6 * (M1 / M0) / q)); [|lra].
  assert (PY : 0 < 6 * massC / q) by (apply Rdiv_lt_0_compat; lra). assert (PZ : 0 < M1 / massC) by (apply Rdiv_lt_0_compat; lra).
  rewrite !sqrtR by (repeat apply Rmult_lt_0_compat; try lra; apply exp_pos).
  rewrite <- !Rpower_mult_distr by (repeat apply Rmult_lt_0_compat; try lra; apply exp_pos).
  rewrite !Rpower_mult. replace (2 / 3 * (1 / 2)) with (1 / 3) by lra.
  assert (E : Rpower (6 * massC / q) (1 / 3) * Rpower (M1 / massC) (1 / 3) = Rpower M0 (1 / 3) * Rpower (6 * (M1 / M0) / q) (1 / 3)).
  { rewrite !Rpower_mult_distr by assumption. f_equal. field. lra. }
  replace (Rpower piC (1 / 2) * Rpower (6 * massC / q) (1 / 3) * Rpower (M1 / massC) (1 / 3) * Rpower M0 (1 / 6))
    with (Rpower piC (1 / 2) * (Rpower (6 * massC / q) (1 / 3) * Rpower (M1 / massC) (1 / 3)) * Rpower M0 (1 / 6)) by ring.
  rewrite E. assert (E2 : Rpower M0 (1 / 2) = Rpower M0 (1 / 3) * Rpower M0 (1 / 6)) by (rewrite <- Rpower_plus; f_equal; lra).
  rewrite E2. ring.
Qed.
Lemma surface_positive M0 M1 : 0 < M0 -> 0 < M1 -> 0 < surface M0 M1.
Proof.
  intros P0 P1. unfold surface. destruct (Rlt_dec 0 M0); [|lra]. destruct (Rlt_dec 0 M1); [|lra]. pose proof piC_pos. pose proof (diam_pos (M1 / M0)).
  apply Rmult_lt_0_compat; [lra|]. apply Rmult_lt_0_compat; [lra|]. apply pow_lt; lra.
Qed.
Section S.
Context (s : state (N:=XR)) (g : gas) (soot : list R) (V : valid s g soot).
Let Ht := v_Tpos _ _ _ V.

Lemma C83_ll_ v M0 M1 gr : seesMoments v soot M0 M1 -> 0 < M0 -> 0 < M1 -> gr_class gr = G_LL ->
  exists r, growRate gr v s = Ok (Fin r) /\ 2 * massC * docGrowLL g M0 M1 = 10 * exp (- 9000 / gT g) * (r * surface M0 M1) /\
    (0 < gY g C2H2 -> gT g <= 3600 -> 2 * massC * docGrowLL g M0 M1 < r * surface M0 M1).
Proof.
  intros SM P0 P1 E. rewrite (grow_formula s g soot V gr v M0 M1 SM) by (rewrite E; discriminate). rewrite E. cbn [growFormula].
  pose proof (surface_positive M0 M1 P0 P1) as PA. destruct (Rlt_dec 0 (surface M0 M1)); [|lra]. eexists. split; [reflexivity|].
  unfold docGrowLL. rewrite factor_surface by assumption. set (A := surface M0 M1) in *. clearbody A.
  pose proof (sqrt_lt_R0 A PA) as S0. assert (S1 : A = sqrt A * sqrt A) by (symmetry; apply sqrt_sqrt; lra).
  pose proof massC_pos as PM.
  assert (EE : exp (- 21100 / gT g) = exp (- 9000 / gT g) * exp (- 12100 / gT g)) by (rewrite <- exp_plus; f_equal; field; lra).
  assert (EQ : 2 * massC * (6 / 10 * 10 ^ 4 * exp (- 21100 / gT g) * sqrt A * conc g C2H2) =
    10 * exp (- 9000 / gT g) * (600 * exp (- 12100 / gT g) * conc g C2H2 / sqrt A * (2 * massC) * A)).
  { rewrite EE. rewrite S1 at 3. field. lra. }
  split; [exact EQ|]. intros PY PT. rewrite EQ.
  assert (PC : 0 < conc g C2H2) by (eapply conc_pos; eauto).
  assert (H : 10 * exp (- 9000 / gT g) < 1).
  { replace (- 9000 / gT g) with (- (9000 / gT g)) by (field; lra).
    pose proof (exp_neg_hi 10 (9000 / gT g)) as K. assert (L : INR 10 / 4 <= 9000 / gT g).
    { apply Rmult_le_reg_r with (gT g); [lra|]. replace (9000 / gT g * gT g) with 9000 by (field; lra). simpl. lra. }
    specialize (K L). assert (B : / (12839 / 10000) ^ 10 < 1 / 10) by (simpl; lra). lra. }
  set (W := 600 * exp (- 12100 / gT g) * conc g C2H2 / sqrt A * (2 * massC) * A) in *.
  assert (PW : 0 < W).
  { unfold W. pose proof (exp_pos (- 12100 / gT g)). set (c := conc g C2H2) in *. clearbody c. set (mc := massC) in *. clearbody mc.
    apply Rmult_lt_0_compat; [|lra]. apply Rmult_lt_0_compat; [|lra]. apply Rdiv_lt_0_compat; [|lra]. apply Rmult_lt_0_compat; [|lra]. lra. }
  clearbody W. pose proof (exp_pos (- 9000 / gT g)). nra.
Qed.
Lemma pi_near : 314 / 100 < piC < 315 / 100.
Proof. Local Transparent piC. unfold piC. Local Opaque piC. lra. Qed.
Lemma sphere_small m : 0 < m <= 1 -> 0 < sphere m < 1.
Proof.
  intros H. unfold sphere. destruct (Rlt_dec 0 m); [|lra]. pose proof piC_pos as PP. pose proof (diam_pos m) as D.
  split; [apply Rmult_lt_0_compat; [lra|apply pow_lt; lra]|].
  pose proof pi_near as PI.
  assert (PS : 0 < piC * sootDensity) by (unfold sootDensity; lra).
  assert (DB : diam m <= 1 / 8).
  { apply Rle_trans with (Rpower ((1 / 8) ^ 3) (1 / 3)).
    - unfold diam. apply Rle_Rpower_l; [lra|]. split; [apply Rdiv_lt_0_compat; lra|].
      apply Rmult_le_reg_r with (piC * sootDensity); [exact PS|]. replace (6 * m / (piC * sootDensity) * (piC * sootDensity)) with (6 * m) by (unfold sootDensity; field; lra).
      unfold sootDensity. lra.
    - rewrite <- (Rpower_pow 3) by lra. rewrite Rpower_mult. replace (INR 3 * (1 / 3)) with 1 by (simpl; lra). rewrite Rpower_1 by lra. lra. }
  assert (diam m ^ 2 <= 1 / 64) by nra. nra.
Qed.
Lemma C83_lin_ v M0 M1 gr : seesMoments v soot M0 M1 -> 0 < M1 <= M0 -> gr_class gr = G_LIN ->
  exists r, growRate gr v s = Ok (Fin r) /\ r * surface M0 M1 = docGrowLIN g M0 * sphere (M1 / M0) /\ 0 < sphere (M1 / M0) < 1 /\
    (0 < gY g C2H2 -> r * surface M0 M1 < docGrowLIN g M0).
Proof.
  intros SM P E. rewrite (grow_formula s g soot V gr v M0 M1 SM) by (rewrite E; discriminate). rewrite E. cbn [growFormula].
  eexists. split; [reflexivity|]. rewrite surface_sphere by lra.
  assert (Q : 0 < M1 / M0 <= 1).
  { split; [apply Rdiv_lt_0_compat; lra|]. apply Rmult_le_reg_r with M0; [lra|]. replace (M1 / M0 * M0) with M1 by (field; lra). lra. }
  pose proof (sphere_small _ Q) as B. unfold docGrowLIN. split; [ring|]. split; [exact B|]. intros PY.
  assert (PC : 0 < conc g C2H2) by (eapply conc_pos; eauto). pose proof massC_pos as PM. pose proof (exp_pos (- 12100 / gT g)) as PE.
  set (W := 750 * exp (- 12100 / gT g) * conc g C2H2 * (2 * M0 * massC)).
  assert (PW : 0 < W).
  { unfold W. set (c := conc g C2H2) in *. clearbody c. set (mc := massC) in *. clearbody mc. repeat apply Rmult_lt_0_compat; lra. }
  replace (750 * exp (- 12100 / gT g) * conc g C2H2 * (2 * massC) * (M0 * sphere (M1 / M0))) with (W * sphere (M1 / M0)) by (unfold W; ring).
  nra.
Qed.
Lemma C83_haca_ v M0 M1 gr : seesMoments v soot M0 M1 -> (M1 < M0 \/ M0 = 0) -> gr_class gr = G_HACA -> gT g <= 2153 -> hacaDown g <> 0 ->
  growRate gr v s = Ok (Fin (2 * hacaMass (docGrowHACA g))).
Proof.
  intros SM H E T D. destruct (C81_all_ s g soot v M0 M1 gr (newOxid O_HACA) V SM H E eq_refl T) as [A _]. rewrite A. do 2 f_equal.
  unfold addedBy, hacaMass, docGrowHACA, docRadicals, hacaRadicals. destruct (Req_EM_T (hacaDown g) 0); [contradiction|]. field. split; [exact D|]. pose proof avo_pos. lra.
Qed.

(** ** oxidation *)
Lemma C83_lee_ v M0 M1 o : seesMoments v soot M0 M1 -> ox_class o = O_LEE_NEOH -> gY g OH = 0 ->
  exists r, oxidRate o v s = Ok (Fin r) /\ r = docLee (gT g) (atm (partialP g O2)) / 1000 * exp (- (824 / 100) / gT g) /\
    (0 < gY g O2 -> r < docLee (gT g) (atm (partialP g O2)) / 1000).
Proof.
  intros SM E HO. rewrite (oxid_formula s g soot V o v M0 M1 SM) by (rewrite E; discriminate). rewrite E. cbn [oxidFormula].
  eexists. split; [reflexivity|]. unfold docLee, hitsOH.
  assert (C0 : conc g OH = 0) by (unfold conc; rewrite HO; unfold Rdiv; ring). rewrite C0.
  assert (EE : exp (- (1977824 / 100) / gT g) = exp (- (1977 / 1000 * 10 ^ 4) / gT g) * exp (- (824 / 100) / gT g)) by (rewrite <- exp_plus; f_equal; field; lra).
  rewrite EE. rewrite Rpower_Ropp, <- sqrtR by exact Ht. pose proof (sqrt_lt_R0 _ Ht) as S0.
  set (a := exp (- (1977 / 1000 * 10 ^ 4) / gT g)). set (b := exp (- (824 / 100) / gT g)). set (q := sqrt (gT g)) in *. set (p := atm (partialP g O2)).
  assert (EQ : 10850 * p / q * (a * b) / 1000 + 13 / 100 * 0 * sqrt (avogadro * boltzmann * gT g / (2 * piC * molarMass OH)) * massC =
    1085 / 1000 * 10 ^ 4 * p * / q * a / 1000 * b) by (field; lra).
  split; [exact EQ|]. intros PY. rewrite EQ.
  assert (PP : 0 < p).
  { unfold p, atm, partialP. pose proof (conc_pos s g soot V O2 PY) as K. set (c := conc g O2) in *. clearbody c. pose proof avo_pos. pose proof boltz_pos.
    apply Rdiv_lt_0_compat; [|lra]. repeat apply Rmult_lt_0_compat; lra. }
  assert (B : 0 < b < 1).
  { unfold b. split; [apply exp_pos|]. rewrite <- exp_0. apply exp_increasing. apply Rmult_lt_reg_r with (gT g); [lra|].
    replace (- (824 / 100) / gT g * gT g) with (- (824 / 100)) by (field; lra). lra. }
  assert (A : 0 < a) by apply exp_pos. assert (Q : 0 < / q) by (apply Rinv_0_lt_compat; exact S0).
  clearbody a b q p. clear EQ EE. assert (W : 0 < 1085 / 1000 * 10 ^ 4 * p * / q * a / 1000).
  { apply Rdiv_lt_0_compat; [|lra]. repeat apply Rmult_lt_0_compat; lra. }
  nra.
Qed.
End S.

(** ** PAH *)
Section Pah.
Context (s : state (N:=XR)) (g : gas) (soot : list R) (V : valid s g soot).
Lemma weight_nn sp : 0 <= betaSelf (gT g) (pahMass sp) * pahDensity g sp ^ 2.
Proof. pose proof (betaSelf_pos (gT g) (pahMass sp) (v_Tpos _ _ _ V) (pahMass_pos sp)). apply Rmult_le_pos; [lra|]. apply pow2_ge_0. Qed.
Lemma weight_0 sp : gPah g sp = 0 -> betaSelf (gT g) (pahMass sp) * pahDensity g sp ^ 2 = 0.
Proof. intros H. unfold pahDensity. rewrite H. unfold Rdiv. ring. Qed.
Lemma docDimers_val : docDimers g = pahSum (fun sp => docSticking sp * (1 / 2) * (betaSelf (gT g) (pahMass sp) * pahDensity g sp ^ 2)).
Proof. unfold docDimers, pahSum, sumR, allPah. cbn [map fold_right]. ring. Qed.
Lemma total_val : pahTotal g / 2 = pahSum (fun sp => sticking sp * (1 / 2) * (betaSelf (gT g) (pahMass sp) * pahDensity g sp ^ 2)).
Proof. unfold pahTotal, pahLoss, pahSum, sumR, allPah. cbn [map fold_right]. field. Qed.
Lemma C83_dimers_ coll nu i eff : somePah g -> nu_class nu = N_PAH -> 0 <= i -> coll (with_cMin s (Fin (pahCMin g))) (Fin (dimerMass g)) = Ok (Fin i, eff) ->
  exists nu' J r, nuclRate coll nu s = Ok (Fin J, nu', with_cMin s (Fin (pahCMin g)), Some eff) /\ nDotD nu' = Fin r /\
    89 / 100 * docDimers g <= r <= 133 / 100 * docDimers g /\
    (gPah g C10H8 = 0 -> gPah g C12H8 = 0 -> r = docDimers g) /\
    ((forall sp, sp <> C10H8 -> gPah g sp = 0) -> r = 133 / 100 * docDimers g /\ docDimers g < r) /\
    ((forall sp, sp <> C12H8 -> gPah g sp = 0) -> r = 89 / 100 * docDimers g /\ r < docDimers g).
Proof.
  intros SP E I C. destruct (C42_ s g soot V SP coll nu i eff E I C) as (nu' & J & n & A & _ & _ & B & _).
  exists nu', J, (pahTotal g / 2). split; [exact A|]. split; [exact B|].
  pose proof (pahTotal_some s g soot V SP) as PT0. assert (PT : 0 < pahTotal g / 2) by lra. clear PT0 A B. rewrite total_val in *. rewrite docDimers_val.
  pose proof weight_nn as W. pose proof weight_0 as Z. revert PT. unfold pahSum, sumR, allPah. cbn [map fold_right sticking docSticking].
  set (w := fun sp => betaSelf (gT g) (pahMass sp) * pahDensity g sp ^ 2) in *.
  pose proof (W C10H8) as W1. pose proof (W C12H8) as W2. pose proof (W C12H10) as W3. pose proof (W C14H10) as W4. pose proof (W C16H10) as W5. pose proof (W C18H10) as W6.
  change (betaSelf (gT g) (pahMass C10H8) * pahDensity g C10H8 ^ 2) with (w C10H8) in *. change (betaSelf (gT g) (pahMass C12H8) * pahDensity g C12H8 ^ 2) with (w C12H8) in *.
  change (betaSelf (gT g) (pahMass C12H10) * pahDensity g C12H10 ^ 2) with (w C12H10) in *. change (betaSelf (gT g) (pahMass C14H10) * pahDensity g C14H10 ^ 2) with (w C14H10) in *.
  change (betaSelf (gT g) (pahMass C16H10) * pahDensity g C16H10 ^ 2) with (w C16H10) in *. change (betaSelf (gT g) (pahMass C18H10) * pahDensity g C18H10 ^ 2) with (w C18H10) in *.
  assert (Z' : forall sp, gPah g sp = 0 -> w sp = 0) by exact Z. clear Z W. clearbody w. intros PT.
  split; [lra|]. split; [intros H1 H2; rewrite (Z' _ H1), (Z' _ H2); lra|].
  split; intros H.
  - assert (K : forall sp, sp <> C10H8 -> w sp = 0) by (intros; now apply Z', H).
    rewrite (K C12H8), (K C12H10), (K C14H10), (K C16H10), (K C18H10) in * by discriminate. lra.
  - assert (K : forall sp, sp <> C12H8 -> w sp = 0) by (intros; now apply Z', H).
    rewrite (K C10H8), (K C12H10), (K C14H10), (K C16H10), (K C18H10) in * by discriminate. lra.
Qed.
End Pah.

(** ** kernels *)
Lemma boltz_small : boltzmann <= 14 / 10 ^ 24.
Proof. Local Transparent boltzmann. unfold boltzmann. Local Opaque boltzmann. lra. Qed.
Section Kern.
Context (s : state (N:=XR)) (t p rho mu : R) (G : gasState s t p rho mu).
Let Ht : 0 < t. Proof. apply G. Qed.
Let Hmu : 0 < mu. Proof. now destruct G as (_ & _ & _ & A & _). Qed.
Lemma C83_fm_ c m1 m2 : co_class c = C_FM -> co_FM c = Fin 1 -> massCutoff < m1 -> massCutoff < m2 ->
  exists r, coagRate c s (Fin m1) (Fin m2) = Fin r /\ docFM t m1 m2 = sqrt (piC * boltzmann * t / 2) * r /\ (t <= 10 ^ 6 -> docFM t m1 m2 < r / 10 ^ 8).
Proof.
  intros E F H1 H2. pose proof cut_pos as C. rewrite (kernels s t p rho mu G c 1) by (auto; lra). rewrite E. eexists. split; [reflexivity|].
  assert (P1 : 0 < m1) by lra. assert (P2 : 0 < m2) by lra. pose proof piC_pos as PP. pose proof boltz_pos as PB.
  assert (PA : 0 < piC * boltzmann * t / 2) by (repeat apply Rmult_lt_0_compat; lra).
  assert (PI : 0 < 1 / m1 + 1 / m2) by (apply Rplus_lt_0_compat; apply Rdiv_lt_0_compat; lra).
  assert (EQ : docFM t m1 m2 = sqrt (piC * boltzmann * t / 2) * betaFM 1 t m1 m2).
  { unfold docFM, betaFM, enhancement. rewrite !diam_split by assumption. rewrite sqrt_mult by lra. rewrite <- (sqrtR (1 / m1 + 1 / m2)) by exact PI.
    assert (SS : sqrt (piC * boltzmann * t / 2) * sqrt (piC * boltzmann * t / 2) = piC * boltzmann * t / 2) by (apply sqrt_sqrt; lra).
    rewrite <- SS at 1. set (q := sqrt (piC * boltzmann * t / 2)).
    replace (2 / 3) with (1 / 3 + 1 / 3) by lra. rewrite Rpower_plus. ring. }
  split; [exact EQ|]. intros T. rewrite EQ. pose proof (betaFM_pos s t p rho mu G 1 m1 m2 Rlt_0_1 P1 P2) as PF.
  assert (SB : sqrt (piC * boltzmann * t / 2) < / 10 ^ 8).
  { rewrite <- (sqrt_Rsqr (/ 10 ^ 8)) by (left; apply Rinv_0_lt_compat; apply pow_lt; lra). apply sqrt_lt_1; [lra|apply Rle_0_sqr|]. unfold Rsqr.
    pose proof pi_near as PN. pose proof boltz_small as BS. assert (piC * boltzmann <= 315 / 100 * (14 / 10 ^ 24)) by (apply Rmult_le_compat; lra).
    assert (piC * boltzmann * t <= 315 / 100 * (14 / 10 ^ 24) * 10 ^ 6) by (apply Rmult_le_compat; lra || (apply Rmult_le_pos; lra)). lra. }
  unfold Rdiv. rewrite (Rmult_comm (betaFM 1 t m1 m2)). now apply Rmult_lt_compat_r.
Qed.
Lemma C83_cont_ c f m1 m2 : 0 < f -> co_class c = C_CONTINUUM -> co_FM c = Fin f -> massCutoff < m1 -> massCutoff < m2 ->
  coagRate c s (Fin m1) (Fin m2) = Fin (docSumC t p rho mu m1 m2).
Proof.
  intros F E EF H1 H2. pose proof cut_pos as C. rewrite (kernels s t p rho mu G c f) by auto. rewrite E. f_equal.
  assert (P1 : 0 < m1) by lra. assert (P2 : 0 < m2) by lra. unfold betaC, docSumC. rewrite !diam_split by assumption.
  assert (A : 0 < Rpower (6 / (piC * sootDensity)) (1 / 3)) by apply exp_pos. assert (B1 : 0 < Rpower m1 (1 / 3)) by apply exp_pos. assert (B2 : 0 < Rpower m2 (1 / 3)) by apply exp_pos.
  field. lra.
Qed.
Lemma slip_ge m : 1 < slipLinear p rho mu m.
Proof.
  unfold slipLinear. assert (0 < knudsen p rho mu m); [|lra]. unfold knudsen, meanFreePath. destruct G as (_ & A & B & D & _). pose proof (diam_pos m). pose proof piC_pos.
  apply Rdiv_lt_0_compat; [|lra]. apply Rmult_lt_0_compat; [lra|]. apply Rmult_lt_0_compat; [apply Rdiv_lt_0_compat; lra|]. apply sqrt_lt_R0. apply Rdiv_lt_0_compat; [apply Rmult_lt_0_compat; lra|lra].
Qed.
Lemma C83_cont_bad c f m : 0 < f -> co_class c = C_CONTINUUM -> co_FM c = Fin f -> massCutoff < m <= 1 / 10 ^ 12 ->
  exists r, coagRate c s (Fin m) (Fin m) = Fin r /\ 0 < r /\ 5000 * r < docC t p rho mu m m.
Proof.
  intros F E EF H. rewrite (C83_cont_ c f m m F E EF) by lra. eexists. split; [reflexivity|]. pose proof cut_pos as C.
  pose proof boltz_pos as PB. pose proof (slip_ge m) as S1. unfold docSumC, docC. set (S0 := slipLinear p rho mu m) in *. clearbody S0.
  assert (B : 0 < Rpower m (1 / 3)) by apply exp_pos.
  assert (BB : Rpower m (1 / 3) <= 1 / 10 ^ 4).
  { apply Rle_trans with (Rpower ((1 / 10 ^ 4) ^ 3) (1 / 3)); [apply Rle_Rpower_l; [lra|]; split; [lra|]; replace ((1 / 10 ^ 4) ^ 3) with (1 / 10 ^ 12) by field; lra|].
    assert (Q : 0 < 1 / 10 ^ 4) by (apply Rdiv_lt_0_compat; [lra|apply pow_lt; lra]).
    rewrite <- (Rpower_pow 3) by exact Q. rewrite Rpower_mult. replace (INR 3 * (1 / 3)) with 1 by (simpl; lra). rewrite Rpower_1 by exact Q. lra. }
  set (a := Rpower m (1 / 3)) in *. clearbody a. set (k := 2 * boltzmann * t / (3 * mu)).
  assert (K : 0 < k) by (unfold k; apply Rdiv_lt_0_compat; [repeat apply Rmult_lt_0_compat; lra|lra]). clearbody k.
  replace (k * (S0 / a + S0 / a) * (a + a)) with (4 * (k * S0)) by (field; lra).
  replace (k * (S0 / a * (S0 / a)) * (a + a)) with (2 * (k * S0) * (S0 / a)) by (field; lra).
  assert (P : 0 < k * S0) by (apply Rmult_lt_0_compat; lra). split; [lra|].
  assert (Q : 10000 < S0 / a). { apply Rmult_lt_reg_r with a; [lra|]. replace (S0 / a * a) with S0 by (field; lra). lra. }
  nra.
Qed.
Lemma slip_low m : 1257 / 1657 * slipLinear p rho mu m <= slipExp p rho mu m.
Proof.
  unfold slipLinear, slipExp. cbv zeta. pose proof (slip_ge m) as K. unfold slipLinear in K. set (kn := knudsen p rho mu m) in *. clearbody kn. pose proof (exp_pos (- (11 / 10) / kn)). nra.
Qed.
Lemma C83_hm_ f m1 m2 : 0 < f -> massCutoff < m1 -> massCutoff < m2 ->
  exists fm c hm, coagRate (with_f C_FM f) s (Fin m1) (Fin m2) = Fin fm /\ coagRate (with_f C_CONTINUUM f) s (Fin m1) (Fin m2) = Fin c /\
    coagRate (with_f C_HM f) s (Fin m1) (Fin m2) = Fin hm /\ 1257 / 1657 * (fm * c / (fm + c)) <= hm < fm * c / (fm + c).
Proof.
  intros F H1 H2. pose proof cut_pos as C. assert (P1 : 0 < m1) by lra. assert (P2 : 0 < m2) by lra.
  rewrite !(kernels s t p rho mu G _ f) by auto. cbn [co_class with_f set_FM_multiplier newCoag].
  eexists _, _, _. do 3 (split; [reflexivity|]). unfold betaHM.
  pose proof (betaFM_pos s t p rho mu G f m1 m2 F P1 P2) as PF. pose proof (C_exp_pos s t p rho mu G m1 m2) as PC. pose proof (C_exp_lin s t p rho mu G m1 m2) as PL.
  assert (LO : 1257 / 1657 * betaC (slipLinear p rho mu) t mu m1 m2 <= betaC (slipExp p rho mu) t mu m1 m2).
  { unfold betaC. pose proof boltz_pos. assert (K : 0 < 2 * boltzmann * t / (3 * mu)) by (apply Rdiv_lt_0_compat; [repeat apply Rmult_lt_0_compat; lra|lra]).
    set (k := 2 * boltzmann * t / (3 * mu)) in *. clearbody k. pose proof (diam_pos m1) as D1. pose proof (diam_pos m2) as D2.
    pose proof (slip_low m1) as L1. pose proof (slip_low m2) as L2.
    set (a1 := slipLinear p rho mu m1) in *. set (a2 := slipLinear p rho mu m2) in *. set (b1 := slipExp p rho mu m1) in *. set (b2 := slipExp p rho mu m2) in *. clearbody a1 a2 b1 b2.
    replace (1257 / 1657 * (k * (a1 / diam m1 + a2 / diam m2) * (diam m1 + diam m2))) with (k * (1257 / 1657 * a1 / diam m1 + 1257 / 1657 * a2 / diam m2) * (diam m1 + diam m2)) by (field; lra).
    apply Rmult_le_compat_r; [lra|]. apply Rmult_le_compat_l; [lra|]. unfold Rdiv. apply Rplus_le_compat; (apply Rmult_le_compat_r; [left; now apply Rinv_0_lt_compat|lra]). }
  set (x := betaFM f t m1 m2) in *. set (y := betaC (slipLinear p rho mu) t mu m1 m2) in *. set (z := betaC (slipExp p rho mu) t mu m1 m2) in *. clearbody x y z.
  replace (/ (/ x + / z)) with (x * z / (x + z)) by (field; lra). split.
  - apply Rmult_le_reg_r with ((x + y) * (x + z)); [apply Rmult_lt_0_compat; lra|].
    replace (1257 / 1657 * (x * y / (x + y)) * ((x + y) * (x + z))) with (1257 / 1657 * (x * y) * (x + z)) by (field; lra).
    replace (x * z / (x + z) * ((x + y) * (x + z))) with (x * z * (x + y)) by (field; lra).
    assert (0 <= x * x) by nra. assert (0 <= x * y) by nra.  assert (0 <= x * y * z) by (apply Rmult_le_pos; lra). assert (x * x * (1257 / 1657 * y) <= x * x * z) by (apply Rmult_le_compat_l; lra). lra.
  - apply Rmult_lt_reg_r with ((x + y) * (x + z)); [apply Rmult_lt_0_compat; lra|].
    replace (x * y / (x + y) * ((x + y) * (x + z))) with (x * y * (x + z)) by (field; lra).
    replace (x * z / (x + z) * ((x + y) * (x + z))) with (x * z * (x + y)) by (field; lra).
    assert (x * x * z < x * x * y) by (apply Rmult_lt_compat_l; [apply Rmult_lt_0_compat; lra|lra]). lra.
Qed.
End Kern.

(** ** a case *)
Lemma C83_case_ : exists (s : state (N:=XR)) v, call (newState 2 0) (argsOf (hotGas 1900) [10 ^ 15; / 10 ^ 4] []) = SetOk s /\ valid s (hotGas 1900) [10 ^ 15; / 10 ^ 4] /\
  gasState s 1900 101325 (1 / 5) (1 / 20000) /\ seesMoments v [10 ^ 15; / 10 ^ 4] (10 ^ 15) (/ 10 ^ 4) /\ 0 < / 10 ^ 4 < 10 ^ 15 /\ gT (hotGas 1900) <= 2153 /\
  hacaDown (hotGas 1900) <> 0 /\ 0 < gY (hotGas 1900) C2H2 /\ 0 < gY (hotGas 1900) O2 /\ somePah (hotGas 1900) /\ massCutoff < / 10 ^ 19 <= 1 / 10 ^ 12.
Proof.
  destruct C81_case_ as (m & s & _ & C & V & SM & _). exists s, (viewOf m). split; [exact C|]. split; [exact V|]. split; [exact (v_gas _ _ _ V)|].
  split; [exact SM|]. split; [lra|]. cbn [gT gY hotGas]. split; [lra|]. split.
  - destruct (haca_terms s (hotGas 1900) _ V) as (A & B & A2 & _). pose proof (added_pos s (hotGas 1900) _ V ltac:(cbn [gY hotGas]; lra) ltac:(cbn [gY hotGas]; lra)) as K.
    intros Z. revert K. unfold addedBy, hacaRadicals. destruct (Req_EM_T (hacaDown (hotGas 1900)) 0); [|contradiction]. unfold hacaMass. rewrite !Rmult_0_r, !Rmult_0_l, !Rmult_0_r. lra.
  - split; [lra|]. split; [lra|]. split; [exists C10H8; cbn [gPah hotGas]; lra|]. Local Transparent massCutoff. unfold massCutoff. Local Opaque massCutoff. lra.
Qed.
