(** Proofs for C100: growth per surface against oxidation in a time loop. *)
From Coq Require Import ZArith List Bool Reals Lra Lia.
From Verif Require Import Num Defs State Coag Nucl Growth Oxid Tar SootModel Mono Qmom Momic Calls XR XRLemmas NumLaws SpecState SpecConfig SpecChem SpecCoag SpecValid SpecRates SpecGas SpecPah SpecPsd SpecSect SpecQmom SpecStep SpecFinite SpecMarch SpecBurn SpecGrow
  ConfigProofs CoagProofs StateProofs StateXR ValidProofs RateProofs PsdProofs PahProofs MonoProofs MonoMain MonoCases ChemAll SectProofs SectMain SectBins SectCases SectFinal FiniteMain VesselProofs StepProofs ClosureProofs DocsProofs MarchProofs MarchMain MarchSect BurnProofs BurnMain BurnCases GrowMain GrowCases NumLoopMain.
Import ListNotations.
Local Open Scope R_scope.

Section Decide.
Context (gr : growthMech) (ox : oxidationMech) (F : R) (c : Z) (m0 : model (N:=XR)) (g : gas) (dt N0 M1 : R) (eig : nat -> eigSolver (N:=XR)).
Context (E0 : constructEnum P_MONO 2 N_NONE gr ox C_NONE 0 T_NONE (Fin F) c = Ok m0) (AG : ageless gr) (NH : ox <> O_HACA) (PH : physical g).
Context (Hd : 0 < dt) (PN : 0 < N0) (PM : 0 < M1).
Let k := mkMechs N_NONE gr ox C_NONE 1.
Let D := growFormula gr g N0 M1 - oxidFormula ox g N0 M1.
Let f M := dt * - D * (N0 * sphere (Rmax 0 M / N0)).
Let GC : goodConfig P_MONO 2 N_NONE C_NONE T_NONE F c.
Proof. split; [left; repeat split; discriminate|split; [reflexivity|exact I]]. Qed.
Let OK : okAll k.
Proof. destruct (start P_MONO 2 N_NONE gr ox C_NONE 0 T_NONE F c m0 GC E0) as (_ & A & _). exact A. Qed.
Let NG : gr <> G_HACA. Proof. destruct AG as [->|[->| ->]]; discriminate. Qed.
Lemma d_noHaca : mG k = G_HACA \/ mO k = O_HACA -> False.
Proof. unfold k. cbn [mG mO]. intros [Z|Z]; contradiction. Qed.
Lemma d_pos M : 0 < M -> f M = - (growStep dt D N0 * Rpower M (2 / 3)).
Proof. intros H. unfold f, growStep. rewrite Rmax_right by lra. rewrite surface_pow by auto. ring. Qed.
Lemma d_none : N0 * sphere (0 / N0) = 0.
Proof. replace (0 / N0) with 0 by (unfold Rdiv; ring). unfold sphere. destruct (Rlt_dec 0 0); [lra|ring]. Qed.
Lemma d_neg M : M <= 0 -> f M = 0.
Proof. intros H. unfold f. rewrite Rmax_left by lra. rewrite d_none. ring. Qed.
Let ms := masses M1 f.
Let traj i := [N0; ms i].
Let src i := [0; D * (N0 * sphere (Rmax 0 (ms i) / N0))].
Lemma d_clip i : clip (traj i) = [N0; Rmax 0 (ms i)].
Proof. unfold traj, clip. cbn [map]. now rewrite (Rmax_right 0 N0) by lra. Qed.
Lemma d_ok i : goodStep P_MONO k (geometric c F 2) 2 0 (mkStep g (clip (traj i)) [] (eig i)).
Proof.
  split; [exact PH|]. split; [reflexivity|]. split; [reflexivity|]. split; [cbn [spSoot]; apply clip_nn|].
  split; [intros y []|]. split; [|exact I]. intros H1. destruct (d_noHaca H1).
Qed.
Lemma d_kernel x y : kernel k g x y = 0.
Proof. unfold kernel, k. cbn [mC mF]. repeat (destruct (Rlt_dec _ _)); try reflexivity; ring. Qed.
Lemma d_rate M : (growFormula gr g N0 (Rmax 0 M) - oxidFormula ox g N0 (Rmax 0 M)) * (N0 * sphere (Rmax 0 M / N0)) = D * (N0 * sphere (Rmax 0 M / N0)).
Proof.
  destruct (Rlt_le_dec 0 M) as [L|L].
  - rewrite (Rmax_right 0 M) by lra. unfold D. rewrite (any_soot gr g N0 M1 N0 M AG PN PM PN L), (any_moments ox g N0 M1 N0 M NH). reflexivity.
  - rewrite (Rmax_left 0 M) by lra. rewrite d_none. ring.
Qed.
Lemma d_call i st m s : hasAll m k -> sm_psd m = P_MONO -> extra P_MONO k 2 F c st m s -> valid s g (clip (traj i)) ->
  exists st' m' s', setSourceTerms st (eig i) m s = Ok (st', m', s') /\ soots m' = map Fin (src i).
Proof.
  intros HM HP (_ & HT & w & x & W & A) V. rewrite d_clip in V.
  destruct (C22_ m s g k N0 (Rmax 0 (ms i)) st (eig i) HP HM OK HT V PN) as (m' & s' & E & Q & _).
  - intros H1. destruct (d_noHaca H1).
  - now rewrite W.
  - now rewrite A.
  - exists st, m', s'. split; [exact E|]. rewrite Q. unfold src. rewrite <- d_rate. unfold koxid, kgrow.
    rewrite !d_kernel. unfold k, nucl, isP, oN1, Jnuc. cbn [mN mG mO mC mF oJ oGas oMass oConc nuclFormula map].
    refine (f_equal2 (fun a b => [Fin a; Fin b]) _ _); unfold Rdiv; ring.
Qed.
Lemma d_next i : traj (S i) = euler dt (traj i) (src i).
Proof. unfold traj, src, euler. cbn [combine map fst snd]. unfold ms. cbn [masses]. unfold f. f_equal; [ring|f_equal; ring]. Qed.
Let st := growStep dt D N0.
Lemma d_step : exists a, 0 < a /\ st = D * a.
Proof. exists (dt * areaCoef * Rpower N0 (1 / 3)). split; [|unfold st, growStep; ring]. apply Rmult_lt_0_compat; [apply Rmult_lt_0_compat; [exact Hd|exact areaCoef_pos']|apply exp_pos]. Qed.
Lemma d_grown : 0 <= D -> forall i, ms i = grown st M1 i.
Proof.
  intros HD. destruct d_step as (a & Pa & Ea). assert (0 <= st) by (rewrite Ea; apply Rmult_le_pos; lra). induction i as [|i IH]; [reflexivity|]. unfold ms. cbn [masses grown]. fold ms. rewrite IH.
  rewrite d_pos by (now apply grown_pos). fold st. ring.
Qed.
Lemma grown_lin h M i : 0 <= h -> 0 < M -> M + INR i * (h * Rpower M (2 / 3)) <= grown h M i.
Proof.
  intros Ph P. induction i as [|i IH]; [cbn [INR grown]; lra|]. rewrite S_INR. cbn [grown]. pose proof (grown_ge h M Ph P i) as G. pose proof (root_pos M). assert (Rpower M (2 / 3) <= Rpower (grown h M i) (2 / 3)) by (rewrite !root2; apply pow_incr; lra).
  assert (h * Rpower M (2 / 3) <= h * Rpower (grown h M i) (2 / 3)) by (apply Rmult_le_compat_l; lra). lra.
Qed.
Lemma C100_surface_ : (exists y, y 0%nat = [N0; M1] /\ marches m0 2 g dt eig y) /\
  forall y, y 0%nat = [N0; M1] -> marches m0 2 g dt eig y ->
    (forall i, el (y i) 0 = N0) /\
    (0 < D -> (forall i, el (y i) 1 < el (y (S i)) 1) /\ forall x, exists i0, forall i, (i0 <= i)%nat -> x < el (y i) 1) /\
    (D = 0 -> forall i, el (y i) 1 = M1) /\
    (D < 0 -> exists e, (forall i, (i < e)%nat -> 0 < el (y i) 1 /\ el (y (S i)) 1 < el (y i) 1) /\ el (y e) 1 <= 0 /\ forall i, (e <= i)%nat -> y i = y e).
Proof.
  split.
  - exists traj. split; [reflexivity|].
    exact (clip_marches P_MONO 2 N_NONE gr ox C_NONE T_NONE F c m0 GC E0 g dt eig traj src (fun _ => eq_refl) d_ok d_call (fun _ => eq_refl) d_next).
  - intros y Y0 M. pose proof (clip_only P_MONO 2 N_NONE gr ox C_NONE T_NONE F c m0 GC E0 g dt eig traj src (fun _ => eq_refl) d_ok d_call d_next y Y0 M) as EQ.
    assert (E1 : forall i, el (y i) 1 = ms i) by (intros i; now rewrite EQ). destruct d_step as (a & Pa & Ea). split; [intros i; rewrite EQ; reflexivity|]. split; [|split].
    + intros HD. assert (Ps : 0 < st) by (rewrite Ea; now apply Rmult_lt_0_compat). split.
      * intros i. rewrite !E1, !d_grown by lra. cbn [grown]. assert (0 < st * Rpower (grown st M1 i) (2 / 3)) by (apply Rmult_lt_0_compat; [exact Ps|apply exp_pos]). lra.
      * intros x. assert (PR : 0 < st * Rpower M1 (2 / 3)) by (apply Rmult_lt_0_compat; [exact Ps|apply exp_pos]). destruct (some_n _ x PR) as (n & Hn). exists n. intros i Hi. rewrite E1, d_grown by lra.
        pose proof (grown_lin st M1 i (Rlt_le _ _ Ps) PM). assert (INR n <= INR i) by now apply le_INR. assert (INR n * (st * Rpower M1 (2 / 3)) <= INR i * (st * Rpower M1 (2 / 3))) by (apply Rmult_le_compat_r; lra). lra.
    + intros HD i. rewrite E1, d_grown by lra. assert (Z : st = 0) by (rewrite Ea, HD; ring). induction i as [|i IH]; [reflexivity|]. cbn [grown]. rewrite IH, Z. ring.
    + intros HD. assert (Ph : 0 < - st) by (rewrite Ea; assert (0 < - D * a) by (apply Rmult_lt_0_compat; lra); lra).
      destruct (burnt (- st) M1 Ph PM f) as (e & A & B & C & _). { intros z Hz. rewrite d_pos by exact Hz. fold st. ring. } { exact d_neg. } fold ms in A, B, C. exists e. split; [|split].
      * intros i Hi. rewrite !E1. split; [now apply A|]. unfold ms at 1. cbn [masses]. fold ms. rewrite d_pos by now apply A. fold st. assert (0 < - st * Rpower (ms i) (2 / 3)) by (apply Rmult_lt_0_compat; [exact Ph|apply exp_pos]). lra.
      * rewrite E1. apply B.
      * intros i Hi. rewrite !EQ. unfold traj. now rewrite (C i Hi).
Qed.
End Decide.
Lemma exp_six : exp (- 12100 / 1800) < 1 / 100.
Proof.
  assert (H : exp (- (1 / 2)) < 2 / 3). { rewrite exp_Ropp. replace (2 / 3) with (/ (1 + 1 / 2)) by field. apply Rinv_lt_contravar; [apply Rmult_lt_0_compat; [lra|apply exp_pos]|]. apply exp_ineq1. lra. }
  apply Rlt_trans with (exp (- (1 / 2)) ^ 12).
  - rewrite <- Rpower_pow by apply exp_pos. unfold Rpower. rewrite ln_exp. apply exp_increasing. cbn [INR]. lra.
  - apply Rle_lt_trans with ((2 / 3) ^ 12); [apply pow_incr; split; [left; apply exp_pos|lra]|lra].
Qed.
Lemma decide_case : exists m : model (N:=XR), constructEnum P_MONO 2 N_NONE G_LIN O_MB C_NONE 0 T_NONE (Fin 2) 100 = Ok m /\ ageless G_LIN /\ physical demoGas /\
  0 < growFormula G_LIN demoGas 1 1 /\ growFormula G_LIN demoGas 1 1 - oxidFormula O_MB demoGas 1 1 < 0.
Proof.
  eexists. split; [reflexivity|]. split; [now left|]. split; [exact demo_physical|]. unfold growFormula, oxidFormula, conc. cbv zeta. cbn [demoGas gT gRho gY].
  pose proof exp_six as E. pose proof (exp_pos (- 12100 / 1800)) as P. set (e := exp _) in *.
  assert (S42 : 42 <= sqrt 1800). { rewrite <- (sqrt_pow2 42) by lra. apply sqrt_le_1; lra. }
  assert (E1 : molarMass C2H2 = 26038 / 1000) by (unfold molarMass, massC, massH, massO; cbn [atomsC atomsH atomsO]; lra).
  assert (E2 : molarMass OH = 17007 / 1000) by (unfold molarMass, massC, massH, massO; cbn [atomsC atomsH atomsO]; lra).
  rewrite E1, E2. assert (E3 : massC = 12011 / 1000) by reflexivity. rewrite E3. split; [|lra]. repeat apply Rmult_lt_0_compat; lra.
Qed.
