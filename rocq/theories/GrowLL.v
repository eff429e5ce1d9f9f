(** Proofs for C96: growth by Leung and Lindstedt in a time loop. *)
From Coq Require Import ZArith List Bool Reals Lra Lia.
From Verif Require Import Num Defs State Coag Nucl Growth Oxid Tar SootModel Mono Qmom Momic Calls XR XRLemmas NumLaws SpecState SpecConfig SpecChem SpecCoag SpecValid SpecRates SpecGas SpecPah SpecPsd SpecSect SpecQmom SpecStep SpecFinite SpecMarch SpecBurn SpecGrow SpecGrowLL
  ConfigProofs CoagProofs StateProofs StateXR ValidProofs RateProofs PsdProofs PahProofs MonoProofs MonoMain MonoCases ChemAll SectProofs SectMain SectBins SectCases SectFinal FiniteMain VesselProofs StepProofs ClosureProofs DocsProofs MarchProofs MarchMain MarchSect BurnProofs BurnMain GrowMain GrowCases.
Import ListNotations.
Local Open Scope R_scope.

(** ** the recursion *)
Lemma one_growth' u v h : 0 < u -> 0 < v -> 0 <= h -> v ^ 3 = u ^ 3 + h * u -> u ^ 2 + 2 * h / 3 - h ^ 2 / (9 * u ^ 2) <= v ^ 2 <= u ^ 2 + 2 * h / 3.
Proof.
  intros U V H E. assert (PS : 0 < u ^ 2) by now apply pow_lt. assert (PV : 0 < v ^ 2) by now apply pow_lt. set (s := u ^ 2) in *.
  assert (C : (v ^ 2) ^ 3 = s * (s + h) ^ 2). { transitivity ((v ^ 3) ^ 2); [ring|]. rewrite E. unfold s. ring. }
  split; apply cube_le; auto; try lra.
  - rewrite C. set (z := h / (3 * s)). assert (Z : 0 <= z) by (unfold z; apply Rmult_le_pos; [lra|left; apply Rinv_0_lt_compat; lra]).
    replace (s + 2 * h / 3 - h ^ 2 / (9 * s)) with (s * (1 + 2 * z - z ^ 2)) by (unfold z; field; lra). replace h with (3 * s * z) by (unfold z; field; lra).
    replace (s * (s + 3 * s * z) ^ 2) with (s ^ 3 * (1 + 3 * z) ^ 2) by ring. rewrite Rpow_mult_distr. apply Rmult_le_compat_l; [left; now apply pow_lt|].
    assert (0 <= z ^ 3 * (4 + z * (3 - z) ^ 2)). { apply Rmult_le_pos; [now apply pow_le|]. assert (0 <= z * (3 - z) ^ 2) by (apply Rmult_le_pos; [exact Z|apply pow2_ge_0]). lra. }
    assert (Q : (1 + 3 * z) ^ 2 - (1 + 2 * z - z ^ 2) ^ 3 = z ^ 3 * (4 + z * (3 - z) ^ 2)) by ring. lra.
  - rewrite C. assert (0 <= h ^ 2 * s) by (apply Rmult_le_pos; [apply pow2_ge_0|lra]). assert (0 <= h ^ 3) by now apply pow_le.
    replace ((s + 2 * h / 3) ^ 3) with (s * (s + h) ^ 2 + h ^ 2 * s / 3 + 8 * h ^ 3 / 27) by field. lra.
Qed.
Section Mass.
Context (h M1 : R) (Ph : 0 <= h) (PM : 0 < M1).
Fixpoint grownL (i : nat) : R := match i with O => M1 | S j => grownL j + h * Rpower (grownL j) (1 / 3) end.
Lemma grownL_pos i : 0 < grownL i.
Proof. induction i; cbn [grownL]; [exact PM|]. assert (0 < Rpower (grownL i) (1 / 3)) by apply exp_pos. nra. Qed.
Lemma grownL_ge i : root M1 <= root (grownL i).
Proof.
  induction i as [|i IH]; [cbn [grownL]; lra|]. apply Rle_trans with (1 := IH). apply cube_le; [apply root_pos|]. rewrite !root3 by apply grownL_pos. cbn [grownL].
  assert (0 < Rpower (grownL i) (1 / 3)) by apply exp_pos. nra.
Qed.
Lemma grownL_root i : root M1 ^ 2 + INR i * (2 * h / 3) - INR i * (h ^ 2 / (9 * root M1 ^ 2)) <= root (grownL i) ^ 2 <= root M1 ^ 2 + INR i * (2 * h / 3).
Proof.
  induction i as [|i IH]; [cbn [INR grownL]; lra|]. rewrite S_INR.
  destruct (one_growth' (root (grownL i)) (root (grownL (S i))) h (root_pos _) (root_pos _) Ph) as (A & B). { rewrite !root3 by apply grownL_pos. cbn [grownL]. reflexivity. }
  pose proof (grownL_ge i) as G. pose proof (root_pos M1) as P. assert (P2 : 0 < root M1 ^ 2) by now apply pow_lt. assert (G2 : root M1 ^ 2 <= root (grownL i) ^ 2) by (apply pow_incr; lra).
  assert (h ^ 2 / (9 * root (grownL i) ^ 2) <= h ^ 2 / (9 * root M1 ^ 2)). { unfold Rdiv. apply Rmult_le_compat_l; [apply pow2_ge_0|]. apply Rinv_le_contravar; lra. }
  lra.
Qed.
End Mass.
Lemma sqrt_surface N M : 0 < N -> 0 < M -> sqrt (surface N M) = sqrt (areaCoef * Rpower N (1 / 3)) * root M.
Proof.
  intros A B. rewrite surface_sphere, surface_pow, root2 by auto. assert (0 < areaCoef * Rpower N (1 / 3)) by (apply Rmult_lt_0_compat; [exact areaCoef_pos'|apply exp_pos]).
  rewrite sqrt_mult by (try lra; apply pow2_ge_0). f_equal. apply sqrt_pow2. left. apply root_pos.
Qed.
Lemma ll_source g N M : 0 < N -> 0 < M -> growFormula G_LL g N M * surface N M = llRate g * sqrt (surface N M).
Proof.
  intros A B. pose proof (surface_positive N M A B) as P. unfold growFormula, llRate. cbv zeta. destruct (Rlt_dec 0 (surface N M)); [|contradiction].
  assert (Q : 0 < sqrt (surface N M)) by now apply sqrt_lt_R0. rewrite <- (sqrt_sqrt (surface N M)) at 2 by lra. field. lra.
Qed.
Lemma llRate_nn g : physical g -> 0 <= llRate g.
Proof.
  intros ((PT & _ & PR & _ & _ & PY & _) & _). unfold llRate, conc. pose proof massC_pos. pose proof (DriftProofs.mm_pos' C2H2). apply Rmult_le_pos; [|lra]. apply Rmult_le_pos; [left; apply Rmult_lt_0_compat; [lra|apply exp_pos]|].
  apply Rmult_le_pos; [apply Rmult_le_pos; [lra|apply PY]|left; now apply Rinv_0_lt_compat].
Qed.
Lemma llStep_nn dt g N : 0 < dt -> physical g -> 0 <= llStep dt g N.
Proof. intros H PH. unfold llStep. apply Rmult_le_pos; [apply Rmult_le_pos; [lra|now apply llRate_nn]|apply sqrt_pos]. Qed.

Section MonoLL.
Context (F : R) (c : Z) (m0 : model (N:=XR)) (g : gas) (dt N0 M1 : R) (eig : nat -> eigSolver (N:=XR)).
Context (E0 : constructEnum P_MONO 2 N_NONE G_LL O_NONE C_NONE 0 T_NONE (Fin F) c = Ok m0) (PH : physical g).
Context (Hd : 0 < dt) (PN : 0 < N0) (PM : 0 < M1).
Let k := grow G_LL.
Let h := llStep dt g N0.
Let GC : goodConfig P_MONO 2 N_NONE C_NONE T_NONE F c.
Proof. split; [left; repeat split; discriminate|split; [reflexivity|exact I]]. Qed.
Let OK : okAll k.
Proof. destruct (start P_MONO 2 N_NONE G_LL O_NONE C_NONE 0 T_NONE F c m0 GC E0) as (_ & A & _). exact A. Qed.
Let ms := grownL h M1.
Lemma msL_pos i : 0 < ms i. Proof. apply grownL_pos; [now apply llStep_nn|exact PM]. Qed.
Let traj i := [N0; ms i].
Let src i := [0; growFormula G_LL g N0 (ms i) * (N0 * sphere (ms i / N0))].
Lemma growL_ok i : goodStep P_MONO k (geometric c F 2) 2 0 (mkStep g (traj i) [] (eig i)).
Proof.
  pose proof (msL_pos i). split; [exact PH|]. split; [reflexivity|]. split; [reflexivity|]. split; [cbn [spSoot]; unfold traj; intros x [<-|[<-|[]]]; lra|].
  split; [intros y []|]. split; [|exact I]. intros [H1|H1]; discriminate H1.
Qed.
Lemma growL_call i st m s : hasAll m k -> sm_psd m = P_MONO -> extra P_MONO k 2 F c st m s -> valid s g (traj i) ->
  exists st' m' s', setSourceTerms st (eig i) m s = Ok (st', m', s') /\ soots m' = map Fin (src i).
Proof.
  intros HM HP (_ & HT & w & x & W & A) V.
  destruct (C22_ m s g k N0 (ms i) st (eig i) HP HM OK HT V PN) as (m' & s' & E & Q & _).
  - intros [H1|H1]; discriminate H1.
  - now rewrite W.
  - now rewrite A.
  - exists st, m', s'. split; [exact E|]. rewrite Q. unfold src. unfold koxid, kgrow.
    unfold k. rewrite !no_kernel'. unfold grow, nucl, isP, oN1, Jnuc. cbn [mN mG mO mC mF oJ oGas oMass oConc nuclFormula oxidFormula map].
    refine (f_equal2 (fun a b => [Fin a; Fin b]) _ _); unfold Rdiv; ring.
Qed.
Lemma growL_next i : traj (S i) = euler dt (traj i) (src i).
Proof.
  unfold traj, src, euler. cbn [combine map fst snd]. unfold ms. cbn [grownL]. fold ms. rewrite <- surface_sphere by (auto using msL_pos). rewrite ll_source, sqrt_surface by (auto using msL_pos).
  unfold h, llStep, root. f_equal; [ring|f_equal; ring].
Qed.
Lemma C96_ll_ : (exists y, y 0%nat = [N0; M1] /\ marches m0 2 g dt eig y) /\
  forall y, y 0%nat = [N0; M1] -> marches m0 2 g dt eig y -> forall i,
    el (y i) 0 = N0 /\ 0 < el (y i) 1 /\ Rpower M1 (2 / 3) + INR i * (2 * h / 3) - INR i * (h ^ 2 / (9 * Rpower M1 (2 / 3))) <= Rpower (el (y i) 1) (2 / 3) <= Rpower M1 (2 / 3) + INR i * (2 * h / 3).
Proof.
  split; [exists traj; split; [reflexivity|exact (traj_marches P_MONO 2 N_NONE G_LL O_NONE C_NONE T_NONE F c m0 GC E0 g dt eig traj src growL_ok growL_call (fun _ => eq_refl) growL_next)]|].
  intros y Y0 M i. rewrite (only_traj P_MONO 2 N_NONE G_LL O_NONE C_NONE T_NONE F c m0 GC E0 g dt eig traj src growL_ok growL_call growL_next y Y0 M i).
  split; [reflexivity|]. split; [apply msL_pos|]. cbn [traj el nth]. rewrite !root2. exact (grownL_root h M1 (llStep_nn dt g N0 Hd PH) PM i).
Qed.
End MonoLL.

Lemma pow32 M : 0 < M -> Rpower (Rpower M (2 / 3)) (3 / 2) = M.
Proof. intros H. rewrite Rpower_mult. replace (2 / 3 * (3 / 2)) with 1 by field. now apply Rpower_1. Qed.
Lemma llLaw_ok g N M : physical g -> 0 < N -> 0 < M -> llLaw g N (fun t => Rpower (Rpower M (2 / 3) + 2 * llStep t g N / 3) (3 / 2)).
Proof.
  intros PH PN PM t Ht. set (b := llStep 1 g N). set (p := Rpower M (2 / 3)). assert (PP : 0 < p) by apply exp_pos. assert (PB : 0 <= b) by (apply llStep_nn; [lra|exact PH]).
  assert (EQ : forall x, p + 2 * llStep x g N / 3 = p + 2 / 3 * b * x) by (intros x; unfold b, llStep; field). rewrite EQ. assert (PW : 0 < p + 2 / 3 * b * t) by nra. split; [apply exp_pos|].
  rewrite sqrt_surface by (auto; apply exp_pos). set (w := p + 2 / 3 * b * t) in *.
  replace (llRate g * (sqrt (areaCoef * Rpower N (1 / 3)) * root (Rpower w (3 / 2)))) with (3 / 2 * Rpower w (3 / 2 - 1) * (0 + 2 / 3 * b * 1)).
  2:{ unfold root. rewrite Rpower_mult. replace (3 / 2 * (1 / 3)) with (3 / 2 - 1) by field. unfold b, llStep. field. }
  apply (derivable_pt_lim_ext (fun x => Rpower (p + 2 / 3 * b * x) (3 / 2))); [intros x; now rewrite EQ|].
  apply (derivable_pt_lim_comp (fun x => p + 2 / 3 * b * x) (fun x => Rpower x (3 / 2))).
  - apply derivable_pt_lim_plus; [apply derivable_pt_lim_const|]. apply derivable_pt_lim_scal, derivable_pt_lim_id.
  - now apply derivable_pt_lim_power.
Qed.
Section RefineLL.
Context (F : R) (c : Z) (m0 : model (N:=XR)) (g : gas) (t N0 M1 : R) (eig : nat -> nat -> eigSolver (N:=XR)).
Context (E0 : constructEnum P_MONO 2 N_NONE G_LL O_NONE C_NONE 0 T_NONE (Fin F) c = Ok m0) (PH : physical g).
Context (Ht : 0 < t) (PN : 0 < N0) (PM : 0 < M1).
Lemma C96_ll_exact_ : exists f, f 0 = M1 /\ llLaw g N0 f /\
  forall y, (forall n, y n 0%nat = [N0; M1] /\ marches m0 2 g (t / INR (S n)) (eig n) (y n)) -> Un_cv (fun n => el (y n (S n)) 1) (f t).
Proof.
  exists (fun t => Rpower (Rpower M1 (2 / 3) + 2 * llStep t g N0 / 3) (3 / 2)). split; [|split; [exact (llLaw_ok g N0 M1 PH PN PM)|]].
  { replace (2 * llStep 0 g N0 / 3) with 0 by (unfold llStep; field). rewrite Rplus_0_r. exact (pow32 M1 PM). }
  intros y Hy. set (u := Rpower M1 (2 / 3)). assert (PU : 0 < u) by apply exp_pos. set (H := llStep t g N0). assert (PHs : 0 <= H) by now apply llStep_nn.
  assert (HH : forall n, INR (S n) * (2 * llStep (t / INR (S n)) g N0 / 3) = 2 * H / 3 /\ INR (S n) * (llStep (t / INR (S n)) g N0 ^ 2 / (9 * u)) = H ^ 2 / (9 * u) * / INR (S n)).
  { intros n. assert (0 < INR (S n)) by (apply lt_0_INR; lia). unfold H, llStep. split; field; lra. }
  assert (B : forall n, 0 < el (y n (S n)) 1 /\ u + 2 * H / 3 - H ^ 2 / (9 * u) * / INR (S n) <= Rpower (el (y n (S n)) 1) (2 / 3) <= u + 2 * H / 3).
  { intros n. destruct (Hy n) as (Y0 & M). assert (0 < INR (S n)) by (apply lt_0_INR; lia). assert (0 < t / INR (S n)) by (apply Rdiv_lt_0_compat; auto).
    destruct (proj2 (C96_ll_ F c m0 g (t / INR (S n)) N0 M1 (eig n) E0 PH ltac:(assumption) PN PM) (y n) Y0 M (S n)) as (_ & P & Q). split; [exact P|].
    destruct (HH n) as (A1 & A2). fold u in Q. rewrite A1, A2 in Q. exact Q. }
  assert (CR : Un_cv (fun n => Rpower (el (y n (S n)) 1) (2 / 3)) (u + 2 * H / 3)).
  { intros e He. set (C := H ^ 2 / (9 * u)). assert (PC : 0 <= C) by (unfold C; apply Rmult_le_pos; [apply pow2_ge_0|left; apply Rinv_0_lt_compat; lra]).
    destruct (archimed_cor1 (e / (C + 1))) as (n0 & L0 & P0); [apply Rdiv_lt_0_compat; lra|]. exists n0. intros n Hn. destruct (B n) as (_ & Q1 & Q2). fold C in Q1. unfold R_dist.
    assert (P1 : 0 < INR n0) by (apply lt_0_INR; lia). assert (P2 : INR n0 <= INR (S n)) by (apply le_INR; lia).
    assert (IL : / INR (S n) <= / INR n0) by (apply Rinv_le_contravar; lra). assert (PI : 0 < / INR (S n)) by (apply Rinv_0_lt_compat; lra).
    assert (CE : C * / INR (S n) < e). { apply Rle_lt_trans with ((C + 1) * / INR n0); [nra|]. apply (Rmult_lt_compat_l (C + 1)) in L0; [|lra]. replace ((C + 1) * (e / (C + 1))) with e in L0 by (field; lra). exact L0. }
    rewrite Rabs_left1; lra. }
  apply (cv_S (fun n => Rpower (Rpower (el (y n (S n)) 1) (2 / 3)) (3 / 2))).
  - apply (continuity_seq (fun x => Rpower x (3 / 2))); [|exact CR]. apply derivable_continuous_pt. exists (3 / 2 * Rpower (u + 2 * H / 3) (3 / 2 - 1)). apply derivable_pt_lim_power. lra.
  - intros n. destruct (B n) as (P & _). now apply pow32.
Qed.
End RefineLL.
Lemma ll_grows : exists m : model (N:=XR), constructEnum P_MONO 2 N_NONE G_LL O_NONE C_NONE 0 T_NONE (Fin 2) 100 = Ok m /\ physical demoGas /\ 0 < llStep 1 demoGas 1.
Proof.
  eexists. split; [reflexivity|]. split; [exact demo_physical|]. unfold llStep, llRate, conc. cbn [demoGas gT gRho gY]. pose proof massC_pos. pose proof (DriftProofs.mm_pos' C2H2). pose proof areaCoef_pos'.
  apply Rmult_lt_0_compat; [|apply sqrt_lt_R0, Rmult_lt_0_compat; [assumption|apply exp_pos]]. rewrite Rmult_1_l. apply Rmult_lt_0_compat; [|lra]. apply Rmult_lt_0_compat; [|apply Rdiv_lt_0_compat; lra]. apply Rmult_lt_0_compat; [lra|apply exp_pos].
Qed.
