(** Proofs for C100: growth by Leung and Lindstedt against oxidation in a time loop. *)
From Coq Require Import ZArith List Bool Reals Lra Lia.
From Verif Require Import Num Defs State Coag Nucl Growth Oxid Tar SootModel Mono Qmom Momic Calls XR XRLemmas NumLaws SpecState SpecConfig SpecChem SpecCoag SpecValid SpecRates SpecGas SpecPah SpecPsd SpecSect SpecQmom SpecStep SpecFinite SpecMarch SpecBurn SpecGrow SpecGrowLL SpecEquil
  ConfigProofs CoagProofs StateProofs StateXR ValidProofs RateProofs PsdProofs PahProofs MonoProofs MonoMain MonoCases ChemAll SectProofs SectMain SectBins SectCases SectFinal FiniteMain VesselProofs StepProofs ClosureProofs DocsProofs MarchProofs MarchMain MarchSect BurnProofs BurnMain BurnCases GrowMain GrowCases GrowLL NumCont.
Import ListNotations.
Local Open Scope R_scope.

(** ** the recursion *)
Section Mass.
Context (b us M1 : R) (Pb : 0 < b) (Pu : 0 < us) (SH : b <= 3 * us) (PM : 0 < M1).
Fixpoint bal (i : nat) : R := match i with O => M1 | S j => bal j + (b * us * Rpower (bal j) (1 / 3) - b * Rpower (bal j) (1 / 3) ^ 2) end.
Let Ms := us ^ 3.
Let ww u := u ^ 2 + u * us + us ^ 2.
Lemma bal_S i : bal (S i) = bal i + (b * us * root (bal i) - b * root (bal i) ^ 2). Proof. reflexivity. Qed.
Lemma bal_id i : 0 < bal i -> let u := root (bal i) in bal (S i) - Ms = (u - us) * (ww u - b * u) /\ bal i - Ms = (u - us) * ww u.
Proof. intros H u. pose proof (root3 _ H) as E. fold u in E. rewrite bal_S. fold u. unfold Ms, ww. rewrite <- E. split; ring. Qed.
Lemma rho_nn u : 0 < u -> 0 <= ww u - b * u.
Proof. intros H. assert (b * u <= 3 * us * u) by (apply Rmult_le_compat_r; lra). assert (0 <= (u - us) ^ 2) by apply pow2_ge_0. unfold ww. nra. Qed.
Lemma ww_pos u : 0 < u -> 0 < ww u.
Proof. intros H. unfold ww. assert (0 < u ^ 2) by now apply pow_lt. assert (0 < us ^ 2) by now apply pow_lt. assert (0 < u * us) by now apply Rmult_lt_0_compat. lra. Qed.
Lemma bal_pos i : 0 < bal i.
Proof.
  induction i as [|i IH]; [exact PM|]. destruct (bal_id i IH) as (A & _). pose proof (root_pos (bal i)) as P. set (u := root (bal i)) in *. destruct (Rle_lt_dec u us) as [L|L].
  - rewrite bal_S. fold u. assert (0 <= b * u * (us - u)) by (apply Rmult_le_pos; [apply Rmult_le_pos; lra|lra]). nra.
  - assert (0 <= (u - us) * (ww u - b * u)) by (apply Rmult_le_pos; [lra|now apply rho_nn]). assert (0 < Ms) by now apply pow_lt. lra.
Qed.
Lemma bal_ratio i : bal (S i) - Ms = (bal i - Ms) * (1 - b * root (bal i) / ww (root (bal i))) /\ 0 <= 1 - b * root (bal i) / ww (root (bal i)) <= 1.
Proof.
  destruct (bal_id i (bal_pos i)) as (A & B). pose proof (root_pos (bal i)) as P. set (u := root (bal i)) in *. pose proof (ww_pos u P) as W. pose proof (rho_nn u P) as Q. split; [rewrite A, B; field; lra|].
  replace (1 - b * u / ww u) with ((ww u - b * u) / ww u) by (field; lra). assert (I : 0 < / ww u) by now apply Rinv_0_lt_compat. split; [apply Rmult_le_pos; lra|].
  apply (Rmult_le_reg_r (ww u)); [exact W|]. replace ((ww u - b * u) / ww u * ww u) with (ww u - b * u) by (field; lra). assert (0 < b * u) by now apply Rmult_lt_0_compat. lra.
Qed.
Lemma bal_closer i : Rabs (bal (S i) - Ms) <= Rabs (bal i - Ms).
Proof.
  destruct (bal_ratio i) as (A & B & C). rewrite A, Rabs_mult. rewrite (Rabs_right (1 - _)) by lra. rewrite <- (Rmult_1_r (Rabs (bal i - Ms))) at 2. apply Rmult_le_compat_l; [apply Rabs_pos|exact C].
Qed.
Lemma bal_side i : exists r, 0 <= r <= 1 /\ bal i - Ms = r * (M1 - Ms).
Proof.
  induction i as [|i (r & R1 & R2)]; [exists 1; split; [lra|cbn [bal]; ring]|]. destruct (bal_ratio i) as (A & B & C). set (q := 1 - _) in *. exists (r * q). split; [split; [apply Rmult_le_pos; lra|]|rewrite A, R2; ring].
  replace 1 with (1 * 1) by ring. apply Rmult_le_compat; lra.
Qed.
Let lo := Rmin (root M1) us.
Let hi := Rmax (root M1) us.
Lemma bal_range i : lo <= root (bal i) <= hi.
Proof.
  destruct (bal_side i) as (r & R1 & R2). pose proof (root_pos M1) as P. pose proof (root3 _ PM) as E. pose proof (root3 _ (bal_pos i)) as Ei. assert (Pl : 0 < lo) by (apply Rmin_glb_lt; auto).
  assert (Ph : 0 < hi) by (eapply Rlt_le_trans; [exact Pu|apply Rmax_r]). assert (L1 : lo ^ 3 <= M1) by (rewrite <- E; apply pow_incr; split; [lra|apply Rmin_l]). assert (L2 : lo ^ 3 <= Ms) by (apply pow_incr; split; [lra|apply Rmin_r]).
  assert (H1 : M1 <= hi ^ 3) by (rewrite <- E; apply pow_incr; split; [lra|apply Rmax_l]). assert (H2 : Ms <= hi ^ 3) by (apply pow_incr; split; [lra|apply Rmax_r]).
  assert (V : bal i = r * M1 + (1 - r) * Ms) by lra. split; apply cube_le; auto using root_pos; rewrite Ei, V.
  - assert (r * lo ^ 3 <= r * M1) by (apply Rmult_le_compat_l; lra). assert ((1 - r) * lo ^ 3 <= (1 - r) * Ms) by (apply Rmult_le_compat_l; lra). lra.
  - assert (r * M1 <= r * hi ^ 3) by (apply Rmult_le_compat_l; lra). assert ((1 - r) * Ms <= (1 - r) * hi ^ 3) by (apply Rmult_le_compat_l; lra). lra.
Qed.
Lemma bal_cv : Un_cv bal Ms.
Proof.
  pose proof (root_pos M1) as P. assert (Pl : 0 < lo) by (apply Rmin_glb_lt; auto). assert (LH : lo <= hi) by (eapply Rle_trans; [apply Rmin_r|apply Rmax_r]). assert (UH : us <= hi) by apply Rmax_r. assert (P2 : 0 < 3 * hi ^ 2) by (assert (0 < hi ^ 2) by (apply pow_lt; lra); lra).
  set (q := b * lo / (3 * hi ^ 2)). assert (Pq : 0 < q) by (apply Rdiv_lt_0_compat; [now apply Rmult_lt_0_compat|exact P2]).
  assert (STEP : forall i, q <= b * root (bal i) / ww (root (bal i))).
  { intros i. destruct (bal_range i) as (A & B). pose proof (root_pos (bal i)) as Pr. set (u := root (bal i)) in *. pose proof (ww_pos u Pr) as W. unfold q, Rdiv. apply Rmult_le_compat; [apply Rmult_le_pos; lra|left; now apply Rinv_0_lt_compat|apply Rmult_le_compat_l; lra|].
    apply Rinv_le_contravar; [exact W|]. unfold ww. assert (u ^ 2 <= hi ^ 2) by (apply pow_incr; lra). assert (us ^ 2 <= hi ^ 2) by (apply pow_incr; lra). assert (u * us <= hi * hi) by (apply Rmult_le_compat; lra). lra. }
  intros z Hz. destruct (contract (fun i => Rabs (bal i - Ms)) (fun _ => 0) q) with (z := z) as (n & Hn); auto.
  - split; [exact Pq|]. destruct (bal_ratio 0) as (_ & A & _). pose proof (STEP 0%nat). lra.
  - intros i. apply Rabs_pos.
  - intros i. destruct (bal_ratio i) as (A & B & C). rewrite A, Rabs_mult, (Rabs_right (1 - b * _ / _)) by lra. pose proof (STEP i). rewrite Rplus_0_r, Rmult_comm. apply Rmult_le_compat_r; [apply Rabs_pos|lra].
  - intros w Hw. exists 0%nat. intros. lra.
  - exists n. intros i Hi. unfold R_dist. apply Hn. lia.
Qed.
End Mass.

Section MonoBal.
Context (ox : oxidationMech) (F : R) (c : Z) (m0 : model (N:=XR)) (g : gas) (dt N0 M1 : R) (eig : nat -> eigSolver (N:=XR)).
Context (E0 : constructEnum P_MONO 2 N_NONE G_LL ox C_NONE 0 T_NONE (Fin F) c = Ok m0) (NH : ox <> O_HACA) (PH : physical g).
Context (Hd : 0 < dt) (PN : 0 < N0) (PM : 0 < M1).
Let K := oxidFormula ox g N0 M1.
Context (PL : 0 < llRate g) (PK : 0 < K).
Let k := mkMechs N_NONE G_LL ox C_NONE 1.
Let s := sqrt (areaCoef * Rpower N0 (1 / 3)).
Let us := llRate g / (K * s).
Let b := dt * K * s ^ 2.
Let Ms := balanceMass g K N0.
Context (SHORT : dt * (K * surface N0 Ms) <= 3 * Ms).
Lemma bs_pos : 0 < s. Proof. apply sqrt_lt_R0, Rmult_lt_0_compat; [exact areaCoef_pos'|apply exp_pos]. Qed.
Lemma bs_sq : s ^ 2 = areaCoef * Rpower N0 (1 / 3). Proof. unfold s. apply pow2_sqrt. left. apply Rmult_lt_0_compat; [exact areaCoef_pos'|apply exp_pos]. Qed.
Lemma bu_pos : 0 < us. Proof. pose proof bs_pos. apply Rdiv_lt_0_compat; [exact PL|now apply Rmult_lt_0_compat]. Qed.
Lemma bb_pos : 0 < b. Proof. pose proof bs_pos. unfold b. apply Rmult_lt_0_compat; [now apply Rmult_lt_0_compat|now apply pow_lt]. Qed.
Lemma bM_pos : 0 < Ms. Proof. unfold Ms, balanceMass. fold s. fold us. apply pow_lt, bu_pos. Qed.
Lemma b_surface M : 0 < M -> surface N0 M = s ^ 2 * root M ^ 2.
Proof. intros H. rewrite surface_sphere, surface_pow, root2, bs_sq by auto. ring. Qed.
Lemma b_short : b <= 3 * us.
Proof.
  pose proof SHORT as Q. rewrite b_surface in Q by exact bM_pos. assert (E : Ms = us ^ 3) by reflexivity. rewrite E in Q. rewrite root_cube in Q by exact bu_pos. pose proof bu_pos as P.
  assert (P2 : 0 < us ^ 2) by now apply pow_lt. apply (Rmult_le_reg_r (us ^ 2)); [exact P2|]. unfold b. replace (3 * us * us ^ 2) with (3 * us ^ 3) by ring. replace (dt * K * s ^ 2 * us ^ 2) with (dt * (K * (s ^ 2 * us ^ 2))) by ring. exact Q.
Qed.
Let GC : goodConfig P_MONO 2 N_NONE C_NONE T_NONE F c.
Proof. split; [left; repeat split; discriminate|split; [reflexivity|exact I]]. Qed.
Let OK : okAll k.
Proof. destruct (start P_MONO 2 N_NONE G_LL ox C_NONE 0 T_NONE F c m0 GC E0) as (_ & A & _). exact A. Qed.
Let ms := bal b us M1.
Lemma bm_pos i : 0 < ms i. Proof. apply bal_pos; auto using bb_pos, bu_pos, b_short. Qed.
Let traj i := [N0; ms i].
Let src i := [0; (growFormula G_LL g N0 (ms i) - oxidFormula ox g N0 (ms i)) * (N0 * sphere (ms i / N0))].
Lemma b_noHaca : mG k = G_HACA \/ mO k = O_HACA -> False.
Proof. unfold k. cbn [mG mO]. intros [Z|Z]; [discriminate Z|contradiction]. Qed.
Lemma b_ok i : goodStep P_MONO k (geometric c F 2) 2 0 (mkStep g (traj i) [] (eig i)).
Proof.
  pose proof (bm_pos i). split; [exact PH|]. split; [reflexivity|]. split; [reflexivity|]. split; [cbn [spSoot]; unfold traj; intros x [<-|[<-|[]]]; lra|].
  split; [intros y []|]. split; [|exact I]. intros H1. destruct (b_noHaca H1).
Qed.
Lemma b_kernel x y : kernel k g x y = 0.
Proof. unfold kernel, k. cbn [mC mF]. repeat (destruct (Rlt_dec _ _)); try reflexivity; ring. Qed.
Lemma b_call i st m s0 : hasAll m k -> sm_psd m = P_MONO -> extra P_MONO k 2 F c st m s0 -> valid s0 g (traj i) ->
  exists st' m' s', setSourceTerms st (eig i) m s0 = Ok (st', m', s') /\ soots m' = map Fin (src i).
Proof.
  intros HM HP (_ & HT & w & x & W & A) V.
  destruct (C22_ m s0 g k N0 (ms i) st (eig i) HP HM OK HT V PN) as (m' & s' & E & Q & _).
  - intros H1. destruct (b_noHaca H1).
  - now rewrite W.
  - now rewrite A.
  - exists st, m', s'. split; [exact E|]. rewrite Q. unfold src. unfold koxid, kgrow.
    rewrite !b_kernel. unfold k, nucl, isP, oN1, Jnuc. cbn [mN mG mO mC mF oJ oGas oMass oConc nuclFormula map].
    refine (f_equal2 (fun a b => [Fin a; Fin b]) _ _); unfold Rdiv; ring.
Qed.
Lemma b_next i : traj (S i) = euler dt (traj i) (src i).
Proof.
  unfold traj, src, euler. cbn [combine map fst snd]. unfold ms. rewrite bal_S. fold ms. rewrite <- surface_sphere by (auto using bm_pos). rewrite Rmult_minus_distr_r, ll_source by (auto using bm_pos).
  rewrite (any_moments ox g N0 (ms i) N0 M1 NH). fold K. rewrite sqrt_surface, b_surface by (auto using bm_pos). fold s. pose proof bs_pos. f_equal; [ring|f_equal]. unfold b, us. field. lra.
Qed.
Lemma b_balance : growFormula G_LL g N0 Ms = oxidFormula ox g N0 Ms.
Proof.
  pose proof bM_pos as P. pose proof bs_pos. pose proof bu_pos. pose proof (surface_positive N0 Ms PN P) as PS. apply (Rmult_eq_reg_r (surface N0 Ms)); [|lra]. rewrite ll_source by auto.
  rewrite (any_moments ox g N0 Ms N0 M1 NH). fold K. rewrite sqrt_surface, b_surface by auto. fold s. assert (E : Ms = us ^ 3) by reflexivity. rewrite E, root_cube by auto. unfold us. field. lra.
Qed.
Lemma C100_ : growFormula G_LL g N0 Ms = oxidFormula ox g N0 Ms /\ (exists y, y 0%nat = [N0; M1] /\ marches m0 2 g dt eig y) /\
  forall y, y 0%nat = [N0; M1] -> marches m0 2 g dt eig y ->
    (forall i, el (y i) 0 = N0 /\ 0 < el (y i) 1 /\ Rabs (el (y (S i)) 1 - Ms) <= Rabs (el (y i) 1 - Ms) /\ exists r, 0 <= r <= 1 /\ el (y i) 1 = r * M1 + (1 - r) * Ms) /\
    Un_cv (fun i => el (y i) 1) Ms.
Proof.
  split; [exact b_balance|]. split; [exists traj; split; [reflexivity|exact (traj_marches P_MONO 2 N_NONE G_LL ox C_NONE T_NONE F c m0 GC E0 g dt eig traj src b_ok b_call (fun _ => eq_refl) b_next)]|].
  intros y Y0 M. assert (Y : forall i, y i = traj i) by exact (only_traj P_MONO 2 N_NONE G_LL ox C_NONE T_NONE F c m0 GC E0 g dt eig traj src b_ok b_call b_next y Y0 M). split.
  - intros i. rewrite !Y. cbn [traj el nth]. split; [reflexivity|]. split; [apply bm_pos|]. split; [exact (bal_closer b us M1 bb_pos bu_pos b_short PM i)|].
    destruct (bal_side b us M1 bb_pos bu_pos b_short PM i) as (r & R1 & R2). exists r. split; [exact R1|]. change (us ^ 3) with Ms in R2. fold ms in R2. lra.
  - apply (cv_S ms); [exact (bal_cv b us M1 bb_pos bu_pos b_short PM)|]. intros i. now rewrite Y.
Qed.
End MonoBal.

Lemma balance_case : exists (m : model (N:=XR)) dt, constructEnum P_MONO 2 N_NONE G_LL O_MB C_NONE 0 T_NONE (Fin 2) 100 = Ok m /\ physical demoGas /\
  let K := oxidFormula O_MB demoGas 1 1 in let Ms := balanceMass demoGas K 1 in 0 < llRate demoGas /\ 0 < K /\ 0 < Ms /\ 0 < dt /\ dt * (K * surface 1 Ms) <= 3 * Ms.
Proof.
  assert (E : exists m : model (N:=XR), constructEnum P_MONO 2 N_NONE G_LL O_MB C_NONE 0 T_NONE (Fin 2) 100 = Ok m) by (eexists; reflexivity). destruct E as (m & E0).
  assert (PL : 0 < llRate demoGas). { unfold llRate, conc. cbn [demoGas gT gRho gY]. pose proof massC_pos. pose proof (DriftProofs.mm_pos' C2H2). apply Rmult_lt_0_compat; [|lra]. apply Rmult_lt_0_compat; [|apply Rdiv_lt_0_compat; lra]. apply Rmult_lt_0_compat; [lra|apply exp_pos]. }
  pose proof (MB_burns 1 1) as PK. set (K := oxidFormula O_MB demoGas 1 1) in *. pose proof (bM_pos O_MB demoGas 1 1 PL PK) as PM. fold K in PM. set (Ms := balanceMass demoGas K 1) in *.
  pose proof (surface_positive 1 Ms ltac:(lra) PM) as PS. assert (PKS : 0 < K * surface 1 Ms) by now apply Rmult_lt_0_compat.
  exists m, (3 * Ms / (K * surface 1 Ms)). split; [exact E0|]. split; [exact demo_physical|]. cbv zeta. fold K. fold Ms. split; [exact PL|]. split; [exact PK|]. split; [exact PM|]. split; [apply Rdiv_lt_0_compat; lra|].
  right. field. split; lra.
Qed.
