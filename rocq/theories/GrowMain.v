(** Proofs for C96: growth in a time loop. *)
From Coq Require Import ZArith List Bool Reals Lra Lia.
From Verif Require Import Num Defs State Coag Nucl Growth Oxid Tar SootModel Mono Qmom Momic Calls XR XRLemmas NumLaws SpecState SpecConfig SpecChem SpecCoag SpecValid SpecRates SpecGas SpecPah SpecPsd SpecSect SpecQmom SpecStep SpecFinite SpecMarch SpecBurn SpecGrow
  ConfigProofs CoagProofs StateProofs StateXR ValidProofs RateProofs PsdProofs PahProofs MonoProofs MonoMain MonoCases ChemAll SectProofs SectMain SectBins SectCases SectFinal FiniteMain VesselProofs StepProofs ClosureProofs DocsProofs MarchProofs MarchMain MarchSect BurnProofs BurnMain.
Import ListNotations.
Local Open Scope R_scope.

Lemma any_soot gr g a b a' b' : ageless gr -> 0 < a -> 0 < b -> 0 < a' -> 0 < b' -> growFormula gr g a b = growFormula gr g a' b'.
Proof.
  intros H A B A' B'. pose proof (surface_positive a b A B). pose proof (surface_positive a' b' A' B').
  destruct H as [->|[->| ->]]; unfold growFormula; cbv zeta; [reflexivity| |]; destruct (Rlt_dec 0 (surface a b)), (Rlt_dec 0 (surface a' b')); try contradiction; reflexivity.
Qed.
Lemma no_kernel' gr g x y : kernel (grow gr) g x y = 0.
Proof. unfold kernel, grow. cbn [mC mF]. repeat (destruct (Rlt_dec _ _)); try reflexivity; ring. Qed.
Lemma surface_pow N M : 0 < N -> 0 < M -> N * sphere (M / N) = areaCoef * Rpower N (1 / 3) * Rpower M (2 / 3).
Proof.
  intros PN H. assert (0 < M / N) by (apply Rdiv_lt_0_compat; auto). rewrite sphere_pow by auto.
  assert (E : N * Rpower (M / N) (2 / 3) = Rpower N (1 / 3) * Rpower M (2 / 3)).
  { unfold Rdiv at 1. rewrite <- Rpower_mult_distr by (auto; now apply Rinv_0_lt_compat). rewrite <- (Rpower_1 N PN) at 1.
    unfold Rpower. rewrite ln_Rinv by auto. rewrite <- !exp_plus. f_equal. lra. }
  transitivity (areaCoef * (N * Rpower (M / N) (2 / 3))); [ring|]. rewrite E. ring.
Qed.
Lemma surface_sphere N M : 0 < N -> 0 < M -> surface N M = N * sphere (M / N).
Proof. intros A B. assert (0 < M / N) by (apply Rdiv_lt_0_compat; auto). unfold surface, sphere. destruct (Rlt_dec 0 N), (Rlt_dec 0 M), (Rlt_dec 0 (M / N)); try contradiction; reflexivity. Qed.

(** ** the recursion *)
Lemma cube_le a b : 0 < b -> a ^ 3 <= b ^ 3 -> a <= b.
Proof. intros B H. destruct (Rle_lt_dec a b) as [L|L]; [exact L|]. assert (0 < (a - b) * (a ^ 2 + a * b + b ^ 2)) by (apply Rmult_lt_0_compat; nra). nra. Qed.
Lemma one_growth u v h : 0 < u -> 0 < v -> 0 <= h -> v ^ 3 = u ^ 3 + h * u ^ 2 -> u + h / 3 - h ^ 2 / (9 * u) <= v <= u + h / 3.
Proof.
  intros U V H E. split; apply cube_le; auto; try lra.
  - rewrite E. set (z := h / (3 * u)). assert (Z : 0 <= z) by (unfold z; apply Rmult_le_pos; [lra|left; apply Rinv_0_lt_compat; lra]).
    replace (u + h / 3 - h ^ 2 / (9 * u)) with (u * (1 + z - z ^ 2)) by (unfold z; field; lra). replace h with (3 * u * z) by (unfold z; field; lra).
    replace (u ^ 3 + 3 * u * z * u ^ 2) with (u ^ 3 * (1 + 3 * z)) by ring. rewrite Rpow_mult_distr. apply Rmult_le_compat_l; [left; now apply pow_lt|].
    assert (0 <= z ^ 3 * ((z - 2) ^ 2 * (z + 1) + 1)). { apply Rmult_le_pos; [now apply pow_le|]. assert (0 <= (z - 2) ^ 2) by apply pow2_ge_0. nra. }
    assert (Q : 1 + 3 * z - (1 + z - z ^ 2) ^ 3 = z ^ 3 * ((z - 2) ^ 2 * (z + 1) + 1)) by ring. lra.
  - rewrite E. assert (0 <= h ^ 2 * u) by (apply Rmult_le_pos; [apply pow2_ge_0|lra]). assert (0 <= h ^ 3) by now apply pow_le.
    replace ((u + h / 3) ^ 3) with (u ^ 3 + h * u ^ 2 + h ^ 2 * u / 3 + h ^ 3 / 27) by field. lra.
Qed.
Definition root (M : R) : R := Rpower M (1 / 3).
Lemma root_pos M : 0 < root M. Proof. apply exp_pos. Qed.
Lemma root3 M : 0 < M -> root M ^ 3 = M.
Proof. intros H. unfold root. rewrite <- Rpower_3 by apply exp_pos. rewrite Rpower_mult. replace (1 / 3 * 3) with 1 by field. now rewrite Rpower_1. Qed.
Lemma root2 M : Rpower M (2 / 3) = root M ^ 2.
Proof. unfold root. rewrite <- (Rpower_third2 M). ring. Qed.
Lemma root_cube u : 0 < u -> root (u ^ 3) = u.
Proof. intros H. unfold root. rewrite <- Rpower_3 by auto. rewrite Rpower_mult. replace (3 * (1 / 3)) with 1 by field. now apply Rpower_1. Qed.
Section Mass.
Context (h M1 : R) (Ph : 0 <= h) (PM : 0 < M1).
Fixpoint grown (i : nat) : R := match i with O => M1 | S j => grown j + h * Rpower (grown j) (2 / 3) end.
Lemma grown_pos i : 0 < grown i.
Proof. induction i; cbn [grown]; [exact PM|]. assert (0 < Rpower (grown i) (2 / 3)) by apply exp_pos. nra. Qed.
Lemma grown_ge i : root M1 <= root (grown i).
Proof.
  induction i as [|i IH]; [cbn [grown]; lra|]. apply Rle_trans with (1 := IH). apply cube_le; [apply root_pos|]. rewrite !root3 by apply grown_pos. cbn [grown].
  assert (0 < Rpower (grown i) (2 / 3)) by apply exp_pos. nra.
Qed.
Lemma grown_root i : root M1 + INR i * (h / 3) - INR i * (h ^ 2 / (9 * root M1)) <= root (grown i) <= root M1 + INR i * (h / 3).
Proof.
  induction i as [|i IH]; [cbn [INR grown]; lra|]. rewrite S_INR.
  destruct (one_growth (root (grown i)) (root (grown (S i))) h (root_pos _) (root_pos _) Ph) as (A & B). { rewrite !root3 by apply grown_pos. cbn [grown]. now rewrite root2. }
  pose proof (grown_ge i) as G. pose proof (root_pos M1) as P.
  assert (h ^ 2 / (9 * root (grown i)) <= h ^ 2 / (9 * root M1)). { unfold Rdiv. apply Rmult_le_compat_l; [apply pow2_ge_0|]. apply Rinv_le_contravar; lra. }
  lra.
Qed.
End Mass.

(** ** one size *)
Section MonoGrow.
Context (gr : growthMech) (F : R) (c : Z) (m0 : model (N:=XR)) (g : gas) (dt N0 M1 : R) (eig : nat -> eigSolver (N:=XR)).
Context (E0 : constructEnum P_MONO 2 N_NONE gr O_NONE C_NONE 0 T_NONE (Fin F) c = Ok m0) (AG : ageless gr) (PH : physical g).
Context (Hd : 0 < dt) (PN : 0 < N0) (PM : 0 < M1).
Let k := grow gr.
Let K := growFormula gr g N0 M1.
Let h := growStep dt K N0.
Let NG : gr <> G_HACA. Proof. destruct AG as [->|[->| ->]]; discriminate. Qed.
Let OK : okAll k.
Proof.
  destruct (start P_MONO 2 N_NONE gr O_NONE C_NONE 0 T_NONE F c m0) as (_ & A & _); [|exact E0|exact A].
  split; [left; repeat split; discriminate|split; [reflexivity|exact I]].
Qed.
Let GC : goodConfig P_MONO 2 N_NONE C_NONE T_NONE F c.
Proof. split; [left; repeat split; discriminate|split; [reflexivity|exact I]]. Qed.
Let PK : 0 <= K.
Proof.
  destruct (setTo_ok None m0 (newState 2 0) g [N0; M1] []) as (s & _ & V & _); try reflexivity; auto.
  - intros x [<-|[<-|[]]]; lra.
  - intros x [].
  - unfold K. eapply growFormula_nneg; eauto.
Qed.
Lemma gh_nn : 0 <= h.
Proof. unfold h, growStep. apply Rmult_le_pos; [|left; apply exp_pos]. apply Rmult_le_pos; [|left; exact areaCoef_pos']. apply Rmult_le_pos; lra. Qed.
Let ms := grown h M1.
Lemma ms_pos i : 0 < ms i. Proof. apply grown_pos; [exact gh_nn|exact PM]. Qed.
Let traj i := [N0; ms i].
Let src i := [0; K * (N0 * sphere (ms i / N0))].
Lemma grow_ok i : goodStep P_MONO k (geometric c F 2) 2 0 (mkStep g (traj i) [] (eig i)).
Proof.
  pose proof (ms_pos i). split; [exact PH|]. split; [reflexivity|]. split; [reflexivity|]. split; [cbn [spSoot]; unfold traj; intros x [<-|[<-|[]]]; lra|].
  split; [intros y []|]. split; [|exact I]. intros [H1|H1]; [contradiction|discriminate H1].
Qed.
Lemma grow_call i st m s : hasAll m k -> sm_psd m = P_MONO -> extra P_MONO k 2 F c st m s -> valid s g (traj i) ->
  exists st' m' s', setSourceTerms st (eig i) m s = Ok (st', m', s') /\ soots m' = map Fin (src i).
Proof.
  intros HM HP (_ & HT & w & x & W & A) V.
  destruct (C22_ m s g k N0 (ms i) st (eig i) HP HM OK HT V PN) as (m' & s' & E & Q & _).
  - intros [H1|H1]; [contradiction|discriminate H1].
  - now rewrite W.
  - now rewrite A.
  - exists st, m', s'. split; [exact E|]. rewrite Q. unfold src. unfold koxid, kgrow, K. rewrite (any_soot gr g N0 M1 N0 (ms i) AG PN PM PN (ms_pos i)).
    unfold k. rewrite !no_kernel'. unfold grow, nucl, isP, oN1, Jnuc. cbn [mN mG mO mC mF oJ oGas oMass oConc nuclFormula oxidFormula map].
    refine (f_equal2 (fun a b => [Fin a; Fin b]) _ _); unfold Rdiv; ring.
Qed.
Lemma grow_next i : traj (S i) = euler dt (traj i) (src i).
Proof. unfold traj, src, euler. cbn [combine map fst snd]. unfold ms. cbn [grown]. fold ms. rewrite surface_pow by (auto using ms_pos). unfold h, growStep. f_equal; [ring|f_equal; ring]. Qed.
Lemma grow_mono_traj : marches m0 2 g dt eig traj.
Proof. exact (traj_marches P_MONO 2 N_NONE gr O_NONE C_NONE T_NONE F c m0 GC E0 g dt eig traj src grow_ok grow_call (fun _ => eq_refl) grow_next). Qed.
Lemma grow_mono_only y : y 0%nat = [N0; M1] -> marches m0 2 g dt eig y -> forall i, y i = traj i.
Proof. intros Y0. exact (only_traj P_MONO 2 N_NONE gr O_NONE C_NONE T_NONE F c m0 GC E0 g dt eig traj src grow_ok grow_call grow_next y Y0). Qed.
Lemma C96_mono_ : (exists y, y 0%nat = [N0; M1] /\ marches m0 2 g dt eig y) /\
  forall y, y 0%nat = [N0; M1] -> marches m0 2 g dt eig y -> forall i,
    el (y i) 0 = N0 /\ 0 < el (y i) 1 /\ Rpower M1 (1 / 3) + INR i * (h / 3) - INR i * (h ^ 2 / (9 * Rpower M1 (1 / 3))) <= Rpower (el (y i) 1) (1 / 3) <= Rpower M1 (1 / 3) + INR i * (h / 3).
Proof.
  split; [exists traj; split; [reflexivity|exact grow_mono_traj]|]. intros y Y0 M i. rewrite (grow_mono_only y Y0 M). split; [reflexivity|]. split; [apply ms_pos|]. exact (grown_root h M1 gh_nn PM i).
Qed.
End MonoGrow.
Lemma law K N M : 0 <= K -> 0 < N -> 0 < M -> growthLaw K N (fun t => (Rpower M (1 / 3) + growStep t K N / 3) ^ 3).
Proof.
  intros PK PN PM t Ht. set (a := K * areaCoef * Rpower N (1 / 3) / 3). set (u := Rpower M (1 / 3)). assert (PU : 0 < u) by apply exp_pos.
  assert (PA : 0 <= a). { unfold a. apply Rmult_le_pos; [|lra]. apply Rmult_le_pos; [|left; apply exp_pos]. apply Rmult_le_pos; [lra|left; exact areaCoef_pos']. }
  assert (EQ : forall x, u + growStep x K N / 3 = u + a * x) by (intros x; unfold growStep, a; field). assert (PF : 0 < u + a * t) by nra. rewrite EQ. split; [now apply pow_lt|].
  rewrite surface_sphere, surface_pow by (auto; now apply pow_lt). rewrite root2, root_cube by auto.
  replace (K * (areaCoef * Rpower N (1 / 3) * (u + a * t) ^ 2)) with (INR 3 * (u + a * t) ^ pred 3 * (0 + a * 1)) by (unfold a; cbn [INR pred]; field).
  apply (derivable_pt_lim_ext (fun x => (u + a * x) ^ 3)); [intros x; now rewrite EQ|].
  apply (derivable_pt_lim_comp (fun x => u + a * x) (fun x => x ^ 3)).
  - apply derivable_pt_lim_plus; [apply derivable_pt_lim_const|]. apply derivable_pt_lim_scal, derivable_pt_lim_id.
  - apply derivable_pt_lim_pow.
Qed.
Lemma cv_S u l : Un_cv u l -> forall v, (forall n, u n = v n) -> Un_cv v l.
Proof. intros H v E e He. destruct (H e He) as (n & Hn). exists n. intros i Hi. rewrite <- E. now apply Hn. Qed.
Section Refine.
Context (gr : growthMech) (F : R) (c : Z) (m0 : model (N:=XR)) (g : gas) (t N0 M1 : R) (eig : nat -> nat -> eigSolver (N:=XR)).
Context (E0 : constructEnum P_MONO 2 N_NONE gr O_NONE C_NONE 0 T_NONE (Fin F) c = Ok m0) (AG : ageless gr) (PH : physical g).
Context (Ht : 0 < t) (PN : 0 < N0) (PM : 0 < M1).
Let K := growFormula gr g N0 M1.
Let PK : 0 <= K.
Proof.
  destruct (setTo_ok None m0 (newState 2 0) g [N0; M1] []) as (s & _ & V & _); try reflexivity; auto.
  - intros x [<-|[<-|[]]]; lra.
  - intros x [].
  - unfold K. eapply growFormula_nneg; eauto.
Qed.
Lemma C96_exact_ : exists f, f 0 = M1 /\ growthLaw K N0 f /\
  forall y, (forall n, y n 0%nat = [N0; M1] /\ marches m0 2 g (t / INR (S n)) (eig n) (y n)) -> Un_cv (fun n => el (y n (S n)) 1) (f t).
Proof.
  exists (fun t => (Rpower M1 (1 / 3) + growStep t K N0 / 3) ^ 3). split; [|split; [exact (law K N0 M1 PK PN PM)|]].
  { replace (growStep 0 K N0 / 3) with 0 by (unfold growStep; field). rewrite Rplus_0_r. exact (root3 M1 PM). }
  intros y Hy. set (u := Rpower M1 (1 / 3)). assert (PU : 0 < u) by apply exp_pos. set (H := growStep t K N0).
  assert (HH : forall n, INR (S n) * (growStep (t / INR (S n)) K N0 / 3) = H / 3 /\ INR (S n) * (growStep (t / INR (S n)) K N0 ^ 2 / (9 * u)) = H ^ 2 / (9 * u) * / INR (S n)).
  { intros n. assert (0 < INR (S n)) by (apply lt_0_INR; lia). unfold H, growStep. split; field; lra. }
  assert (B : forall n, 0 < el (y n (S n)) 1 /\ u + H / 3 - H ^ 2 / (9 * u) * / INR (S n) <= root (el (y n (S n)) 1) <= u + H / 3).
  { intros n. destruct (Hy n) as (Y0 & M). assert (0 < INR (S n)) by (apply lt_0_INR; lia). assert (0 < t / INR (S n)) by (apply Rdiv_lt_0_compat; auto).
    destruct (proj2 (C96_mono_ gr F c m0 g (t / INR (S n)) N0 M1 (eig n) E0 AG PH ltac:(assumption) PN PM) (y n) Y0 M (S n)) as (_ & P & Q). split; [exact P|].
    destruct (HH n) as (A1 & A2). fold K u in Q. rewrite A1, A2 in Q. exact Q. }
  assert (CR : Un_cv (fun n => root (el (y n (S n)) 1)) (u + H / 3)).
  { intros e He. set (C := H ^ 2 / (9 * u)). assert (PC : 0 <= C) by (unfold C; apply Rmult_le_pos; [apply pow2_ge_0|left; apply Rinv_0_lt_compat; lra]).
    destruct (archimed_cor1 (e / (C + 1))) as (n0 & L0 & P0); [apply Rdiv_lt_0_compat; lra|]. exists n0. intros n Hn. destruct (B n) as (_ & Q1 & Q2). fold C in Q1. unfold R_dist.
    assert (P1 : 0 < INR n0) by (apply lt_0_INR; lia). assert (P2 : INR n0 <= INR (S n)) by (apply le_INR; lia).
    assert (IL : / INR (S n) <= / INR n0) by (apply Rinv_le_contravar; lra). assert (PI : 0 < / INR (S n)) by (apply Rinv_0_lt_compat; lra).
    assert (CE : C * / INR (S n) < e). { apply Rle_lt_trans with ((C + 1) * / INR n0); [nra|]. apply (Rmult_lt_compat_l (C + 1)) in L0; [|lra]. replace ((C + 1) * (e / (C + 1))) with e in L0 by (field; lra). exact L0. }
    rewrite Rabs_left1; lra. }
  apply (cv_S (fun n => root (el (y n (S n)) 1) * (root (el (y n (S n)) 1) * root (el (y n (S n)) 1)))).
  - replace ((u + H / 3) ^ 3) with ((u + H / 3) * ((u + H / 3) * (u + H / 3))) by ring. repeat apply CV_mult; exact CR.
  - intros n. destruct (B n) as (P & _). rewrite <- (root3 (el (y n (S n)) 1) P) at 4. ring.
Qed.
End Refine.

(** ** sections *)
Section SectGrow.
Context (n : nat) (gr : growthMech) (F : R) (c : Z) (m0 : model (N:=XR)) (g : gas) (dt : R) (y0 : list R) (eig : nat -> eigSolver (N:=XR)).
Context (E0 : constructEnum P_SECT n N_NONE gr O_NONE C_NONE 0 T_NONE (Fin F) c = Ok m0) (HF : doubleAbove1 F) (Hc : (0 < c)%Z) (Hs : SpecSect.sane n) (AG : ageless gr) (PH : physical g).
Let k := grow gr.
Let b := geometric c F n.
Let K := growFormula gr g 1 1.
Context (Hd : 0 < dt) (L0 : length y0 = n) (P0 : forall x, In x y0 -> 0 <= x) (M0 : 0 < mass b y0).
Context (PK : 0 < K) (SHORT : forall j, (S j < n)%nat -> dt * (K * sphere (el b j) / (el b (S j) - el b j)) <= 1).
Let NG : gr <> G_HACA. Proof. destruct AG as [->|[->| ->]]; discriminate. Qed.
Let GC : goodConfig P_SECT n N_NONE C_NONE T_NONE F c.
Proof. split; [left; repeat split; discriminate|split; [reflexivity|auto]]. Qed.
Let OK : okAll k.
Proof. destruct (start P_SECT n N_NONE gr O_NONE C_NONE 0 T_NONE F c m0 GC E0) as (_ & A & _). exact A. Qed.
Let GB : goodBins b. Proof. now apply G_geo. Qed.
Let EL : length b = n. Proof. apply geo_len. Qed.
Let src (y : list R) := map (sectSource k g b y (/ ln F) (nucl k g (dimerHits k g b y))) (seq 0 n).
Fixpoint gtraj (i : nat) : list R := match i with O => y0 | S j => euler dt (gtraj j) (src (gtraj j)) end.
Lemma gsrc_len y : length (src y) = n. Proof. unfold src. now rewrite map_length, seq_length. Qed.
Lemma gvalid y : length y = n -> (forall x, In x y -> 0 <= x) -> exists s : state (N:=XR), valid s g y.
Proof.
  intros L P. destruct (setTo_ok None m0 (newState n 0) g y []) as (s & _ & V & _); auto.
  - cbn [newState st_nsoot]. now rewrite L.
  - intros x [].
  - eauto.
Qed.
Lemma gnumber_el y : length y = n -> number y = Sum n (el y).
Proof. intros <-. unfold number. apply sum_Sum. Qed.
Lemma gmass_el y : length y = n -> mass b y = Sum n (fun j => el b j * el y j).
Proof. intros L. unfold mass. rewrite (dot_Sum b y ltac:(congruence)) by congruence. now rewrite EL. Qed.
Lemma gno_out y : nucl k g (dimerHits k g b y) = mkOut 0 g 0 0.
Proof. reflexivity. Qed.
Lemma gpos j : (j < n)%nat -> 0 < el b j. Proof. intros H. apply (bins_pos b GB). congruence. Qed.
Lemma glast j : (j < n)%nat -> el b j <= el b (n - 1).
Proof. intros Hj. destruct (Nat.eq_dec j (n - 1)) as [->|]; [lra|]. left. apply (bins_lt b GB); rewrite ?EL; lia. Qed.
Let q := sphere (el b (n - 1)) / el b (n - 1).
Lemma gq_pos : 0 < q.
Proof. assert (0 < el b (n - 1)) by (apply gpos; destruct Hs; lia). unfold q. apply Rdiv_lt_0_compat; auto. rewrite sphere_pow by auto. apply Rmult_lt_0_compat; [exact areaCoef_pos'|apply exp_pos]. Qed.
Lemma garea_ge y : length y = n -> (forall x, In x y -> 0 <= x) -> q * mass b y <= totalArea b y.
Proof.
  intros L P. destruct (gvalid y L P) as (s & V). rewrite gmass_el by auto. unfold totalArea. rewrite EL, <- Sum_scal.
  match goal with |- ?A <= ?B => assert (0 <= B + - A); [|lra] end. rewrite <- Sum_opp, <- Sum_add. apply Sum_nneg. intros j Hj. unfold binArea.
  pose proof (SectBins.nel_nn s g y V j) as NN. pose proof (gpos j Hj) as PJ.
  pose proof (sphere_share _ _ PJ (glast j Hj)) as SS. fold q in SS. apply (Rmult_le_compat_r (el b j)) in SS; [|lra]. replace (sphere (el b j) / el b j * el b j) with (sphere (el b j)) in SS by (field; lra). nra.
Qed.
Lemma gnum_mass y : length y = n -> (forall x, In x y -> 0 <= x) -> 0 <= number y /\ mass b y <= el b (n - 1) * number y.
Proof.
  intros L P. destruct (gvalid _ L P) as (s & V). rewrite gmass_el, gnumber_el by auto. split; [apply Sum_nneg; intros; apply (SectBins.nel_nn s g _ V)|].
  rewrite <- Sum_scal. match goal with |- ?A <= ?B => assert (0 <= B + - A); [|lra] end. rewrite <- Sum_opp, <- Sum_add. apply Sum_nneg. intros j Hj. pose proof (SectBins.nel_nn s g _ V j). pose proof (glast j Hj). nra.
Qed.
Lemma gK y : length y = n -> (forall x, In x y -> 0 <= x) -> 0 < mass b y -> kgrow k g (number y) (mass b y) = K.
Proof.
  intros L P M. destruct (gnum_mass y L P) as (A & B). assert (0 < el b (n - 1)) by (apply gpos; destruct Hs; lia).
  unfold kgrow, K. apply any_soot; auto; try lra. destruct (Rle_lt_or_eq_dec _ _ A) as [A1|A1]; [exact A1|]. rewrite <- A1 in B. lra.
Qed.
Lemma gsrc_mass y : length y = n -> (forall x, In x y -> 0 <= x) -> 0 < mass b y -> mass b (src y) = K * totalArea b y.
Proof.
  intros L P M. destruct (gvalid y L P) as (s & V). rewrite gmass_el by apply gsrc_len.
  transitivity (Sum (length b) (fun j => el b j * sectSource k g b y (/ ln F) (nucl k g (dimerHits k g b y)) j)).
  - rewrite EL. apply Sum_ext. intros j Hj. unfold src. now rewrite el_seq.
  - rewrite (src_mass s g k b y (/ ln F) GB OK V ltac:(congruence)). rewrite gno_out, (Sum_0 _ (condensed _ _ _ _ _)).
    + rewrite gK by auto. unfold oN1, koxid, k, grow. cbn [oJ oGas mO oxidFormula]. ring.
    + intros j _. unfold condensed. cbn [oConc oMass]. ring.
Qed.
Lemma gno_kernel x y : kernel k g x y = 0.
Proof. apply no_kernel'. Qed.
Lemma gloss_short y j : length y = n -> (forall x, In x y -> 0 <= x) -> 0 < mass b y -> (j < n)%nat -> dt * sectLoss k g b y (nucl k g (dimerHits k g b y)) j <= 1.
Proof.
  intros L P M Hj. rewrite gno_out. unfold sectLoss. cbn [oConc oMass]. rewrite gK by auto. replace (koxid k g (number y) (mass b y)) with 0 by reflexivity. rewrite EL.
  rewrite (Sum_0 _ (fun l => kernel k g (el b j) (el b l) * el y l)) by (intros; rewrite gno_kernel; ring). rewrite gno_kernel.
  destruct (Nat.eqb_spec (S j) n) as [E|NE].
  - unfold Rdiv. rewrite !Rmult_0_l. rewrite !Rplus_0_l, Rmult_0_r. lra.
  - pose proof (SHORT j ltac:(lia)) as SJ. unfold Rdiv in *. rewrite !Rmult_0_l, !Rplus_0_r. exact SJ.
Qed.
Lemma gtraj_ok i : length (gtraj i) = n /\ (forall x, In x (gtraj i) -> 0 <= x) /\ (1 + dt * (K * q)) ^ i * mass b y0 <= mass b (gtraj i).
Proof.
  assert (PQ : 0 < dt * (K * q)) by (apply Rmult_lt_0_compat; [|apply Rmult_lt_0_compat]; auto; apply gq_pos).
  induction i as [|i (L & P & M)]; cbn [gtraj]; [repeat split; auto; cbn [pow]; lra|]. set (y := gtraj i) in *.
  assert (PM : 0 < mass b y). { assert (0 < (1 + dt * (K * q)) ^ i) by (apply pow_lt; lra). assert (0 < (1 + dt * (K * q)) ^ i * mass b y0) by (apply Rmult_lt_0_compat; auto). lra. }
  destruct (gvalid y L P) as (s & V). assert (LL : length y = length (src y)) by now rewrite gsrc_len.
  split; [now rewrite euler_len|]. split.
  - intros x Hx. destruct (in_euler dt y (src y) LL x Hx) as (j & Hj & ->). rewrite L in Hj.
    apply (step_nn dt (el y j) (el (src y) j) (sectLoss k g b y (nucl k g (dimerHits k g b y)) j)); [lra|apply (SectBins.nel_nn s g y V)| |now apply gloss_short].
    unfold src. rewrite el_seq by auto. now apply (loss_ge c F n Hc HF Hs s g k y V OK).
  - rewrite euler_mass by auto. rewrite gsrc_mass by auto. pose proof (garea_ge y L P) as A. apply (Rmult_le_compat_l (dt * K)) in A; [|left; now apply Rmult_lt_0_compat].
    cbn [pow]. apply (Rmult_le_compat_l (1 + dt * (K * q))) in M; [|lra]. lra.
Qed.
Lemma gmass_pos i : 0 < mass b (gtraj i).
Proof.
  destruct (gtraj_ok i) as (_ & _ & M). assert (PQ : 0 < dt * (K * q)) by (apply Rmult_lt_0_compat; [|apply Rmult_lt_0_compat]; auto; apply gq_pos).
  assert (0 < (1 + dt * (K * q)) ^ i) by (apply pow_lt; lra). assert (0 < (1 + dt * (K * q)) ^ i * mass b y0) by (apply Rmult_lt_0_compat; auto). lra.
Qed.
Lemma gsect_ok i : goodStep P_SECT k b n 0 (mkStep g (gtraj i) [] (eig i)).
Proof.
  destruct (gtraj_ok i) as (L & P & _). split; [exact PH|]. split; [exact L|]. split; [reflexivity|]. split; [exact P|]. split; [intros x []|]. split; [|exact I]. intros [H|H]; [contradiction|discriminate H].
Qed.
Lemma gsect_call i st m s : hasAll m k -> sm_psd m = P_SECT -> extra P_SECT k n F c st m s -> valid s g (gtraj i) ->
  exists st' m' s', setSourceTerms st (eig i) m s = Ok (st', m', s') /\ soots m' = map Fin (src (gtraj i)).
Proof.
  intros HM _ (_ & _ & _ & IS & HO) V. destruct (gtraj_ok i) as (L & _).
  destruct (C31_own_ m s g k c F n (gtraj i) st (eig i) Hc HF Hs IS HM OK V L) as (m' & s' & st' & E & _ & _ & _ & Q); auto.
  - intros [H|H]; [contradiction|discriminate H].
  - eauto.
Qed.
Lemma C96_sect_ : (exists y, y 0%nat = y0 /\ marches m0 n g dt eig y) /\
  forall y, y 0%nat = y0 -> marches m0 n g dt eig y ->
    (forall i, (forall x, In x (y i) -> 0 <= x) /\ (1 + dt * (K * sphere (el b (n - 1)) / el b (n - 1))) ^ i * mass b y0 <= mass b (y i)) /\
    forall B, exists i0, forall i, (i0 <= i)%nat -> B <= number (y i).
Proof.
  split.
  - exists gtraj. split; [reflexivity|].
    exact (traj_marches P_SECT n N_NONE gr O_NONE C_NONE T_NONE F c m0 GC E0 g dt eig gtraj (fun i => src (gtraj i)) gsect_ok gsect_call (fun i => gsrc_len _) (fun _ => eq_refl)).
  - intros y Y0 M. pose proof (only_traj P_SECT n N_NONE gr O_NONE C_NONE T_NONE F c m0 GC E0 g dt eig gtraj (fun i => src (gtraj i)) gsect_ok gsect_call (fun _ => eq_refl) y Y0 M) as EQ.
    assert (PL : 0 < el b (n - 1)) by (apply gpos; destruct Hs; lia).
    assert (PQ : 0 < dt * (K * q)) by (apply Rmult_lt_0_compat; [|apply Rmult_lt_0_compat]; auto; apply gq_pos). split.
    + intros i. rewrite EQ. split; [apply gtraj_ok|]. replace (K * sphere (el b (n - 1)) / el b (n - 1)) with (K * q) by (unfold q, Rdiv; ring). apply gtraj_ok.
    + intros B. destruct (Pow_x_infinity (1 + dt * (K * q)) ltac:(rewrite Rabs_right; lra) (Rmax 0 B * el b (n - 1) / mass b y0)) as (i0 & Hi). exists i0. intros i Hge. rewrite EQ.
      specialize (Hi i Hge). rewrite Rabs_right in Hi by (apply Rle_ge, pow_le; lra). destruct (gtraj_ok i) as (L & P & G). destruct (gnum_mass _ L P) as (_ & NM).
      apply Rge_le in Hi. apply (Rmult_le_compat_r (mass b y0)) in Hi; [|lra]. replace (Rmax 0 B * el b (n - 1) / mass b y0 * mass b y0) with (Rmax 0 B * el b (n - 1)) in Hi by (field; lra).
      apply Rle_trans with (Rmax 0 B); [apply Rmax_r|]. apply (Rmult_le_reg_l (el b (n - 1))); [exact PL|]. lra.
Qed.
End SectGrow.
