(** Proofs for C95: oxidation in a time loop. *)
From Coq Require Import ZArith List Bool Reals Lra Lia.
From Verif Require Import Num Defs State Coag Nucl Growth Oxid Tar SootModel Mono Qmom Momic Calls XR XRLemmas NumLaws SpecState SpecConfig SpecChem SpecCoag SpecValid SpecRates SpecGas SpecPah SpecPsd SpecSect SpecQmom SpecStep SpecFinite SpecMarch SpecBurn
  ConfigProofs CoagProofs StateProofs StateXR ValidProofs PsdProofs PahProofs MonoProofs MonoMain MonoCases ChemAll SectProofs SectMain SectBins SectCases SectFinal FiniteMain VesselProofs StepProofs ClosureProofs MarchProofs MarchMain MarchSect BurnProofs.
Import ListNotations.
Local Open Scope R_scope.

Lemma any_moments ox g a b a' b' : ox <> O_HACA -> oxidFormula ox g a b = oxidFormula ox g a' b'.
Proof. intros H. destruct ox; try reflexivity. congruence. Qed.

Lemma no_kernel ox g x y : kernel (burn ox) g x y = 0.
Proof. unfold kernel, burn. cbn [mC mF]. repeat (destruct (Rlt_dec _ _)); try reflexivity; ring. Qed.

(** ** one size *)
Section MonoBurn.
Context (ox : oxidationMech) (F : R) (c : Z) (m0 : model (N:=XR)) (g : gas) (dt N0 M1 : R) (eig : nat -> eigSolver (N:=XR)).
Context (E0 : constructEnum P_MONO 2 N_NONE G_NONE ox C_NONE 0 T_NONE (Fin F) c = Ok m0) (NH : ox <> O_HACA) (PH : physical g).
Context (Hd : 0 < dt) (PN : 0 < N0) (PM : 0 < M1) (PK : 0 < oxidFormula ox g N0 M1).
Let k := burn ox.
Let K := oxidFormula ox g N0 M1.
Let h := burnStep dt K N0.
Let f M := dt * K * (N0 * sphere (Rmax 0 M / N0)).
Let OK : okAll k.
Proof.
  destruct (start P_MONO 2 N_NONE G_NONE ox C_NONE 0 T_NONE F c m0) as (_ & A & _); [|exact E0|exact A].
  split; [left; repeat split; discriminate|split; [reflexivity|exact I]].
Qed.
Let GC : goodConfig P_MONO 2 N_NONE C_NONE T_NONE F c.
Proof. split; [left; repeat split; discriminate|split; [reflexivity|exact I]]. Qed.
Lemma h_pos : 0 < h.
Proof. unfold h, burnStep. apply Rmult_lt_0_compat; [|apply exp_pos]. apply Rmult_lt_0_compat; [|exact areaCoef_pos']. now apply Rmult_lt_0_compat. Qed.
Lemma f_pos M : 0 < M -> f M = h * Rpower M (2 / 3).
Proof.
  intros H. unfold f, h, burnStep. rewrite Rmax_right by lra. assert (0 < M / N0) by (apply Rdiv_lt_0_compat; auto). rewrite sphere_pow by auto.
  assert (E : N0 * Rpower (M / N0) (2 / 3) = Rpower N0 (1 / 3) * Rpower M (2 / 3)).
  { unfold Rdiv at 1. rewrite <- Rpower_mult_distr by (auto; now apply Rinv_0_lt_compat). rewrite <- (Rpower_1 N0 PN) at 1.
    unfold Rpower. rewrite ln_Rinv by auto. rewrite <- !exp_plus. f_equal. lra. }
  transitivity (dt * K * areaCoef * (N0 * Rpower (M / N0) (2 / 3))); [ring|]. rewrite E. ring.
Qed.
Lemma f_neg M : M <= 0 -> f M = 0.
Proof. intros H. unfold f. rewrite Rmax_left by lra. replace (0 / N0) with 0 by (unfold Rdiv; ring). unfold sphere. destruct (Rlt_dec 0 0); [lra|ring]. Qed.
Let ms := masses M1 f.
Let traj i := [N0; ms i].
Let src i := [0; - (K * (N0 * sphere (Rmax 0 (ms i) / N0)))].
Lemma clip_traj i : clip (traj i) = [N0; Rmax 0 (ms i)].
Proof. unfold traj, clip. cbn [map]. now rewrite (Rmax_right 0 N0) by lra. Qed.
Lemma burn_ok i : goodStep P_MONO k (geometric c F 2) 2 0 (mkStep g (clip (traj i)) [] (eig i)).
Proof.
  split; [exact PH|]. split; [reflexivity|]. split; [reflexivity|]. split; [cbn [spSoot]; apply clip_nn|].
  split; [intros y []|]. split; [|exact I]. intros [H1|H1]; [discriminate H1|contradiction].
Qed.
Lemma burn_call i st m s : hasAll m k -> sm_psd m = P_MONO -> extra P_MONO k 2 F c st m s -> valid s g (clip (traj i)) ->
  exists st' m' s', setSourceTerms st (eig i) m s = Ok (st', m', s') /\ soots m' = map Fin (src i).
Proof.
  intros HM HP (_ & HT & w & x & W & A) V. rewrite clip_traj in V.
  destruct (C22_ m s g k N0 (Rmax 0 (ms i)) st (eig i) HP HM OK HT V PN) as (m' & s' & E & Q & _).
  - intros [H1|H1]; [discriminate H1|contradiction].
  - now rewrite W.
  - now rewrite A.
  - exists st, m', s'. split; [exact E|]. rewrite Q. unfold src. unfold koxid, kgrow, K. rewrite (any_moments ox g N0 M1 N0 (Rmax 0 (ms i)) NH).
    unfold k. rewrite !no_kernel. unfold burn, nucl, isP, oN1, Jnuc. cbn [mN mG mO mC mF oJ oGas oMass oConc nuclFormula growFormula map].
    refine (f_equal2 (fun a b => [Fin a; Fin b]) _ _); unfold Rdiv; ring.
Qed.
Lemma burn_next i : traj (S i) = euler dt (traj i) (src i).
Proof. unfold traj, src, euler. cbn [combine map fst snd]. unfold ms. cbn [masses]. unfold f. f_equal; [ring|f_equal; ring]. Qed.
Lemma C95_mono_ : (exists y, y 0%nat = [N0; M1] /\ marches m0 2 g dt eig y) /\
  forall y, y 0%nat = [N0; M1] -> marches m0 2 g dt eig y ->
    (forall i, el (y i) 0 = N0) /\
    exists e, INR e * h ^ 3 < M1 + h ^ 3 /\ (forall i, (i < e)%nat -> 0 < el (y i) 1 /\ el (y (S i)) 1 < el (y i) 1) /\
      - (4 / 27) * h ^ 3 <= el (y e) 1 <= 0 /\ forall i, (e <= i)%nat -> y i = y e.
Proof.
  split.
  - exists traj. split; [reflexivity|].
    exact (clip_marches P_MONO 2 N_NONE G_NONE ox C_NONE T_NONE F c m0 GC E0 g dt eig traj src (fun _ => eq_refl) burn_ok burn_call (fun _ => eq_refl) burn_next).
  - intros y Y0 M. pose proof (clip_only P_MONO 2 N_NONE G_NONE ox C_NONE T_NONE F c m0 GC E0 g dt eig traj src (fun _ => eq_refl) burn_ok burn_call burn_next y Y0 M) as EQ.
    split; [intros i; rewrite EQ; reflexivity|]. destruct (burnt h M1 h_pos PM f f_pos f_neg) as (e & A & B & C & D). fold ms in A, B, C. exists e. split; [exact D|]. split; [|split].
    + intros i Hi. rewrite !EQ. unfold traj, el. cbn [nth]. split; [now apply A|]. unfold ms at 1. cbn [masses]. fold ms. rewrite f_pos by now apply A.
      pose proof h_pos. assert (0 < Rpower (ms i) (2 / 3)) by apply exp_pos. nra.
    + rewrite EQ. exact B.
    + intros i Hi. rewrite !EQ. unfold traj. now rewrite (C i Hi).
Qed.
End MonoBurn.

(** ** sections *)
Lemma sphere_share x y : 0 < x -> x <= y -> sphere y / y <= sphere x / x.
Proof.
  intros Hx L. assert (Hy : 0 < y) by lra. rewrite !sphere_pow by auto.
  assert (E : forall z, 0 < z -> Rpower z (2 / 3) / z = exp (- (1 / 3 * ln z))). { intros z Hz. unfold Rpower. rewrite <- (exp_ln z Hz) at 2. unfold Rdiv at 1. rewrite <- exp_Ropp, <- exp_plus. f_equal. lra. }
  unfold Rdiv in *. rewrite !Rmult_assoc. rewrite !E by auto. apply Rmult_le_compat_l; [left; exact areaCoef_pos'|].
  destruct (Rle_lt_or_eq_dec _ _ L) as [L1| ->]; [|lra]. left. apply exp_increasing. pose proof (ln_increasing x y Hx L1). lra.
Qed.
Section SectBurn.
Context (n : nat) (ox : oxidationMech) (F : R) (c : Z) (m0 : model (N:=XR)) (g : gas) (dt : R) (y0 : list R) (eig : nat -> eigSolver (N:=XR)).
Context (E0 : constructEnum P_SECT n N_NONE G_NONE ox C_NONE 0 T_NONE (Fin F) c = Ok m0) (HF : doubleAbove1 F) (Hc : (0 < c)%Z) (Hs : SpecSect.sane n) (NH : ox <> O_HACA) (PH : physical g).
Let k := burn ox.
Let b := geometric c F n.
Context (Hd : 0 < dt) (L0 : length y0 = n) (P0 : forall x, In x y0 -> 0 <= x).
Let K := oxidFormula ox g 1 1.
Context (PK : 0 < K) (SHORT : forall j, (j < n)%nat -> dt * (K * sphere (el b j) / gap b j) <= 1).
Let GC : goodConfig P_SECT n N_NONE C_NONE T_NONE F c.
Proof. split; [left; repeat split; discriminate|split; [reflexivity|auto]]. Qed.
Let OK : okAll k.
Proof. destruct (start P_SECT n N_NONE G_NONE ox C_NONE 0 T_NONE F c m0 GC E0) as (_ & A & _). exact A. Qed.
Let GB : goodBins b. Proof. now apply G_geo. Qed.
Let EL : length b = n. Proof. apply geo_len. Qed.
Let src (y : list R) := map (sectSource k g b y (/ ln F) (nucl k g (dimerHits k g b y))) (seq 0 n).
Fixpoint btraj (i : nat) : list R := match i with O => y0 | S j => euler dt (btraj j) (src (btraj j)) end.
Lemma bsrc_len y : length (src y) = n. Proof. unfold src. now rewrite map_length, seq_length. Qed.
Lemma bvalid y : length y = n -> (forall x, In x y -> 0 <= x) -> exists s : state (N:=XR), valid s g y.
Proof.
  intros L P. destruct (setTo_ok None m0 (newState n 0) g y []) as (s & _ & V & _); auto.
  - cbn [newState st_nsoot]. now rewrite L.
  - intros x [].
  - eauto.
Qed.
Lemma bnumber_el y : length y = n -> number y = Sum n (el y).
Proof. intros <-. unfold number. apply sum_Sum. Qed.
Lemma bmass_el y : length y = n -> mass b y = Sum n (fun j => el b j * el y j).
Proof. intros L. unfold mass. rewrite (dot_Sum b y ltac:(congruence)) by congruence. now rewrite EL. Qed.
Lemma bno_out y : nucl k g (dimerHits k g b y) = mkOut 0 g 0 0.
Proof. reflexivity. Qed.
Lemma Kany a a' : koxid k g a a' = K.
Proof. unfold koxid, K. now apply any_moments. Qed.
Lemma bpos j : (j < n)%nat -> 0 < el b j. Proof. intros H. apply (bins_pos b GB). congruence. Qed.
Let q := sphere (el b (n - 1)) / el b (n - 1).
Lemma q_pos : 0 < q.
Proof. assert (0 < el b (n - 1)) by (apply bpos; destruct Hs; lia). unfold q. apply Rdiv_lt_0_compat; auto. rewrite sphere_pow by auto. apply Rmult_lt_0_compat; [exact areaCoef_pos'|apply exp_pos]. Qed.
Lemma area_ge y : length y = n -> (forall x, In x y -> 0 <= x) -> q * mass b y <= totalArea b y.
Proof.
  intros L P. destruct (bvalid y L P) as (s & V). rewrite bmass_el by auto. unfold totalArea. rewrite EL, <- Sum_scal.
  match goal with |- ?A <= ?B => assert (0 <= B + - A); [|lra] end. rewrite <- Sum_opp, <- Sum_add. apply Sum_nneg. intros j Hj. unfold binArea.
  pose proof (SectBins.nel_nn s g y V j) as NN. pose proof (bpos j Hj) as PJ.
  assert (LE : el b j <= el b (n - 1)). { destruct (Nat.eq_dec j (n - 1)) as [->|]; [lra|]. left. apply (bins_lt b GB); rewrite ?EL; lia. }
  pose proof (sphere_share _ _ PJ LE) as SS. fold q in SS. apply (Rmult_le_compat_r (el b j)) in SS; [|lra]. replace (sphere (el b j) / el b j * el b j) with (sphere (el b j)) in SS by (field; lra). nra.
Qed.
Lemma bsrc_mass y : length y = n -> (forall x, In x y -> 0 <= x) -> mass b (src y) = - K * totalArea b y.
Proof.
  intros L P. destruct (bvalid y L P) as (s & V). rewrite bmass_el by apply bsrc_len.
  transitivity (Sum (length b) (fun j => el b j * sectSource k g b y (/ ln F) (nucl k g (dimerHits k g b y)) j)).
  - rewrite EL. apply Sum_ext. intros j Hj. unfold src. now rewrite el_seq.
  - rewrite (src_mass s g k b y (/ ln F) GB OK V ltac:(congruence)). rewrite bno_out, (Sum_0 _ (condensed _ _ _ _ _)).
    + rewrite Kany. unfold oN1, kgrow, k, burn. cbn [oJ oGas mG growFormula]. ring.
    + intros j _. unfold condensed. cbn [oConc oMass]. ring.
Qed.
Lemma bno_kernel x y : kernel k g x y = 0.
Proof. apply no_kernel. Qed.
Lemma bloss_short y j : (j < n)%nat -> dt * sectLoss k g b y (nucl k g (dimerHits k g b y)) j <= 1.
Proof.
  intros Hj. rewrite bno_out. unfold sectLoss. cbn [oConc oMass]. rewrite Kany. replace (kgrow k g (number y) (mass b y)) with 0 by reflexivity.
  rewrite (Sum_0 _ (fun l => kernel k g (el b j) (el b l) * el y l)) by (intros; rewrite bno_kernel; ring).
  match goal with |- dt * (?A + ?B + 0) <= 1 => replace A with 0 by (destruct (Nat.eqb (S j) _); unfold Rdiv; ring); replace (0 + B + 0) with B by ring end. exact (SHORT j Hj).
Qed.
Lemma btraj_ok i : length (btraj i) = n /\ (forall x, In x (btraj i) -> 0 <= x).
Proof.
  induction i as [|i (L & P)]; cbn [btraj]; [auto|]. set (y := btraj i) in *.
  destruct (bvalid y L P) as (s & V). assert (LL : length y = length (src y)) by now rewrite bsrc_len.
  split; [now rewrite euler_len|]. intros x Hx. destruct (in_euler dt y (src y) LL x Hx) as (j & Hj & ->). rewrite L in Hj.
  apply (step_nn dt (el y j) (el (src y) j) (sectLoss k g b y (nucl k g (dimerHits k g b y)) j)); [lra|apply (SectBins.nel_nn s g y V)| |now apply bloss_short].
  unfold src. rewrite el_seq by auto. now apply (loss_ge c F n Hc HF Hs s g k y V OK).
Qed.
Let r := 1 - dt * (K * q).
Lemma gap_le j : (j < n)%nat -> 0 < gap b j <= el b j.
Proof.
  intros Hj. unfold gap. pose proof (bpos j Hj). destruct (Nat.eqb_spec j 0) as [->|N]; [lra|]. pose proof (bpos (j - 1) ltac:(lia)).
  assert (el b (j - 1) < el b j) by (apply (bins_lt b GB); rewrite ?EL; lia). lra.
Qed.
Lemma r_range : 0 <= r < 1.
Proof.
  pose proof q_pos as Q. unfold r. assert (0 < dt * (K * q)) by (apply Rmult_lt_0_compat; [|apply Rmult_lt_0_compat]; assumption). split; [|lra].
  assert (Hn : (n - 1 < n)%nat) by (destruct Hs; lia). pose proof (SHORT (n - 1) Hn) as S1. destruct (gap_le (n - 1) Hn) as (G0 & G1). pose proof (bpos (n - 1) Hn) as PB.
  assert (dt * (K * q) <= dt * (K * sphere (el b (n - 1)) / gap b (n - 1))); [|lra]. apply Rmult_le_compat_l; [lra|]. unfold Rdiv. rewrite Rmult_assoc. apply Rmult_le_compat_l; [lra|]. unfold q, Rdiv.
  apply Rmult_le_compat_l; [rewrite sphere_pow by auto; left; apply Rmult_lt_0_compat; [exact areaCoef_pos'|apply exp_pos]|]. apply Rinv_le_contravar; lra.
Qed.
Lemma bstep i : mass b (btraj (S i)) <= r * mass b (btraj i).
Proof.
  destruct (btraj_ok i) as (L & P). cbn [btraj]. rewrite euler_mass by now rewrite bsrc_len. rewrite bsrc_mass by auto. pose proof (area_ge _ L P) as A.
  apply (Rmult_le_compat_l (dt * K)) in A; [|left; now apply Rmult_lt_0_compat]. unfold r. lra.
Qed.
Lemma bgeom i : mass b (btraj i) <= r ^ i * mass b y0.
Proof.
  induction i as [|i IH]; [cbn [btraj pow]; lra|]. pose proof (bstep i). cbn [pow]. destruct r_range as (R0 & _). apply (Rmult_le_compat_l r) in IH; [|exact R0]. lra.
Qed.
Lemma bnum_mass i : 0 <= number (btraj i) /\ el b 0 * number (btraj i) <= mass b (btraj i).
Proof.
  destruct (btraj_ok i) as (L & P). destruct (bvalid _ L P) as (s & V). rewrite bmass_el, bnumber_el by auto. split; [apply Sum_nneg; intros; apply (SectBins.nel_nn s g _ V)|].
  rewrite <- Sum_scal. match goal with |- ?A <= ?B => assert (0 <= B + - A); [|lra] end. rewrite <- Sum_opp, <- Sum_add. apply Sum_nneg. intros j Hj. pose proof (SectBins.nel_nn s g _ V j).
  assert (el b 0 <= el b j). { destruct j as [|j]; [lra|]. left. apply (bins_lt b GB); rewrite ?EL; lia. } nra.
Qed.
Lemma bnum_down i : number (btraj (S i)) <= number (btraj i).
Proof.
  destruct (btraj_ok i) as (L & P). destruct (bvalid _ L P) as (s & V). cbn [btraj]. rewrite euler_number by now rewrite bsrc_len. set (y := btraj i) in *.
  assert (number (src y) <= 0); [|nra].
  apply Rle_trans with (Sum (length b) (sectSource k g b y (/ ln F) (nucl k g (dimerHits k g b y)))); [right; rewrite EL; reflexivity|].
  rewrite (src_number g k b y (/ ln F) GB ltac:(congruence)). rewrite bno_out, Kany. unfold condensed, oN1. cbn [oJ oGas oConc oMass]. replace (kgrow k g (number y) (mass b y)) with 0 by reflexivity.
  rewrite !(Sum_0 _ (fun i0 => Sum _ _)) by (intros; apply Sum_0; intros; rewrite ?bno_kernel; repeat match goal with |- context[if ?X then _ else _] => destruct X end; ring).
  assert (0 <= K * binArea b y 0 / el b 0); [|unfold Rdiv in *; lra]. pose proof (bpos 0 ltac:(destruct Hs; lia)) as PB. apply Rmult_le_pos; [|left; now apply Rinv_0_lt_compat]. apply Rmult_le_pos; [lra|]. unfold binArea.
  apply Rmult_le_pos; [apply (SectBins.nel_nn s g _ V)|]. rewrite sphere_pow by auto. left. apply Rmult_lt_0_compat; [exact areaCoef_pos'|apply exp_pos].
Qed.
Lemma bsect_ok i : goodStep P_SECT k b n 0 (mkStep g (btraj i) [] (eig i)).
Proof.
  destruct (btraj_ok i) as (L & P). split; [exact PH|]. split; [exact L|]. split; [reflexivity|]. split; [exact P|]. split; [intros x []|]. split; [|exact I]. intros [H|H]; [discriminate H|contradiction].
Qed.
Lemma bsect_call i st m s : hasAll m k -> sm_psd m = P_SECT -> extra P_SECT k n F c st m s -> valid s g (btraj i) ->
  exists st' m' s', setSourceTerms st (eig i) m s = Ok (st', m', s') /\ soots m' = map Fin (src (btraj i)).
Proof.
  intros HM _ (_ & _ & _ & IS & HO) V. destruct (btraj_ok i) as (L & _).
  destruct (C31_own_ m s g k c F n (btraj i) st (eig i) Hc HF Hs IS HM OK V L) as (m' & s' & st' & E & _ & _ & _ & Q); auto.
  - intros [H|H]; [discriminate H|contradiction].
  - eauto.
Qed.
Lemma C95_sect_ : (exists y, y 0%nat = y0 /\ marches m0 n g dt eig y) /\
  forall y, y 0%nat = y0 -> marches m0 n g dt eig y ->
    (forall i, (forall x, In x (y i) -> 0 <= x) /\ number (y (S i)) <= number (y i) /\ mass b (y i) <= (1 - dt * (K * sphere (el b (n - 1)) / el b (n - 1))) ^ i * mass b y0) /\
    Un_cv (fun i => mass b (y i)) 0 /\ Un_cv (fun i => number (y i)) 0.
Proof.
  split.
  - exists btraj. split; [reflexivity|].
    exact (traj_marches P_SECT n N_NONE G_NONE ox C_NONE T_NONE F c m0 GC E0 g dt eig btraj (fun i => src (btraj i)) bsect_ok bsect_call (fun i => bsrc_len _) (fun _ => eq_refl)).
  - intros y Y0 M. pose proof (only_traj P_SECT n N_NONE G_NONE ox C_NONE T_NONE F c m0 GC E0 g dt eig btraj (fun i => src (btraj i)) bsect_ok bsect_call (fun _ => eq_refl) y Y0 M) as EQ.
    pose proof (bpos 0 ltac:(destruct Hs; lia)) as PB.
    assert (M0 : 0 <= mass b y0) by (pose proof (bnum_mass 0) as (A & B); cbn [btraj] in *; nra).
    assert (CV : forall e, 0 < e -> exists N, forall i, (N <= i)%nat -> mass b (btraj i) < e).
    { intros e He. destruct r_range as (R0 & R1). destruct (pow_lt_1_zero r ltac:(rewrite Rabs_right; lra) (e / (mass b y0 + 1)) ltac:(apply Rdiv_lt_0_compat; lra)) as (N & HN).
      exists N. intros i Hi. specialize (HN i Hi). rewrite Rabs_right in HN by (apply Rle_ge, pow_le; lra). pose proof (bgeom i) as BG. apply Rle_lt_trans with (1 := BG).
      assert (0 <= r ^ i) by (apply pow_le; lra). apply Rle_lt_trans with (r ^ i * (mass b y0 + 1)); [nra|]. apply (Rmult_lt_compat_r (mass b y0 + 1)) in HN; [|lra]. replace (e / (mass b y0 + 1) * (mass b y0 + 1)) with e in HN by (field; lra). exact HN. }
    split; [|split].
    + intros i. rewrite !EQ. split; [apply btraj_ok|]. split; [apply bnum_down|]. pose proof (bgeom i) as G. replace (K * sphere (el b (n - 1)) / el b (n - 1)) with (K * q) by (unfold q, Rdiv; ring). exact G.
    + intros e He. destruct (CV e He) as (N & HN). exists N. intros i Hi. rewrite EQ. unfold R_dist. rewrite Rminus_0_r. pose proof (bnum_mass i) as (A & B). rewrite Rabs_right by nra. now apply HN.
    + intros e He. destruct (CV (el b 0 * e) ltac:(now apply Rmult_lt_0_compat)) as (N & HN). exists N. intros i Hi. rewrite EQ. unfold R_dist. rewrite Rminus_0_r. pose proof (bnum_mass i) as (A & B). rewrite Rabs_right by lra.
      specialize (HN i Hi). apply (Rmult_lt_reg_l (el b 0)); lra.
Qed.
End SectBurn.
