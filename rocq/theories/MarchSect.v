(** Proofs for C94: time loops of the sectional model. *)
From Coq Require Import ZArith List Bool Reals Lra Lia.
From Verif Require Import Num Defs State Coag Nucl Growth Oxid Tar SootModel Mono Qmom Momic Calls XR XRLemmas NumLaws SpecConfig SpecChem SpecCoag SpecValid SpecRates SpecGas SpecPah SpecPsd SpecSect SpecQmom SpecStep SpecFinite SpecMarch
  ConfigProofs CoagProofs StateXR ValidProofs PsdProofs PahProofs MonoProofs MonoMain MonoCases ChemAll SectProofs SectMain SectBins SectCases SectFinal StateProofs FiniteMain VesselProofs StepProofs MarchProofs MarchMain.
Import ListNotations.
Local Open Scope R_scope.

Lemma euler_len dt y q : length y = length q -> length (euler dt y q) = length y.
Proof. intros E. unfold euler. rewrite map_length, combine_length, <- E. apply Nat.min_id. Qed.
Lemma euler_number dt y : forall q, length y = length q -> number (euler dt y q) = number y + dt * number q.
Proof.
  unfold number, euler. induction y as [|x y IH]; intros [|z q] E; cbn [length] in E; try lia; cbn [combine map fst snd]; unfold SpecRates.sumR in *; cbn [fold_right]; [ring|].
  rewrite IH by lia. ring.
Qed.
Lemma euler_mass dt b : forall y q, length y = length q -> mass b (euler dt y q) = mass b y + dt * mass b q.
Proof.
  unfold mass, euler, dot. induction b as [|w b IH]; intros [|x y] [|z q] E; cbn [length] in E; try lia; cbn [combine map fst snd]; unfold SpecRates.sumR in *; cbn [combine map fst snd fold_right]; try ring.
  rewrite IH by lia. ring.
Qed.

Section SectLoop.
Context (n : nat) (co : coagulationMech) (F : R) (c : Z) (m0 : model (N:=XR)) (g : gas) (dt : R) (y0 : list R) (eig : nat -> eigSolver (N:=XR)).
Context (E0 : constructEnum P_SECT n N_NONE G_NONE O_NONE co 0 T_NONE (Fin F) c = Ok m0) (HF : doubleAbove1 F) (Hc : (0 < c)%Z) (Hs : SpecSect.sane n) (PH : physical g).
Let k := coagulate co.
Let b := geometric c F n.
Context (Hd : 0 < dt) (L0 : length y0 = n) (P0 : forall x, In x y0 -> 0 <= x).
Context (SHORT : forall i j, (i < n)%nat -> (j < n)%nat -> dt * (kernel k g (el b i) (el b j) * number y0) <= 1).
Let GC : goodConfig P_SECT n N_NONE co T_NONE F c.
Proof. split; [left; repeat split; discriminate|split; [reflexivity|auto]]. Qed.
Let OK : okAll k.
Proof. destruct (start P_SECT n N_NONE G_NONE O_NONE co 0 T_NONE F c m0 GC E0) as (_ & A & _). exact A. Qed.
Let GB : goodBins b. Proof. now apply G_geo. Qed.
Let EL : length b = n. Proof. apply geo_len. Qed.
Let src (y : list R) := map (sectSource k g b y (/ ln F) (nucl k g (dimerHits k g b y))) (seq 0 n).
Fixpoint traj (i : nat) : list R := match i with O => y0 | S j => euler dt (traj j) (src (traj j)) end.
Lemma src_len y : length (src y) = n. Proof. unfold src. now rewrite map_length, seq_length. Qed.
Lemma some_valid y : length y = n -> (forall x, In x y -> 0 <= x) -> exists s : state (N:=XR), valid s g y.
Proof.
  intros L P. destruct (setTo_ok None m0 (newState n 0) g y []) as (s & _ & V & _); auto.
  - cbn [newState st_nsoot]. now rewrite L.
  - intros x [].
  - eauto.
Qed.
Lemma number_el y : length y = n -> number y = Sum n (el y).
Proof. intros <-. unfold number. apply sum_Sum. Qed.
Lemma mass_el y : length y = n -> mass b y = Sum n (fun j => el b j * el y j).
Proof. intros L. unfold mass. rewrite (dot_Sum b y ltac:(congruence)) by congruence. now rewrite EL. Qed.
Lemma no_out y : nucl k g (dimerHits k g b y) = mkOut 0 g 0 0.
Proof. reflexivity. Qed.
Lemma src_0mass y : length y = n -> (forall x, In x y -> 0 <= x) -> mass b (src y) = 0.
Proof.
  intros L P. destruct (some_valid y L P) as (s & V). rewrite mass_el by apply src_len.
  transitivity (Sum (length b) (fun j => el b j * sectSource k g b y (/ ln F) (nucl k g (dimerHits k g b y)) j)).
  - rewrite EL. apply Sum_ext. intros j Hj. unfold src. now rewrite el_seq.
  - rewrite (src_mass s g k b y (/ ln F) GB OK V ltac:(congruence)). rewrite no_out, (Sum_0 _ (condensed _ _ _ _ _)).
    + unfold oN1, kgrow, koxid, k, coagulate. cbn [oJ oGas mG mO growFormula oxidFormula]. ring.
    + intros j _. unfold condensed. cbn [oConc oMass]. ring.
Qed.
Lemma last_ge i : (i < n)%nat -> el b i <= el b (lastBin b).
Proof.
  intros Hi. unfold lastBin. rewrite EL. destruct (Nat.eq_dec i (n - 1)) as [->|N]; [lra|]. left. apply (bins_lt b GB); lia.
Qed.
Lemma src_number_le y : length y = n -> (forall x, In x y -> 0 <= x) -> number (src y) <= 0.
Proof.
  intros L P. destruct (some_valid y L P) as (s & V). pose proof OK as (_ & _ & _ & _ & _ & OF).
  assert (PL : 0 < el b (lastBin b)) by (apply (bins_pos b GB); unfold lastBin; destruct Hs; lia).
  apply Rle_trans with (Sum (length b) (sectSource k g b y (/ ln F) (nucl k g (dimerHits k g b y)))); [right; rewrite EL; reflexivity|].
  rewrite (src_number g k b y (/ ln F) GB ltac:(congruence)). rewrite no_out. unfold condensed, oN1, kgrow, koxid. unfold k at 1 2. unfold coagulate. cbn [oJ oGas oConc oMass mG mO growFormula oxidFormula]. fold (coagulate co) k.
  match goal with |- _ - 1 / 2 * ?A + 1 / 2 * ?B <= 0 => assert (H : B <= A); [|set (p1 := A) in *; set (p2 := B) in *] end.
  2:{ replace (oxidFormula (mO k) g (number y) (mass b y)) with 0 by reflexivity. match goal with |- ?E <= 0 => replace E with (1 / 2 * (p2 - p1)) by (unfold Rdiv; ring) end. lra. }
  match goal with |- ?B <= ?A => assert (0 <= A + - B); [|lra] end. rewrite <- Sum_opp, <- Sum_add. apply Sum_nneg. intros i Hi. rewrite <- Sum_opp, <- Sum_add. apply Sum_nneg. intros j Hj.
  assert (NN : 0 <= kernel k g (el b i) (el b j) * el y i * el y j). { apply Rmult_le_pos; [apply Rmult_le_pos|]; [exact (kernel_nneg s g y k _ _ V OF)|apply (SectBins.nel_nn s g y V)|apply (SectBins.nel_nn s g y V)]. }
  destruct (Nat.leb _ _); [|lra]. set (h := kernel k g _ _ * _ * _) in *.
  assert (R1 : (el b i + el b j) / el b (lastBin b) <= 2).
  { apply (Rmult_le_reg_r (el b (lastBin b))); [exact PL|]. unfold Rdiv. rewrite Rmult_assoc, Rinv_l by lra. pose proof (last_ge i ltac:(congruence)). pose proof (last_ge j ltac:(congruence)). lra. }
  set (r := _ / _) in *. clearbody h r. nra.
Qed.
Lemma loss_short y j : length y = n -> (forall x, In x y -> 0 <= x) -> number y <= number y0 -> (j < n)%nat -> dt * sectLoss k g b y (nucl k g (dimerHits k g b y)) j <= 1.
Proof.
  intros L P LE Hj. destruct (some_valid y L P) as (s & V). rewrite no_out. unfold sectLoss. cbn [oConc oMass].
  assert (NY : 0 <= number y) by (rewrite number_el by auto; apply Sum_nneg; intros; apply (SectBins.nel_nn s g y V)).
  replace (kgrow k g (number y) (mass b y)) with 0 by reflexivity. replace (koxid k g (number y) (mass b y)) with 0 by reflexivity. rewrite EL.
  match goal with |- dt * (?A + ?B + ?C) <= 1 => replace A with 0 by (destruct (Nat.eqb (S j) n); unfold Rdiv; ring); replace B with 0 by (unfold Rdiv; ring); replace (0 + 0 + C) with C by ring end.
  destruct (Req_dec (number y0) 0) as [Z|Z].
  - assert (NZ : number y = 0) by lra. rewrite Sum_0; [lra|]. intros l Hl.
    assert (el y l = 0) as ->; [|ring]. rewrite number_el in NZ by auto. pose proof (SectBins.nel_nn s g y V) as NN.
    assert (T : Sum n (fun i => if Nat.eqb i l then el y l else 0) = el y l) by now apply Sum_at.
    assert (0 <= Sum n (el y) + - Sum n (fun i => if Nat.eqb i l then el y l else 0)).
    { rewrite <- Sum_opp, <- Sum_add. apply Sum_nneg. intros i Hi. destruct (Nat.eqb_spec i l) as [->|]; [lra|]. pose proof (NN i). lra. }
    pose proof (NN l). lra.
  - assert (PZ : 0 < number y0) by lra.
    assert (KS : forall l, (l < n)%nat -> dt * kernel k g (el b j) (el b l) <= / number y0).
    { intros l Hl. apply (Rmult_le_reg_r (number y0)); [exact PZ|]. rewrite Rinv_l by lra. rewrite Rmult_assoc. now apply SHORT. }
    rewrite <- Sum_scal. apply Rle_trans with (Sum n (fun l => / number y0 * el y l)).
    + match goal with |- ?A <= ?B => assert (0 <= B + - A); [|lra] end. rewrite <- Sum_opp, <- Sum_add. apply Sum_nneg. intros l Hl. pose proof (KS l Hl). pose proof (SectBins.nel_nn s g y V l). nra.
    + rewrite Sum_scal, <- number_el by auto. apply (Rmult_le_reg_l (number y0)); [exact PZ|]. rewrite <- Rmult_assoc, Rinv_r by lra. lra.
Qed.
Lemma traj_ok i : length (traj i) = n /\ (forall x, In x (traj i) -> 0 <= x) /\ number (traj i) <= number y0 /\ mass b (traj i) = mass b y0.
Proof.
  induction i as [|i (L & P & LE & EM)]; cbn [traj]; [repeat split; auto; lra|]. set (y := traj i) in *.
  destruct (some_valid y L P) as (s & V). assert (LL : length y = length (src y)) by now rewrite src_len.
  split; [now rewrite euler_len|]. split; [|split].
  - intros x Hx. destruct (in_euler dt y (src y) LL x Hx) as (j & Hj & ->). rewrite L in Hj.
    apply (step_nn dt (el y j) (el (src y) j) (sectLoss k g b y (nucl k g (dimerHits k g b y)) j)); [lra|apply (SectBins.nel_nn s g y V)| |now apply loss_short].
    unfold src. rewrite el_seq by auto. now apply (loss_ge c F n Hc HF Hs s g k y V OK).
  - rewrite euler_number by auto. pose proof (src_number_le y L P). nra.
  - rewrite euler_mass by auto. rewrite (src_0mass y L P). lra.
Qed.
Lemma traj_down i : number (traj (S i)) <= number (traj i).
Proof. destruct (traj_ok i) as (L & P & _). cbn [traj]. rewrite euler_number by now rewrite src_len. pose proof (src_number_le _ L P). nra. Qed.
Lemma traj_floor i : mass b y0 <= el b (lastBin b) * number (traj i).
Proof.
  destruct (traj_ok i) as (L & P & _ & <-). destruct (some_valid _ L P) as (s & V). rewrite mass_el, number_el, <- Sum_scal by auto.
  match goal with |- ?A <= ?B => assert (0 <= B + - A); [|lra] end. rewrite <- Sum_opp, <- Sum_add. apply Sum_nneg. intros j Hj.
  pose proof (last_ge j Hj). pose proof (SectBins.nel_nn s g _ V j). nra.
Qed.
Lemma sect_ok i : goodStep P_SECT k b n 0 (mkStep g (traj i) [] (eig i)).
Proof.
  destruct (traj_ok i) as (L & P & _). split; [exact PH|]. split; [exact L|]. split; [reflexivity|]. split; [exact P|]. split; [intros x []|]. split; [|exact I]. intros [H|H]; discriminate H.
Qed.
Lemma sect_call i st m s : hasAll m k -> sm_psd m = P_SECT -> extra P_SECT k n F c st m s -> valid s g (traj i) ->
  exists st' m' s', setSourceTerms st (eig i) m s = Ok (st', m', s') /\ soots m' = map Fin (src (traj i)).
Proof.
  intros HM _ (_ & _ & _ & IS & HO) V. destruct (traj_ok i) as (L & _).
  destruct (C31_own_ m s g k c F n (traj i) st (eig i) Hc HF Hs IS HM OK V L) as (m' & s' & st' & E & _ & _ & _ & Q); auto.
  - intros [H|H]; discriminate H.
  - eauto.
Qed.
Lemma C94_sect_ : (exists y, y 0%nat = y0 /\ marches m0 n g dt eig y) /\
  forall y, y 0%nat = y0 -> marches m0 n g dt eig y -> forall i,
    (forall x, In x (y i) -> 0 <= x) /\ mass b (y i) = mass b y0 /\ number (y (S i)) <= number (y i) /\ mass b y0 <= el b (n - 1) * number (y i).
Proof.
  split.
  - exists traj. split; [reflexivity|].
    exact (traj_marches P_SECT n N_NONE G_NONE O_NONE co T_NONE F c m0 GC E0 g dt eig traj (fun i => src (traj i)) sect_ok sect_call (fun i => src_len _) (fun _ => eq_refl)).
  - intros y Y0 M i. pose proof (only_traj P_SECT n N_NONE G_NONE O_NONE co T_NONE F c m0 GC E0 g dt eig traj (fun i => src (traj i)) sect_ok sect_call (fun _ => eq_refl) y Y0 M) as EQ.
    rewrite !EQ. destruct (traj_ok i) as (L & P & _ & EM). split; [exact P|]. split; [exact EM|]. split; [apply traj_down|].
    pose proof (traj_floor i) as T. unfold lastBin in T. rewrite EL in T. exact T.
Qed.
End SectLoop.
