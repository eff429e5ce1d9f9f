(** Proofs for C94: time loops. *)
From Coq Require Import ZArith List Bool Reals Lra Lia.
From Verif Require Import Num Defs State Coag Nucl Growth Oxid Tar SootModel Mono Qmom Momic Calls XR XRLemmas NumLaws SpecConfig SpecChem SpecCoag SpecValid SpecRates SpecGas SpecPah SpecPsd SpecSect SpecQmom SpecStep SpecFinite SpecMarch
  ConfigProofs CoagProofs StateXR ValidProofs PsdProofs PahProofs MonoProofs MonoMain MonoCases ChemAll SectProofs SectMain SectBins SectCases SectFinal StateProofs FiniteMain VesselProofs StepProofs MarchProofs.
Import ListNotations.
Local Open Scope R_scope.

(** ** any model: a trajectory made of what single calls give *)
Section Loop.
Context (p : psdMech) (n : nat) (nu : nucleationMech) (gr : growthMech) (ox : oxidationMech) (co : coagulationMech) (ta : tarMech) (F : R) (c : Z) (m0 : model (N:=XR)).
Context (GC : goodConfig p n nu co ta F c) (E0 : constructEnum p n nu gr ox co 0 ta (Fin F) c = Ok m0).
Let k := mkMechs nu gr ox co 1.
Let b := geometric c F n.
Let ok := goodStep p k b n 0.
Lemma at_end l x : (forall y, In y (l ++ [x]) -> ok y) -> exists st m s,
  hasAll m k /\ sm_psd m = p /\ extra p k n F c st m s /\ valid s (spGas x) (spSoot x) /\
  runActions (None, m0, newState n 0) (actionsOf (l ++ [x])) = setSourceTerms st (spEig x) m s.
Proof.
  intros H. destruct (start _ _ _ _ _ _ _ _ _ _ _ GC E0) as (_ & OM & _ & I0). fold k in OM, I0.
  destruct (all_steps p k n 0 F c OM l _ I0) as (((st1 & m1) & s1) & R1 & I1). { intros y Hy. apply H. apply in_or_app. now left. }
  assert (GS : ok x) by (apply H; apply in_or_app; right; now left). destruct x as [g so tar eig]. pose proof GS as (PH & L1 & L2 & N1 & N2 & RG & _). cbn [spGas spSoot spTar spEig] in *.
  destruct I1 as (HM & HP & PF & S1 & S2 & S3 & _ & _ & _ & X).
  destruct (setTo_ok st1 m1 s1 g so tar) as (s2 & E1 & V & _ & W & Ab & _ & T); auto; try congruence.
  assert (X1 : extra p k n F c st1 m1 s2). { unfold extra in *. destruct p; try contradiction; try assumption; [now rewrite W, Ab|]. unfold isQmom in *. now rewrite W, Ab. }
  exists st1, m1, s2. do 4 (split; [assumption|]). rewrite actions_app. unfold runActions in *. rewrite foldM_app. cbn [spGas spSoot spTar spEig].
  match goal with |- bind ?X _ = _ => replace X with (Ok (st1, m1, s1)) by (symmetry; exact R1) end. cbn [bind foldM].
  match goal with |- bind ?X _ = _ => replace X with (Ok (st1, m1, s2)) by (symmetry; exact E1) end. cbn [bind doAction].
  destruct (setSourceTerms st1 eig m1 s2); reflexivity.
Qed.

Context (g : gas) (dt : R) (eig : nat -> eigSolver (N:=XR)) (traj src : nat -> list R).
Context (OKS : forall i, ok (mkStep g (traj i) [] (eig i))).
Context (CALL : forall i st m s, hasAll m k -> sm_psd m = p -> extra p k n F c st m s -> valid s g (traj i) ->
  exists st' m' s', setSourceTerms st (eig i) m s = Ok (st', m', s') /\ soots m' = map Fin (src i)).
Context (LEN : forall i, length (src i) = n) (NEXT : forall i, traj (S i) = euler dt (traj i) (src i)).
Lemma run_traj i : exists st' m' s', runActions (None, m0, newState n 0) (actionsOf (map (fun j => mkStep g (traj j) [] (eig j)) (seq 0 (S i)))) = Ok (st', m', s') /\ soots m' = map Fin (src i).
Proof.
  rewrite seq_S, map_app. cbn [map Nat.add].
  destruct (at_end (map (fun j => mkStep g (traj j) [] (eig j)) (seq 0 i)) (mkStep g (traj i) [] (eig i))) as (st & m & s & A & B & C & D & E).
  { intros y Hy. apply in_app_or in Hy. destruct Hy as [Hy|[<-|[]]]; [|apply OKS]. apply in_map_iff in Hy. destruct Hy as (j & <- & _). apply OKS. }
  cbn [spGas spSoot spEig] in *. destruct (CALL i st m s A B C D) as (st' & m' & s' & E1 & E2). exists st', m', s'. split; [|exact E2]. etransitivity; [exact E|exact E1].
Qed.
Lemma traj_marches : marches m0 n g dt eig traj.
Proof. intros i. destruct (run_traj i) as (st' & m' & s' & A & B). exists st', m', s', (src i). auto. Qed.
Lemma only_traj y : y 0%nat = traj 0%nat -> marches m0 n g dt eig y -> forall i, y i = traj i.
Proof.
  intros Y0 M. assert (H : forall i j, (j <= i)%nat -> y j = traj j); [|intros i; now apply (H i)].
  induction i as [|i IH]; intros j Hj; [now replace j with 0%nat by lia|].
  destruct (Nat.eq_dec j (S i)) as [->|Nj]; [|apply IH; lia].
  destruct (M i) as (st' & m' & s' & q & A & B & _ & D). destruct (run_traj i) as (st1 & m1 & s1 & A1 & B1).
  replace (map (fun j => mkStep g (y j) [] (eig j)) (seq 0 (S i))) with (map (fun j => mkStep g (traj j) [] (eig j)) (seq 0 (S i))) in A.
  2:{ apply map_ext_in. intros j Hj2. apply in_seq in Hj2. rewrite IH by lia. reflexivity. }
  rewrite A1 in A. apply (f_equal (fun r => match r with Ok (_, z, _) => z | _ => m1 end)) in A. subst m'. rewrite B1 in B. apply fins_inj in B. subst q.
  rewrite D, NEXT, IH by lia. reflexivity.
Qed.
End Loop.

(** ** one size *)
Section MonoLoop.
Context (co : coagulationMech) (F : R) (c : Z) (m0 : model (N:=XR)) (g : gas) (dt N0 M1 : R) (eig : nat -> eigSolver (N:=XR)).
Context (E0 : constructEnum P_MONO 2 N_NONE G_NONE O_NONE co 0 T_NONE (Fin F) c = Ok m0) (NC : co <> C_NONE) (PH : physical g).
Context (Hd : 0 < dt) (PN : 0 < N0) (CUT : massCutoff < M1 / N0) (SHORT : dt * quickest co g N0 M1 < 1).
Let k := coagulate co.
Let loss N := monoLoss0 k g N M1.
Let PM : 0 < M1.
Proof. pose proof cut_pos. assert (X : 0 < M1 / N0) by lra. apply (Rmult_lt_compat_r N0) in X; [|exact PN]. unfold Rdiv in X. rewrite Rmult_assoc, Rinv_l in X by lra. lra. Qed.
Let OK : okAll k.
Proof.
  destruct (start P_MONO 2 N_NONE G_NONE O_NONE co 0 T_NONE F c m0) as (_ & A & _); [|exact E0|exact A].
  split; [left; repeat split; discriminate|split; [reflexivity|exact I]].
Qed.
Let GC : goodConfig P_MONO 2 N_NONE co T_NONE F c.
Proof. split; [left; repeat split; discriminate|split; [reflexivity|exact I]]. Qed.
Lemma some_state : exists s : state (N:=XR), gasState s (gT g) (gP g) (gRho g) (gMu g).
Proof.
  destruct (setTo_ok None m0 (newState 2 0) g [N0; M1] []) as (s & _ & V & _); try reflexivity; auto.
  - intros x [<-|[<-|[]]]; lra.
  - intros x [].
  - exists s. exact (proj1 (proj2 V)).
Qed.
Lemma size_up N : 0 < N <= N0 -> 0 < M1 / N0 /\ M1 / N0 <= M1 / N /\ massCutoff < M1 / N.
Proof.
  intros (P & L). pose proof cut_pos. assert (/ N0 <= / N) by (apply Rinv_le_contravar; lra). assert (M1 / N0 <= M1 / N) by (unfold Rdiv; apply Rmult_le_compat_l; lra). lra.
Qed.
Lemma kernel_equal d x : massCutoff < x -> d <> C_size -> kernel (coagulate d) g x x = equalK 1 (gT g) (gP g) (gRho g) (gMu g) d x.
Proof. intros L D. unfold kernel, coagulate. cbn [mC mF]. destruct (Rlt_dec massCutoff x) as [_|X]; [|lra]. destruct d; try congruence; reflexivity. Qed.
Let NS : co <> C_size. Proof. destruct OK as (_ & _ & _ & _ & A & _). exact A. Qed.
Lemma bounds : exists a, 0 < a /\ (forall N, 0 < N <= N0 -> a * N <= loss N) /\ (forall N, 0 < N <= N0 -> dt * loss N < 1).
Proof.
  destruct some_state as (s & G). exists (1 / 2 * slowest 1 (gT g) (gMu g) (M1 / N0) co). destruct (size_up N0 ltac:(lra)) as (X0 & _ & _).
  pose proof (slowest_pos 1 (gT g) (gP g) (gRho g) (gMu g) (M1 / N0) s G ltac:(lra) X0 co NC NS) as SP.
  split; [lra|]. split; intros N HN; destruct (size_up N HN) as (_ & L & CX); unfold loss, monoLoss0, k; rewrite kernel_equal by auto.
  - pose proof (above 1 (gT g) (gP g) (gRho g) (gMu g) (M1 / N0) (M1 / N) s G ltac:(lra) X0 L co) as A. nra.
  - pose proof (below 1 (gT g) (gP g) (gRho g) (gMu g) (M1 / N0) (M1 / N) s G ltac:(lra) X0 L co) as B.
    set (d := match co with C_FUCHS => C_FM | _ => co end) in *. assert (ND : d <> C_size) by (unfold d; destruct co; congruence).
    unfold quickest, monoLoss0 in SHORT. fold d in SHORT. rewrite kernel_equal in SHORT by auto.
    set (u := equalK _ _ _ _ _ co _) in *. set (v := equalK _ _ _ _ _ d _) in *. clearbody u v.
    assert (E1 : u * N = u / (M1 / N) * M1) by (field; lra). assert (E2 : v * N0 = v / (M1 / N0) * M1) by (field; lra).
    apply Rle_lt_trans with (dt * (1 / 2 * v * N0)); [|exact SHORT]. apply Rmult_le_compat_l; [lra|].
    replace (1 / 2 * u * N) with (1 / 2 * (u * N)) by ring. replace (1 / 2 * v * N0) with (1 / 2 * (v * N0)) by ring. rewrite E1, E2.
    apply Rmult_le_compat_l; [lra|]. apply Rmult_le_compat_r; [lra|exact B].
Qed.

Let num := numbers dt N0 loss.
Let traj i := [num i; M1].
Let src i := [- (loss (num i) * num i); 0].
Lemma rng i : 0 < num i <= N0.
Proof. destruct bounds as (a & Pa & LO & HI). exact (in_range dt N0 a loss Hd PN Pa LO HI i). Qed.
Lemma ok_all i : goodStep P_MONO k (geometric c F 2) 2 0 (mkStep g (traj i) [] (eig i)).
Proof.
  pose proof (rng i). split; [exact PH|]. split; [reflexivity|]. split; [reflexivity|]. split; [cbn [spSoot]; unfold traj; intros y [<-|[<-|[]]]; lra|].
  split; [intros y []|]. split; [|exact I]. intros [H1|H1]; discriminate H1.
Qed.
Lemma call_all i st m s : hasAll m k -> sm_psd m = P_MONO -> extra P_MONO k 2 F c st m s -> valid s g (traj i) ->
  exists st' m' s', setSourceTerms st (eig i) m s = Ok (st', m', s') /\ soots m' = map Fin (src i).
Proof.
  intros HM HP (_ & HT & w & x & W & A) V. pose proof (rng i) as R.
  destruct (C22_ m s g k (num i) M1 st (eig i) HP HM OK HT V ltac:(lra)) as (m' & s' & E & Q & _).
  - intros [H|H]; discriminate H.
  - now rewrite W.
  - now rewrite A.
  - exists st, m', s'. split; [exact E|]. rewrite Q. unfold src, loss, monoLoss0, k, coagulate, nucl, isP, kgrow, koxid, oN1, Jnuc. cbn [mN mG mO mC mF oJ oGas oMass oConc nuclFormula growFormula oxidFormula map].
    refine (f_equal2 (fun a b => [Fin a; Fin b]) _ _); unfold Rdiv; ring.
Qed.
Lemma mono_traj : marches m0 2 g dt eig traj.
Proof.
  apply (traj_marches P_MONO 2 N_NONE G_NONE O_NONE co T_NONE F c m0 GC E0 g dt eig traj src ok_all call_all (fun _ => eq_refl)).
  intros i. unfold traj, src, euler. cbn [combine map fst snd]. unfold num. cbn [numbers]. f_equal; [ring|f_equal; ring].
Qed.
Lemma mono_only y : y 0%nat = [N0; M1] -> marches m0 2 g dt eig y -> forall i, y i = traj i.
Proof.
  intros Y0. apply (only_traj P_MONO 2 N_NONE G_NONE O_NONE co T_NONE F c m0 GC E0 g dt eig traj src ok_all call_all); [|exact Y0].
  intros i. unfold traj, src, euler. cbn [combine map fst snd]. unfold num. cbn [numbers]. f_equal; [ring|f_equal; ring].
Qed.
Lemma C94_mono_ : (exists y, y 0%nat = [N0; M1] /\ marches m0 2 g dt eig y) /\
  forall y, y 0%nat = [N0; M1] -> marches m0 2 g dt eig y ->
    (forall i, el (y i) 1 = M1 /\ 0 < el (y (S i)) 0 < el (y i) 0) /\
    (exists a, 0 < a /\ forall i, / N0 + INR i * a <= / el (y i) 0) /\ Un_cv (fun i => el (y i) 0) 0.
Proof.
  split; [exists traj; split; [reflexivity|exact mono_traj]|]. intros y Y0 M. pose proof (mono_only y Y0 M) as EQ.
  destruct bounds as (a & Pa & LO & HI). split; [|split].
  - intros i. rewrite !EQ. split; [reflexivity|]. split; [apply (rng (S i))|exact (falls dt N0 a loss Hd PN Pa LO HI i)].
  - exists (dt * a). split; [now apply Rmult_lt_0_compat|]. intros i. rewrite EQ. exact (harmonic dt N0 a loss Hd PN Pa LO HI i).
  - intros e He. destruct (to_zero dt N0 a loss Hd PN Pa LO HI e He) as (n & Hn). exists n. intros i Hi. rewrite EQ. exact (Hn i Hi).
Qed.
End MonoLoop.
