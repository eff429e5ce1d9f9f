(** Proofs for C98: BROWN tar in a time loop. *)
From Coq Require Import ZArith List Bool Reals Lra Lia.
From Verif Require Import Num Defs State Coag Nucl Growth Oxid Tar SootModel Mono Qmom Momic Calls XR XRLemmas NumLaws SpecState SpecConfig SpecFrame SpecChem SpecCoag SpecValid SpecRates SpecGas SpecTar SpecPah SpecPsd SpecSect SpecMomic SpecStep SpecFinite SpecSign SpecTarLoop
  ConfigProofs StateProofs ValidProofs CoagProofs GasProofs RateProofs PsdProofs MonoProofs PahProofs MonoTar MonoMain FrameMain FiniteMain VesselProofs StepProofs BurnProofs TarHistMain.
Import ListNotations.
Local Open Scope R_scope.

(** ** setState sets negative tar variables to zero *)
Lemma set_same_tar (s : state (N:=XR)) t p rho mu yg yp v n tv tv' nt c : clipNeg (st_Ntar s) tv = clipNeg (st_Ntar s) tv' ->
  setState s t p rho mu yg yp v n tv nt c = setState s t p rho mu yg yp v n tv' nt c.
Proof.
  intros E. unfold setState. do 5 (match goal with |- (if ?b then _ else _) = _ => destruct b; [reflexivity|] end). cbv zeta.
  match goal with |- match ?x with _ => _ end = _ => destruct x; [|reflexivity|reflexivity] end. cbn [with_nsoot with_sootVar with_T with_P with_rhoGas with_muGas with_cMin with_MWGas st_Ntar].
  match goal with |- (if ?b then _ else _) = _ => destruct b; [reflexivity|] end. rewrite E. reflexivity.
Qed.
Lemma setTo_tclip st (m : model (N:=XR)) s g y tar : st_Ntar s = Z.of_nat (length tar) -> doAction (st, m, s) (setTo g y tar) = doAction (st, m, s) (setTo g y (clip tar)).
Proof.
  intros E. unfold doAction, setTo. rewrite (clip_len tar). erewrite set_same_tar; [reflexivity|]. rewrite E. apply clip_same.
Qed.

Section Brown.
Context (gr : growthMech) (co : coagulationMech) (F : xr) (c : Z) (m0 : model (N:=XR)) (mt yt : R).
Context (E0 : constructEnum P_MONO 2 N_BROWN gr O_NONE co 1 T_BROWN F c = Ok m0) (NG : gr <> G_HACA) (Pm : 0 < mt).
Let k := mkMechs N_BROWN gr O_NONE co 1.
Let s0 := with_my (N:=XR) (newState 2 1) (Fin mt) (Fin yt).
Context (g : gas) (PH : physical g).
Let kF := tarToSoot g.
Let K := kF + tarGone g.
Let src (y : list R) (t : R) : list R := [nuclTar N_BROWN g mt t - brownAggregate g (Rmax 0 (el y 0)) (Rmax 0 (el y 1)); kF * t].
Lemma form_mass t : nuclTar N_BROWN g mt t * nucMass g = kF * t.
Proof.
  destruct PH as ((_ & _ & _ & _ & PC & _) & _). unfold kF, tarToSoot, nuclTar, nucMass. pose proof massC_pos. pose proof avo_pos. field. lra.
Qed.
Lemma brown_any y e t : length y = 2%nat -> 0 <= t -> anySign P_MONO k [] 2 1 (mkStep g y [t] e).
Proof.
  intros L H. split; [exact PH|]. split; [exact L|]. split; [reflexivity|]. split; [intros z [<-|[]]; exact H|].
  intros [Z|Z]; [exfalso; exact (NG Z)|discriminate Z].
Qed.
Lemma brown_source l y e t : (forall x, In x l -> exists y' e' t', x = mkStep g y' [t'] e' /\ length y' = 2%nat /\ 0 <= t') -> length y = 2%nat -> 0 <= t ->
  exists st' m' s', runActions (None, m0, s0) (actionsOf (l ++ [mkStep g y [t] e])) = Ok (st', m', s') /\ soots m' = map Fin (src y t) /\
    nth_error (tarSources (sm_sources m')) 0 = Some (Fin (- K * t)).
Proof.
  intros H L T.
  destruct (tar_start N_BROWN gr O_NONE co 1 T_BROWN F c m0 mt yt E0) as (CO & OM & I); auto; try discriminate. fold k s0 in OM, I.
  destruct (tar_steps k T_BROWN 1 mt OM (or_introl eq_refl) (le_n 1) Pm l _ I) as (((st & m) & s) & R & J).
  { intros x Hx. destruct (H x Hx) as (y' & e' & t' & -> & A & B). split; [now apply brown_any|discriminate]. }
  destruct (brown_any y e t L T) as (_ & L1 & L2 & N2 & RG). cbn [spGas spSoot spTar soot0 soot1] in *.
  destruct (tar_set k T_BROWN 1 mt (le_n 1) st m s g y [t] J PH L1 L2 N2) as (s1 & M0 & M1 & n0 & tr & E1 & I1 & V & Et & Q0 & Q1).
  assert (En : n0 = t).
  { destruct (setTo_ok st m s g (clip y) [t]) as (s2 & E2 & _ & Et2 & _).
    - rewrite clip_len, L. exact (proj1 (proj2 (proj2 (proj2 (proj2 J))))).
    - exact (proj1 (proj2 (proj2 (proj2 (proj2 (proj2 J)))))).
    - exact (proj1 (proj2 (proj2 (proj2 (proj2 (proj2 (proj2 J))))))).
    - exact PH.
    - intros z Hz. now apply (clip_nn y).
    - exact N2.
    - assert (ES : Ok (st, m, s1) = Ok (st, m, s2)). { refine (eq_trans (eq_sym E1) (eq_trans _ E2)). apply setTo_clip. rewrite L. exact (proj1 (proj2 (proj2 (proj2 (proj2 J))))). }
      apply (f_equal (fun r => match r with Ok (_, _, z) => z | _ => s1 end)) in ES. subst s2. rewrite Et2 in Et. cbn [map] in Et.
      apply (f_equal (fun l => match l with Fin z :: _ => z | _ => 0 end)) in Et. congruence. }
  subst n0. rewrite !el_clip, <- Q0, <- Q1 in RG by lia.
  pose proof I1 as (A & B & C & D & S1 & S2 & S3 & Em & (w & x & Ew & Ex) & (c1 & r & Es) & _).
  destruct (br_run m s1 g k M0 M1 w x [] [] mt t c1 tr r B A OM V RG Ew Ex Pm Em Et Es st e D) as (m' & X1 & X2 & X3 & _).
  do 3 eexists. split; [|split].
  - rewrite actions_app. cbn [spGas spSoot spTar spEig]. unfold runActions in *. rewrite foldM_app. etransitivity; [apply (f_equal (fun r => bind r _)); exact R|]. cbn [bind foldM].
    etransitivity; [apply (f_equal (fun r => bind r _)); exact E1|]. cbn [bind doAction]. etransitivity; [apply (f_equal (fun r => bind r _)); exact X1|]. reflexivity.
  - rewrite X2. unfold brSoot, src. cbn [k mN map]. rewrite <- Q0, <- Q1.
    refine (f_equal2 (fun a b => [Fin a; Fin b]) _ _); [reflexivity|]. rewrite form_mass. unfold koxid, k. cbn [mO oxidFormula]. ring.
  - unfold tarred in X3. rewrite X3. cbn [nth_error]. f_equal. f_equal. unfold brTar. cbn [k mN]. rewrite form_mass. unfold K, tarGone, brownGasify, brownOxid. ring.
Qed.

(** the history with its negative tar set to zero *)
Definition tclip (x : step) : step := mkStep (spGas x) (spSoot x) (clip (spTar x)) (spEig x).
Lemma run_tclip l : forall a, invT k T_BROWN 1 mt a -> okAny k -> (forall x, In x l -> exists y e t, x = mkStep g y [t] e /\ length y = 2%nat) ->
  runActions a (actionsOf l) = runActions a (actionsOf (map tclip l)).
Proof.
  induction l as [|x l IH]; intros a I OM H; [reflexivity|]. destruct (H x (or_introl eq_refl)) as (y & e & t & -> & L).
  destruct (tar_step k T_BROWN 1 mt OM (or_introl eq_refl) (le_n 1) Pm a (mkStep g y [Rmax 0 t] e) I) as (a1 & E1 & I1).
  { split; [apply brown_any; [exact L|apply Rmax_l]|discriminate]. }
  cbn [spGas spSoot spTar spEig] in E1.
  assert (E2 : foldM doAction [setTo g y [t]; ASrc e] a = Ok a1).
  { rewrite <- E1. destruct a as ((st & m) & s). pose proof I as (_ & _ & _ & _ & _ & S2 & _). cbn [foldM spGas spSoot spTar spEig].
    pose proof (setTo_tclip st m s g y [t] S2) as Q. exact (f_equal (fun r => bind r _) Q). }
  unfold runActions, actionsOf in *. cbn [flat_map map tclip clip spGas spSoot spTar spEig]. rewrite !foldM_app. rewrite E2.
  change (map (Rmax 0) [t]) with [Rmax 0 t]. rewrite E1. cbn [bind]. apply IH; [exact I1|exact OM|]. intros; apply H; now right.
Qed.
Lemma kF_pos : 0 < kF.
Proof. unfold kF, tarToSoot, arrhenius. apply Rmult_lt_0_compat; [lra|apply exp_pos]. Qed.
Lemma gone_nn : 0 <= tarGone g.
Proof.
  destruct PH as ((PT & _ & PR & _ & _ & PY & _) & _). unfold tarGone, arrhenius. apply Rplus_le_le_0_compat; [left; apply Rmult_lt_0_compat; [lra|apply exp_pos]|].
  apply Rmult_le_pos; [|left; apply Rmult_lt_0_compat; [lra|apply exp_pos]].
  assert (0 < molarMass O2) by (unfold molarMass, massO; cbn; lra). apply Rmult_le_pos; [|lra]. unfold conc. apply Rmult_le_pos; [apply Rmult_le_pos; [lra|apply PY]|left; now apply Rinv_0_lt_compat].
Qed.
Lemma K_pos : 0 < K. Proof. pose proof kF_pos. pose proof gone_nn. unfold K. lra. Qed.

Context (dt n0 : R) (y0 : list R) (eig : nat -> eigSolver (N:=XR)) (L0 : length y0 = 2%nat).
Fixpoint tt (i : nat) : R := match i with O => n0 | S j => tt j + dt * (- K * Rmax 0 (tt j)) end.
Fixpoint ty (i : nat) : list R := match i with O => y0 | S j => euler dt (ty j) (src (ty j) (Rmax 0 (tt j))) end.
Lemma ty_len i : length (ty i) = 2%nat.
Proof. induction i as [|i IH]; [exact L0|]. cbn [ty]. unfold euler. rewrite map_length, combine_length, IH. reflexivity. Qed.
Lemma ty_mass i : el (ty i) 1 = el y0 1 + kF / K * (n0 - tt i).
Proof.
  pose proof K_pos. induction i as [|i IH]; [cbn [ty tt]; unfold Rdiv; ring|].
  assert (E : el (ty (S i)) 1 = el (ty i) 1 + dt * (kF * Rmax 0 (tt i))). { cbn [ty]. pose proof (ty_len i) as L. destruct (ty i) as [|a [|b [|]]]; try discriminate L. reflexivity. }
  rewrite E, IH. cbn [tt]. field. lra.
Qed.
Lemma ty_run i : exists st' m' s', runActions (None, m0, s0) (actionsOf (map (fun j => mkStep g (ty j) [tt j] (eig j)) (seq 0 (S i)))) = Ok (st', m', s') /\ soots m' = map Fin (src (ty i) (Rmax 0 (tt i))) /\
    nth_error (tarSources (sm_sources m')) 0 = Some (Fin (- K * Rmax 0 (tt i))).
Proof.
  destruct (tar_start N_BROWN gr O_NONE co 1 T_BROWN F c m0 mt yt E0) as (CO & OM & I); auto; try discriminate. fold k s0 in OM, I.
  rewrite (run_tclip _ _ I OM).
  2:{ intros x Hx. apply in_map_iff in Hx. destruct Hx as (j & <- & _). do 3 eexists. split; [reflexivity|apply ty_len]. }
  rewrite map_map. unfold tclip, clip. cbn [spGas spSoot spTar spEig map]. rewrite seq_S, map_app. cbn [map Nat.add]. apply brown_source; [|apply ty_len|apply Rmax_l].
  intros x Hx. apply in_map_iff in Hx. destruct Hx as (j & <- & _). do 3 eexists. split; [reflexivity|]. split; [apply ty_len|apply Rmax_l].
Qed.
Lemma ty_loop : tarLoop m0 s0 g dt eig ty tt.
Proof.
  intros i. destruct (ty_run i) as (st' & m' & s' & A & B & C). exists st', m', s'. do 2 eexists. split; [exact A|]. split; [exact B|]. split; [reflexivity|]. split; [exact C|]. split; reflexivity.
Qed.
Lemma ty_only y t : y 0%nat = y0 -> t 0%nat = n0 -> tarLoop m0 s0 g dt eig y t -> forall i, y i = ty i /\ t i = tt i.
Proof.
  intros Y0 Z0 M. assert (H : forall i j, (j <= i)%nat -> y j = ty j /\ t j = tt j); [|intros i; now apply (H i)].
  induction i as [|i IH]; intros j Hj; [replace j with 0%nat by lia; split; [exact Y0|exact Z0]|].
  destruct (Nat.eq_dec j (S i)) as [->|Nj]; [|apply IH; lia].
  destruct (M i) as (st' & m' & s' & q & r & A & B & _ & D & E & G). destruct (ty_run i) as (st1 & m1 & s1 & A1 & B1 & C1).
  replace (map (fun j => mkStep g (y j) [t j] (eig j)) (seq 0 (S i))) with (map (fun j => mkStep g (ty j) [tt j] (eig j)) (seq 0 (S i))) in A.
  2:{ apply map_ext_in. intros j Hj2. apply in_seq in Hj2. destruct (IH j) as (-> & ->); [lia|reflexivity]. }
  rewrite A1 in A. apply (f_equal (fun r => match r with Ok (_, z, _) => z | _ => m1 end)) in A. subst m'. rewrite B1 in B. apply fins_inj in B. subst q.
  rewrite C1 in D. apply (f_equal (fun o => match o with Some (Fin z) => z | _ => 0 end)) in D. subst r.
  destruct (IH i (le_n i)) as (Ei & Ti). split; [rewrite E, Ei; reflexivity|rewrite G, Ti; reflexivity].
Qed.
Lemma tt_short i : 0 < dt -> dt * K <= 1 -> 0 <= n0 -> tt i = n0 * (1 - dt * K) ^ i.
Proof.
  intros Hd SH T0. induction i as [|i IH]; [cbn [tt pow]; ring|]. cbn [tt]. rewrite IH, Rmax_right; [cbn [pow]; ring|]. apply Rmult_le_pos; [exact T0|]. apply pow_le. lra.
Qed.
Lemma tt_long i : 1 < dt * K -> 0 < n0 -> tt (S i) = n0 * (1 - dt * K).
Proof.
  intros LG T0. induction i as [|i IH]; [cbn [tt]; rewrite Rmax_right by lra; ring|]. remember (S i) as j. cbn [tt]. rewrite IH, Rmax_left; [ring|].
  assert (n0 * (1 - dt * K) < n0 * 0) by (apply Rmult_lt_compat_l; lra). lra.
Qed.
Lemma tt_neg i : n0 <= 0 -> tt i = n0.
Proof. intros H. induction i as [|i IH]; [reflexivity|]. cbn [tt]. rewrite IH, Rmax_left by exact H. ring. Qed.
Lemma tt_zero : 0 < dt -> dt * K <= 1 -> 0 <= n0 -> Un_cv tt 0.
Proof.
  intros Hd SH T0. pose proof K_pos. assert (HK : 0 < dt * K) by now apply Rmult_lt_0_compat.
  assert (Q : Rabs (1 - dt * K) < 1) by (apply Rabs_def1; lra). intros e He.
  destruct (pow_lt_1_zero _ Q (e / (n0 + 1))) as (N & HN); [apply Rdiv_lt_0_compat; lra|]. exists N. intros i Hi. specialize (HN i Hi).
  unfold R_dist. rewrite tt_short, Rminus_0_r, Rabs_mult, (Rabs_pos_eq n0) by assumption.
  apply Rle_lt_trans with ((n0 + 1) * Rabs ((1 - dt * K) ^ i)); [apply Rmult_le_compat_r; [apply Rabs_pos|lra]|].
  apply (Rmult_lt_compat_l (n0 + 1)) in HN; [|lra]. replace ((n0 + 1) * (e / (n0 + 1))) with e in HN by (field; lra). exact HN.
Qed.
Lemma C98_ : (exists y t, y 0%nat = y0 /\ t 0%nat = n0 /\ tarLoop m0 s0 g dt eig y t) /\
  forall y t, y 0%nat = y0 -> t 0%nat = n0 -> tarLoop m0 s0 g dt eig y t ->
    (forall i, el (y i) 1 = el y0 1 + kF / K * (n0 - t i)) /\
    (0 < dt -> dt * K <= 1 -> 0 <= n0 -> (forall i, t i = n0 * (1 - dt * K) ^ i) /\ Un_cv t 0 /\ Un_cv (fun i => el (y i) 1) (el y0 1 + kF / K * n0)) /\
    (1 < dt * K -> 0 < n0 -> forall i, t (S i) = n0 * (1 - dt * K) /\ t (S i) < 0) /\
    (n0 <= 0 -> forall i, t i = n0).
Proof.
  split; [exists ty, tt; split; [reflexivity|]; split; [reflexivity|exact ty_loop]|].
  intros y t Y0 Z0 M. pose proof (ty_only y t Y0 Z0 M) as EQ. split; [|split; [|split]].
  - intros i. destruct (EQ i) as (-> & ->). apply ty_mass.
  - intros Hd SH T0. pose proof (tt_zero Hd SH T0) as TZ. split; [|split].
    + intros i. rewrite (proj2 (EQ i)). now apply tt_short.
    + intros e He. destruct (TZ e He) as (N & HN). exists N. intros i Hi. rewrite (proj2 (EQ i)). now apply HN.
    + assert (CV : Un_cv (fun i => (el y0 1 + kF / K * n0) - kF / K * tt i) (el y0 1 + kF / K * n0 - kF / K * 0)).
      { apply (CV_minus (fun _ => el y0 1 + kF / K * n0)); [intros e He; exists 0%nat; intros; unfold R_dist; rewrite Rminus_diag_eq, Rabs_R0 by reflexivity; exact He|].
        apply (CV_mult (fun _ => kF / K)); [intros e He; exists 0%nat; intros; unfold R_dist; rewrite Rminus_diag_eq, Rabs_R0 by reflexivity; exact He|exact TZ]. }
      rewrite Rmult_0_r, Rminus_0_r in CV. intros e He. destruct (CV e He) as (N & HN). exists N. intros i Hi. specialize (HN i Hi). rewrite (proj1 (EQ i)), ty_mass.
      replace (el y0 1 + kF / K * (n0 - tt i)) with (el y0 1 + kF / K * n0 - kF / K * tt i) by ring. exact HN.
  - intros LG T0 i. rewrite (proj2 (EQ (S i))). rewrite tt_long by assumption. split; [reflexivity|].
    assert (n0 * (1 - dt * K) < n0 * 0) by (apply Rmult_lt_compat_l; lra). lra.
  - intros H i. rewrite (proj2 (EQ i)). now apply tt_neg.
Qed.
End Brown.
