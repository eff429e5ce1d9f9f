(** Proofs for C99: the number of particles under nucleation and coagulation in a time loop. *)
From Coq Require Import ZArith List Bool Reals Lra Lia.
From Verif Require Import Num Defs State Coag Nucl Growth Oxid Tar SootModel Mono Qmom Momic Calls XR XRLemmas NumLaws SpecState SpecConfig SpecChem SpecCoag SpecValid SpecRates SpecGas SpecPah SpecPsd SpecSect SpecQmom SpecStep SpecFinite SpecMarch SpecNuclLoop SpecNumLoop
  ConfigProofs CoagProofs StateXR ValidProofs RateProofs PsdProofs PahProofs MonoProofs MonoMain ChemAll SectProofs StateProofs FiniteMain VesselProofs StepProofs MarchProofs MarchMain BurnProofs NuclLoopMain.
Import ListNotations.
Local Open Scope R_scope.

Lemma some_n d a : 0 < d -> exists n, a < INR n * d.
Proof.
  intros H. set (b := Rmax a 0 + 1). assert (Pb : 0 < b) by (unfold b; pose proof (Rmax_r a 0); lra).
  destruct (archimed_cor1 (d / b)) as (n & Hn & Pn); [now apply Rdiv_lt_0_compat|]. exists n. assert (0 < INR n) by now apply lt_0_INR.
  apply (Rmult_lt_compat_l (INR n * b)) in Hn; [|now apply Rmult_lt_0_compat]. replace (INR n * b * / INR n) with b in Hn by (field; lra). replace (INR n * b * (d / b)) with (INR n * d) in Hn by (field; lra).
  pose proof (Rmax_l a 0). unfold b in Hn. lra.
Qed.
Section Number.
Context (nu : nucleationMech) (co : coagulationMech) (F : R) (c : Z) (m0 : model (N:=XR)) (g : gas) (dt : R) (eig : nat -> eigSolver (N:=XR)).
Context (E0 : constructEnum P_MONO 2 nu G_NONE O_NONE co 0 T_NONE (Fin F) c = Ok m0) (NU : gasOnly nu) (NC : co <> C_NONE) (PH : physical g) (Hd : 0 < dt).
Let k := mkMechs nu G_NONE O_NONE co 1.
Let J := nuclFormula nu g.
Let B := slowestCollision co g.
Let U := numberCap J B dt.
Context (BIG : massCutoff <= nucMass g).
Let GC : goodConfig P_MONO 2 nu co T_NONE F c.
Proof. split; [left; exact NU|split; [reflexivity|exact I]]. Qed.
Let OM : okAll k.
Proof. destruct (start P_MONO 2 nu G_NONE O_NONE co 0 T_NONE F c m0 GC E0) as (_ & A & _). exact A. Qed.
Let NP : isP k = false.
Proof. unfold isP, k. cbn [mN]. destruct NU as (Z & _). destruct nu; congruence. Qed.
Let NS : co <> C_size. Proof. destruct OM as (_ & _ & _ & _ & A & _). exact A. Qed.
Lemma num_valid : exists s : state (N:=XR), valid s g [0; 0].
Proof.
  destruct (setTo_ok None m0 (newState 2 0) g [0; 0] []) as (s & _ & V & _); try reflexivity; auto.
  - intros x [<-|[<-|[]]]; lra.
  - intros x [].
  - eauto.
Qed.
Lemma num_J : 0 <= J. Proof. destruct num_valid as (s & V). unfold J. eapply nuclFormula_nneg; eauto. Qed.
Lemma num_B : B = slowest 1 (gT g) (gMu g) massCutoff co. Proof. unfold B, slowestCollision. destruct co; reflexivity. Qed.
Lemma num_gas : exists s : state (N:=XR), gasState s (gT g) (gP g) (gRho g) (gMu g).
Proof. destruct num_valid as (s & V). exists s. exact (proj1 (proj2 V)). Qed.
Lemma num_Bpos : 0 < B.
Proof. rewrite num_B. destruct num_gas as (s & G). apply (slowest_pos 1 (gT g) (gP g) (gRho g) (gMu g) massCutoff s G); auto; try lra. exact cut_pos. Qed.
Lemma num_kernel x : massCutoff < x -> B <= kernel k g x x.
Proof.
  intros H. rewrite num_B. destruct num_gas as (s & G). eapply Rle_trans; [apply (above 1 (gT g) (gP g) (gRho g) (gMu g) massCutoff x s G); try lra; exact cut_pos|].
  right. unfold kernel, k. cbn [mC mF]. destruct (Rlt_dec massCutoff x) as [_|X]; [|lra]. destruct co; try congruence; reflexivity.
Qed.
Lemma num_source l y e : (forall x, In x l -> exists y' e', x = mkStep g y' [] e' /\ length y' = 2%nat) -> length y = 2%nat ->
  exists st' m' s' q0 q1, runActions (None, m0, newState 2 0) (actionsOf (l ++ [mkStep g y [] e])) = Ok (st', m', s') /\ soots m' = map Fin [q0; q1] /\
    q0 <= J /\ (0 < el y 0 -> massCutoff * el y 0 < el y 1 -> q0 = J - 1 / 2 * kernel k g (el y 1 / el y 0) (el y 1 / el y 0) * el y 0 ^ 2 /\ q0 <= J - 1 / 2 * B * el y 0 ^ 2).
Proof.
  intros H L. destruct (start _ _ _ _ _ _ _ _ _ _ _ GC E0) as (_ & _ & _ & I0). fold k in I0. set (x := mkStep g y [] e).
  assert (OKC : forall z, In z (l ++ [x]) -> length (spSoot z) = 2%nat /\ goodStep P_MONO k (geometric c F 2) 2 0 (clipStep z)).
  { intros z Hz. assert (Z : exists y' e', z = mkStep g y' [] e' /\ length y' = 2%nat) by (apply in_app_or in Hz; destruct Hz as [Hz|[<-|[]]]; [now apply H|exists y, e; auto]).
    destruct Z as (y' & e' & -> & L'). split; [exact L'|]. eapply (nl_ok P_MONO 2 nu co F c); eauto; discriminate. }
  assert (SAME : runActions (None, m0, newState 2 0) (actionsOf (l ++ [x])) = runActions (None, m0, newState 2 0) (actionsOf (map clipStep l ++ [clipStep x]))).
  { etransitivity; [exact (same_run P_MONO k 2 0 F c OM _ _ I0 OKC)|]. now rewrite map_app. }
  destruct (at_end P_MONO 2 nu G_NONE O_NONE co T_NONE F c m0 GC E0 (map clipStep l) (clipStep x)) as (st & m & s & HM & HP & X & V & R).
  { intros z Hz. change [clipStep x] with (map clipStep [x]) in Hz. rewrite <- map_app in Hz. apply in_map_iff in Hz. destruct Hz as (w & <- & Hw). now apply OKC. }
  destruct X as (_ & HT & w & a & Ew & Ea). unfold x in V. cbn [clipStep spGas spSoot] in V.
  destruct y as [|N [|M [|]]]; try discriminate L. cbn [clip map] in V.
  assert (RG : regular k g (Rmax 0 N) (Rmax 0 M)) by (intros [Z|Z]; discriminate Z).
  destruct (mono_run m s g k (Rmax 0 N) (Rmax 0 M) w a st e HP HM OM HT V RG Ew Ea) as (m' & A1 & A2 & _).
  do 5 eexists. split; [etransitivity; [exact SAME|etransitivity; [exact R|exact A1]]|]. split; [rewrite A2; unfold monoSources; reflexivity|].
  rewrite (nucl_noP k g _ NP). cbn [oJ]. change (Jnuc k g) with J. cbn [el nth]. pose proof OM as (_ & _ & _ & _ & _ & OF). split.
  - set (z := if Rlt_dec 0 (Rmax 0 N) then Rmax 0 M / Rmax 0 N else a). set (v := if Rlt_dec 0 (Rmax 0 N) then Rmax 0 N else w).
    assert (0 <= kernel k g z z) by (eapply kernel_nneg; eauto). assert (0 <= v ^ 2) by apply pow2_ge_0. assert (0 <= kernel k g z z * v ^ 2) by now apply Rmult_le_pos. lra.
  - intros PN HM2. pose proof cut_pos. assert (PM : 0 < M) by nra. rewrite !(Rmax_right 0) by lra. destruct (Rlt_dec 0 N) as [_|Z]; [|contradiction].
    assert (HX : massCutoff < M / N). { apply (Rmult_lt_reg_r N); [exact PN|]. replace (M / N * N) with M by (field; lra). exact HM2. }
    split; [ring|]. pose proof (num_kernel _ HX) as KB. assert (0 < N ^ 2) by now apply pow_lt. assert (B * N ^ 2 <= kernel k g (M / N) (M / N) * N ^ 2) by (apply Rmult_le_compat_r; lra). lra.
Qed.

Context (y : nat -> list R) (L0 : length (y 0%nat) = 2%nat) (START : massCutoff * el (y 0%nat) 0 < el (y 0%nat) 1) (LOOP : integrates m0 2 (fun _ => g) (fun _ => dt) eig y).
Let N i := el (y i) 0.
Let M i := el (y i) 1.
Lemma num_all i : length (y i) = 2%nat /\ M i = M 0%nat + INR i * (dt * (J * nucMass g)).
Proof.
  destruct (nl_mass P_MONO 2 nu co F c m0 GC NU ltac:(discriminate) E0 (fun _ => g) (fun _ => dt) eig (fun _ => PH) y L0 LOOP i) as (A & E). split; [exact A|]. cbn [soot1] in E. unfold M. rewrite E. f_equal.
  unfold nucleated. fold (nucMass g). fold J. clear. induction i as [|i IH]; [unfold Sum; cbn; ring|]. rewrite Sum_S, IH, S_INR. ring.
Qed.
Lemma num_step i : N (S i) <= N i + dt * J /\ (0 < N i -> massCutoff * N i < M i -> N (S i) <= N i + dt * (J - 1 / 2 * B * N i ^ 2) /\ N (S i) = N i + dt * (J - 1 / 2 * kernel k g (M i / N i) (M i / N i) * N i ^ 2)).
Proof.
  destruct (LOOP i) as (st1 & m1 & s1 & q & A1 & B1 & C1 & D1).
  destruct (num_source (map (fun j => mkStep g (y j) [] (eig j)) (seq 0 i)) (y i) (eig i)) as (st' & m' & s' & q0 & q1 & A & E & Q1 & Q2).
  { intros x Hx. apply in_map_iff in Hx. destruct Hx as (j & <- & _). do 2 eexists. split; [reflexivity|apply num_all]. } { apply num_all. }
  rewrite seq_S, map_app in A1. change (0 + i)%nat with i in A1. cbn [map] in A1.
  assert (EE : Ok (st', m', s') = Ok (st1, m1, s1)) by (etransitivity; [symmetry; exact A|exact A1]).
  apply (f_equal (fun r => match r with Ok (_, z, _) => z | _ => m1 end)) in EE. subst m1. rewrite E in B1. apply fins_inj in B1. subst q.
  unfold N, M in *. rewrite D1. destruct (num_all i) as (L & _). destruct (y i) as [|a [|b [|]]]; try discriminate L. unfold euler. cbn [combine map fst snd el nth] in *.
  split; [apply Rplus_le_compat_l, Rmult_le_compat_l; lra|]. intros P1 P2. destruct (Q2 P1 P2) as (Q3 & Q4). split; [apply Rplus_le_compat_l, Rmult_le_compat_l; [lra|]; exact Q4|]. now rewrite <- Q3.
Qed.
Lemma num_size i : massCutoff * N i < M i.
Proof.
  pose proof cut_pos. pose proof num_J. induction i as [|i IH]; [exact START|]. destruct (num_step i) as (A & _). destruct (num_all i) as (_ & E). destruct (num_all (S i)) as (_ & E').
  rewrite S_INR in E'. assert (M (S i) = M i + dt * (J * nucMass g)) by lra. assert (0 <= dt * J) by (apply Rmult_le_pos; lra).
  assert (massCutoff * N (S i) <= massCutoff * (N i + dt * J)) by (apply Rmult_le_compat_l; lra). assert (dt * J * massCutoff <= dt * J * nucMass g) by (apply Rmult_le_compat_l; lra). lra.
Qed.
Let Ns := sqrt (2 * J / B).
Lemma ns_nn : 0 <= Ns. Proof. apply sqrt_pos. Qed.
Lemma ns_sq : B * Ns ^ 2 = 2 * J.
Proof. pose proof num_Bpos. pose proof num_J. unfold Ns. rewrite pow2_sqrt; [field; lra|]. apply Rmult_le_pos; [lra|]. left. now apply Rinv_0_lt_compat. Qed.
Lemma num_fall i : Ns <= N i -> 0 < N i -> N (S i) <= N i - dt * (1 / 2 * B * (N i ^ 2 - Ns ^ 2)).
Proof. intros H P. destruct (num_step i) as (_ & A). destruct (A P (num_size i)) as (A1 & _). clear A. rename A1 into A. pose proof ns_sq. replace (N i - dt * (1 / 2 * B * (N i ^ 2 - Ns ^ 2))) with (N i + dt * (J - 1 / 2 * B * N i ^ 2)); [exact A|]. replace J with (1 / 2 * (B * Ns ^ 2)) by lra. ring. Qed.
Lemma num_next i : N (S i) <= Rmax (N i) U.
Proof.
  pose proof num_J. pose proof num_Bpos. pose proof ns_nn. assert (0 <= dt * J) by (apply Rmult_le_pos; lra). destruct (Rle_lt_dec (N i) Ns) as [L|L].
  - destruct (num_step i) as (A & _). eapply Rle_trans; [|apply Rmax_r]. unfold U, numberCap. fold Ns. lra.
  - eapply Rle_trans; [|apply Rmax_l]. pose proof (num_fall i ltac:(lra) ltac:(lra)) as A. assert (Ns ^ 2 <= N i ^ 2) by (apply pow_incr; lra).
    assert (0 <= dt * (1 / 2 * B * (N i ^ 2 - Ns ^ 2))) by (apply Rmult_le_pos; [lra|]; apply Rmult_le_pos; lra). lra.
Qed.
Lemma num_bound i : N i <= Rmax (N 0%nat) U.
Proof.
  induction i as [|i IH]; [apply Rmax_l|]. eapply Rle_trans; [apply num_next|]. apply Rmax_lub; [exact IH|apply Rmax_r].
Qed.
Lemma num_stays i j : (i <= j)%nat -> N i <= U -> N j <= U.
Proof. intros Hj Hi. induction Hj as [|j Hj IH]; [exact Hi|]. eapply Rle_trans; [apply num_next|]. apply Rmax_lub; [exact IH|lra]. Qed.
Lemma num_reach : 0 < J -> exists i, N i <= U.
Proof.
  intros PJ. pose proof num_Bpos. pose proof ns_nn. assert (PD : 0 < dt * J) by now apply Rmult_lt_0_compat.
  assert (UN : Ns < U) by (unfold U, numberCap; fold Ns; lra). assert (SQ : Ns ^ 2 < U ^ 2). { assert (0 < (U - Ns) * (U + Ns)) by (apply Rmult_lt_0_compat; lra). nra. }
  set (d := dt * (1 / 2 * B * (U ^ 2 - Ns ^ 2))). assert (Pd : 0 < d) by (unfold d; apply Rmult_lt_0_compat; [exact Hd|]; apply Rmult_lt_0_compat; lra).
  assert (DOWN : forall i, (forall j, (j < i)%nat -> U < N j) -> N i <= N 0%nat - INR i * d).
  { induction i as [|i IH]; intros Hj; [cbn [INR]; lra|]. rewrite S_INR. assert (A : U < N i) by (apply Hj; lia). specialize (IH (fun j H => Hj j ltac:(lia))).
    pose proof (num_fall i ltac:(lra) ltac:(lra)) as Q. assert (U ^ 2 <= N i ^ 2) by (apply pow_incr; lra).
    assert (d <= dt * (1 / 2 * B * (N i ^ 2 - Ns ^ 2))) by (unfold d; apply Rmult_le_compat_l; [lra|]; apply Rmult_le_compat_l; lra). lra. }
  destruct (some_n d (N 0%nat - U) Pd) as (n & Hn).
  assert (EX : forall i, (exists j, (j < i)%nat /\ N j <= U) \/ forall j, (j < i)%nat -> U < N j).
  { induction i as [|i [(j & A & Q)|A]]; [right; intros; lia|left; exists j; split; [lia|exact Q]|]. destruct (Rle_lt_dec (N i) U) as [Z|Z]; [left; exists i; split; [lia|exact Z]|]. right. intros j Hj. destruct (Nat.eq_dec j i) as [->|]; [exact Z|apply A; lia]. }
  destruct (EX n) as [(j & _ & Q)|A]; [eauto|]. exists n. specialize (DOWN n A). lra.
Qed.
Lemma num_mean : 0 < J -> forall x, 0 <= x -> exists i0, forall i, (i0 <= i)%nat -> x * N i <= M i.
Proof.
  intros PJ x Px. pose proof cut_pos. assert (PG : 0 < dt * (J * nucMass g)) by (apply Rmult_lt_0_compat; [exact Hd|]; apply Rmult_lt_0_compat; lra).
  destruct (some_n _ (x * Rmax (N 0%nat) U - M 0%nat) PG) as (n & Hn). exists n. intros i Hi.
  destruct (num_all i) as (_ & E). assert (INR n <= INR i) by now apply le_INR. assert (INR n * (dt * (J * nucMass g)) <= INR i * (dt * (J * nucMass g))) by (apply Rmult_le_compat_r; lra).
  assert (x * N i <= x * Rmax (N 0%nat) U) by (apply Rmult_le_compat_l; [exact Px|apply num_bound]). lra.
Qed.
End Number.

Lemma C99_ nu co F c (m : model (N:=XR)) g dt eig :
  constructEnum P_MONO 2 nu G_NONE O_NONE co 0 T_NONE (Fin F) c = Ok m -> gasOnly nu -> co <> C_NONE -> physical g -> 0 < dt -> massCutoff <= nucMass g ->
  let J := nuclFormula nu g in let U := numberCap J (slowestCollision co g) dt in
  forall N0 M1, massCutoff * N0 < M1 ->
  (exists y, y 0%nat = [N0; M1] /\ integrates m 2 (fun _ => g) (fun _ => dt) eig y) /\
  forall y, y 0%nat = [N0; M1] -> integrates m 2 (fun _ => g) (fun _ => dt) eig y ->
    (forall i, el (y i) 0 <= Rmax N0 U /\ el (y i) 1 = M1 + INR i * (dt * (J * nucMass g))) /\
    (0 < J -> (exists i0, forall i, (i0 <= i)%nat -> el (y i) 0 <= U) /\
              forall x, 0 <= x -> exists i0, forall i, (i0 <= i)%nat -> x * el (y i) 0 <= el (y i) 1).
Proof.
  intros E0 NU NC PH Hd BIG J U N0 M1 ST.
  assert (GC : goodConfig P_MONO 2 nu co T_NONE F c) by (split; [left; exact NU|split; [reflexivity|exact I]]).
  split. { destruct (C97_ P_MONO 2 nu co F c m GC NU ltac:(discriminate) E0 (fun _ => g) (fun _ => dt) eig (fun _ => PH) [N0; M1] eq_refl) as (A & _). exact A. }
  intros y Y0 LOOP. assert (L0 : length (y 0%nat) = 2%nat) by now rewrite Y0. assert (S0 : massCutoff * el (y 0%nat) 0 < el (y 0%nat) 1) by (rewrite Y0; exact ST).
  assert (Z0 : el (y 0%nat) 0 = N0) by now rewrite Y0. assert (Z1 : el (y 0%nat) 1 = M1) by now rewrite Y0. split.
  - intros i. split; [rewrite <- Z0; exact (num_bound nu co F c m g dt eig E0 NU NC PH Hd BIG y L0 S0 LOOP i)|]. rewrite <- Z1. exact (proj2 (num_all nu co F c m g dt eig E0 NU PH y L0 LOOP i)).
  - intros PJ. split.
    + destruct (num_reach nu co F c m g dt eig E0 NU NC PH Hd BIG y L0 S0 LOOP PJ) as (i0 & A). exists i0. intros i Hi. exact (num_stays nu co F c m g dt eig E0 NU NC PH Hd BIG y L0 S0 LOOP i0 i Hi A).
    + intros x Px. exact (num_mean nu co F c m g dt eig E0 NU NC PH Hd BIG y L0 S0 LOOP PJ x Px).
Qed.
Local Transparent massCutoff avogadro massC.
Lemma cut_small : massCutoff * 10 < 1. Proof. unfold massCutoff. lra. Qed.
Lemma nucleus_collides : massCutoff < nucMass demoGas.
Proof.
  unfold nucMass, massCutoff. cbn [gCMin demoGas]. pose proof avo_pos. apply (Rmult_lt_reg_r avogadro); [assumption|]. replace (100 * massC / avogadro * avogadro) with (100 * massC) by (field; lra).
  unfold massC, avogadro. change (602214076 * 10 ^ 18)%Z with 602214076000000000000000000%Z. change (10 ^ 26)%Z with 100000000000000000000000000%Z. lra.
Qed.
Lemma fuchs_collides : 0 < slowestCollision C_FUCHS demoGas.
Proof. eapply (num_Bpos N_LL C_FUCHS 2 100 _ demoGas 1); try reflexivity; try exact demo_physical; try discriminate; try lra; try exact (Rlt_le _ _ nucleus_collides). repeat split; discriminate. Qed.
