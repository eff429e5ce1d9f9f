(** Proofs for C99: the number of particles under nucleation and coagulation by a kernel that is continuum in the limit of large particles tends to a limit. *)
From Coq Require Import ZArith List Bool Reals Lra Lia.
From Verif Require Import Num Defs State Coag Nucl Growth Oxid Tar SootModel Qmom Calls XR SpecChem SpecCoag SpecValid SpecRates SpecPsd SpecSect SpecStep SpecFinite SpecNuclLoop SpecNumLoop
  ValidProofs CoagProofs RateProofs MonoMain MarchProofs MonoCases NumLoopMain FuchsLim.
Import ListNotations.
Local Open Scope R_scope.

Lemma contract (e d : nat -> R) q : 0 < q <= 1 -> (forall i, 0 <= e i) -> (forall i, e (S i) <= (1 - q) * e i + d i) ->
  (forall z, 0 < z -> exists n, forall i, (n <= i)%nat -> d i <= z) -> forall z, 0 < z -> exists n, forall i, (n <= i)%nat -> e i < z.
Proof.
  intros Hq P R D z Hz. destruct (D (q * (z / 2))) as (n & Hn); [apply Rmult_lt_0_compat; lra|].
  assert (A : forall k, e (n + k)%nat <= z / 2 + (1 - q) ^ k * e n).
  { induction k as [|k IH]; [rewrite Nat.add_0_r; cbn [pow]; lra|]. rewrite <- plus_n_Sm. eapply Rle_trans; [apply R|]. specialize (Hn (n + k)%nat ltac:(lia)).
    assert ((1 - q) * e (n + k)%nat <= (1 - q) * (z / 2 + (1 - q) ^ k * e n)) by (apply Rmult_le_compat_l; lra). cbn [pow].
    replace ((1 - q) * (1 - q) ^ k * e n) with ((1 - q) * ((1 - q) ^ k * e n)) by ring. lra. }
  pose proof (P n) as Pn. destruct (pow_lt_1_zero (1 - q) ltac:(rewrite Rabs_right; lra) (z / 2 / (e n + 1))) as (k0 & Hk); [apply Rdiv_lt_0_compat; lra|].
  exists (n + k0)%nat. intros i Hi. replace i with (n + (i - n))%nat by lia. eapply Rle_lt_trans; [apply A|]. specialize (Hk (i - n)%nat ltac:(lia)).
  set (p := (1 - q) ^ (i - n)) in *. assert (Pp : 0 <= p) by (apply pow_le; lra). rewrite Rabs_right in Hk by lra.
  assert (p * (e n + 1) < z / 2 / (e n + 1) * (e n + 1)) by (apply Rmult_lt_compat_r; lra). replace (z / 2 / (e n + 1) * (e n + 1)) with (z / 2) in * by (field; lra). lra.
Qed.
Lemma diam_cube d : 0 < d -> diam (piC * sootDensity / 6 * d ^ 3) = d.
Proof.
  intros H. unfold diam. pose proof piC_pos. assert (0 < sootDensity) by (unfold sootDensity; lra).
  replace (6 * (piC * sootDensity / 6 * d ^ 3) / (piC * sootDensity)) with (d ^ 3) by (field; lra). replace (d ^ 3) with (Rpower d 3) by (rewrite <- (Rpower_pow 3 d H); f_equal; cbn [INR]; lra).
  rewrite Rpower_mult. replace (3 * (1 / 3)) with 1 by field. now apply Rpower_1.
Qed.
Section Limit.
Context (nu : nucleationMech) (co : coagulationMech) (F : R) (c : Z) (m0 : model (N:=XR)) (g : gas) (dt : R) (eig : nat -> eigSolver (N:=XR)).
Context (HC : co = C_CONTINUUM \/ co = C_HM \/ co = C_FUCHS).
Context (E0 : constructEnum P_MONO 2 nu G_NONE O_NONE co 0 T_NONE (Fin F) c = Ok m0) (NU : gasOnly nu) (PH : physical g) (Hd : 0 < dt) (BIG : massCutoff <= nucMass g).
Let k := mkMechs nu G_NONE O_NONE co 1.
Let J := nuclFormula nu g.
Let B := slowestCollision co g.
Let Bc := 8 * boltzmann * gT g / (3 * gMu g).
Let Km := fastestCollision co g.
Let r := stoppingRatio g.
Let fac x := match co with C_FUCHS => 1 + 2 * r x + r x ^ 2 | _ => 1 end.
Let kern x := kernel k g x x.
Let slip := slipLinear (gP g) (gRho g) (gMu g).
Let slipE := slipExp (gP g) (gRho g) (gMu g).
Let NC : co <> C_NONE. Proof. destruct HC as [-> | [-> | ->]]; discriminate. Qed.
Lemma lim_B : 0 < B. Proof. exact (num_Bpos nu co F c m0 g dt E0 NU NC PH). Qed.
Lemma lim_Bc : 0 < Bc. Proof. destruct (num_gas m0 g PH) as (s & G). exact (C0_pos _ _ _ _ s G). Qed.
Lemma free_pos x : 0 < x -> 0 < betaFM 1 (gT g) x x.
Proof. intros H. destruct (num_gas m0 g PH) as (s & G). apply (betaFM_pos s _ _ _ _ G); auto; lra. Qed.
Lemma lim_order : B <= Bc.
Proof.
  unfold B, slowestCollision. cbv zeta. fold Bc. pose proof lim_Bc. pose proof (free_pos massCutoff cut_pos) as P. destruct HC as [-> | H2]; [lra|]. apply Rinv_0_lt_compat in P. assert (0 < / Bc) by now apply Rinv_0_lt_compat.
  assert (/ (/ betaFM 1 (gT g) massCutoff massCutoff + / Bc) <= Bc) by (rewrite <- (Rinv_inv Bc) at 2; apply Rinv_le_contravar; lra). destruct H2 as [-> | ->]; assumption.
Qed.
Lemma slip_order x : 1 <= slipE x <= slip x.
Proof.
  destruct (num_gas m0 g PH) as (s & G). split; [exact (exp_one _ _ _ _ s G x)|]. unfold slipE, slip, slipExp, slipLinear. cbv zeta. pose proof (knudsen_pos s _ _ _ _ G x) as K. set (kn := knudsen _ _ _ _) in *.
  assert (exp (- (11 / 10) / kn) <= 1). { rewrite <- exp_0. left. apply exp_increasing. assert (0 < / kn) by now apply Rinv_0_lt_compat. unfold Rdiv. lra. } nra.
Qed.
Lemma lim_kernel x : massCutoff < x -> kern x = match co with C_HM => / (/ betaFM 1 (gT g) x x + / (Bc * slipE x)) | C_FUCHS => betaFuchs 1 (gT g) (gP g) (gRho g) (gMu g) x x | _ => Bc * slip x end.
Proof.
  intros H. unfold kern, kernel, k. cbn [mC mF]. destruct (Rlt_dec massCutoff x) as [_|X]; [|contradiction]. destruct (num_gas m0 g PH) as (s & G).
  destruct HC as [-> | [-> | ->]]; [exact (C_equal _ _ _ _ s G slip x)| |reflexivity]. unfold betaHM. now rewrite (C_equal _ _ _ _ s G).
Qed.
Lemma fac_one x : 0 < x -> 1 <= fac x.
Proof. intros H. destruct (num_gas m0 g PH) as (s & G). pose proof (r_pos g s G x H) as P. fold r in P. pose proof (pow2_ge_0 (r x)). unfold fac. destruct co; lra. Qed.
Lemma fac_down x : massCutoff < x -> fac x <= fac massCutoff.
Proof.
  intros H. pose proof cut_pos as PC. destruct (num_gas m0 g PH) as (s & G). pose proof (r_pos g s G x ltac:(lra)) as P. pose proof (r_down g s G massCutoff x PC (Rlt_le _ _ H)) as Q. fold r in P, Q.
  assert (r x ^ 2 <= r massCutoff ^ 2) by (apply pow_incr; lra). unfold fac. destruct co; lra.
Qed.
Lemma lim_slow x : massCutoff < x -> kern x <= Bc * (slip x * fac x).
Proof.
  intros H. rewrite (lim_kernel x H). pose proof lim_Bc as P. destruct (slip_order x) as (S1 & S2). pose proof cut_pos. pose proof (fac_one x ltac:(lra)) as F1. unfold fac in *. destruct HC as [-> | [-> | ->]]; [lra| |].
  - pose proof (free_pos x ltac:(lra)) as PF. apply Rinv_0_lt_compat in PF.
    assert (PE : 0 < Bc * slipE x) by (apply Rmult_lt_0_compat; lra). rewrite Rmult_1_r. apply Rle_trans with (Bc * slipE x); [|apply Rmult_le_compat_l; lra]. rewrite <- (Rinv_inv (Bc * slipE x)) at 2. assert (0 < / (Bc * slipE x)) by now apply Rinv_0_lt_compat. apply Rinv_le_contravar; lra.
  - destruct (num_gas m0 g PH) as (s & G). eapply Rle_trans; [exact (fuchs_up g s G x ltac:(lra))|]. apply Rmult_le_compat_l; [left; exact P|]. apply Rmult_le_compat_r; [apply Rle_trans with 1; [lra|exact F1]|exact S2].
Qed.
Lemma lim_Km : Km = Bc * (slip massCutoff * fac massCutoff).
Proof. destruct (num_gas m0 g PH) as (s & G). unfold Km, fastestCollision, fastestContinuum, fac. cbv zeta. rewrite (C_equal _ _ _ _ s G). fold Bc slip r. destruct co; ring. Qed.
Lemma lim_fast x : massCutoff < x -> B <= kern x <= Km.
Proof.
  intros H. split; [exact (num_kernel nu co F c m0 g dt E0 NU NC PH x H)|]. eapply Rle_trans; [exact (lim_slow x H)|]. destruct (num_gas m0 g PH) as (s & G). pose proof lim_Bc. pose proof cut_pos. rewrite lim_Km.
  apply Rmult_le_compat_l; [lra|]. pose proof (slip_order x). pose proof (fac_one x ltac:(lra)). apply Rmult_le_compat; try lra; [|exact (fac_down x H)]. apply (lin_down (gT g) (gP g) (gRho g) (gMu g) massCutoff x s G); lra.
Qed.
Lemma lim_top : Bc <= Km.
Proof. rewrite lim_Km. pose proof lim_Bc. pose proof cut_pos. pose proof (slip_order massCutoff). pose proof (fac_one massCutoff ltac:(lra)). assert (1 * 1 <= slip massCutoff * fac massCutoff) by (apply Rmult_le_compat; lra). rewrite <- (Rmult_1_r Bc) at 1. apply Rmult_le_compat_l; lra. Qed.
Lemma lim_slip z : 0 < z -> exists x0, 0 < x0 /\ forall x, x0 <= x -> slip x <= 1 + z.
Proof.
  intros Hz. destruct (num_gas m0 g PH) as (s & G). set (l := meanFreePath (gP g) (gRho g) (gMu g)).
  assert (Pl : 0 < l). { pose proof (knudsen_pos s _ _ _ _ G 1) as K. unfold knudsen in K. fold l in K. pose proof (diam_pos 1) as D. assert (0 < 2 * l / diam 1 * diam 1) by now apply Rmult_lt_0_compat. replace (2 * l / diam 1 * diam 1) with (2 * l) in * by (field; lra). lra. }
  set (d := 1657 / 1000 * (2 * l) / z). assert (Pd : 0 < d) by (apply Rdiv_lt_0_compat; lra). pose proof piC_pos. assert (0 < sootDensity) by (unfold sootDensity; lra).
  assert (PX : 0 < piC * sootDensity / 6 * d ^ 3). { apply Rmult_lt_0_compat; [|now apply pow_lt]. apply Rdiv_lt_0_compat; [|lra]. now apply Rmult_lt_0_compat. }
  exists (piC * sootDensity / 6 * d ^ 3). split; [exact PX|]. intros x Hx. eapply Rle_trans; [exact (lin_down (gT g) (gP g) (gRho g) (gMu g) _ x s G PX Hx)|].
  unfold slipLinear, knudsen. rewrite diam_cube by exact Pd. fold l. unfold d. right. field. lra.
Qed.
Lemma lim_free a : 0 < a -> exists x0, 0 < x0 /\ forall x, x0 <= x -> a <= betaFM 1 (gT g) x x.
Proof.
  intros Ha. destruct (num_gas m0 g PH) as (s & G). pose proof (FM_const 1 (gT g) _ _ _ s G ltac:(lra)) as PC. set (q := enhancement * 1 * _ * 4 * _) in PC.
  assert (Pa : 0 < a / q) by now apply Rdiv_lt_0_compat. assert (P6 : 0 < (a / q) ^ 6) by now apply pow_lt. exists ((a / q) ^ 6). split; [exact P6|]. intros x Hx.
  rewrite (FM_equal 1 (gT g) _ _ _ s G x ltac:(lra)). fold q. assert (L : Rpower ((a / q) ^ 6) (1 / 6) <= Rpower x (1 / 6)) by (apply Rle_Rpower_l; lra).
  rewrite <- (Rpower_pow 6 (a / q) Pa), Rpower_mult in L. replace (INR 6 * (1 / 6)) with 1 in L by (cbn [INR]; field). rewrite Rpower_1 in L by exact Pa.
  replace a with (q * (a / q)) by (field; lra). apply Rmult_le_compat_l; lra.
Qed.
Lemma lim_fac z : 0 < z -> exists x0, 0 < x0 /\ forall x, x0 <= x -> fac x <= 1 + z.
Proof.
  intros Hz. destruct (num_gas m0 g PH) as (s & G). pose proof piC_pos as PP. pose proof boltz_pos as PZ. destruct G as (Ht & G1 & G2 & Hm & G3). assert (G : gasState s (gT g) (gP g) (gRho g) (gMu g)) by (repeat split; tauto). clear G1 G2 G3.
  set (e := Rmin 1 (z / 3)). assert (Pe : 0 < e) by (apply Rmin_glb_lt; lra). assert (e1 : e <= 1) by apply Rmin_l. assert (e3 : e <= z / 3) by apply Rmin_r.
  set (q := 8 * boltzmann * gT g * enhancement * sqrt 2 / (3 * piC * gMu g)). assert (S2 : 0 < sqrt 2) by (apply sqrt_lt_R0; lra).
  assert (Pq : 0 < q). { unfold q, enhancement. apply Rdiv_lt_0_compat; repeat apply Rmult_lt_0_compat; lra. }
  destruct (lim_slip 1 ltac:(lra)) as (x1 & P1 & H1). destruct (lim_free (2 * q / e)) as (x2 & P2 & H2); [apply Rdiv_lt_0_compat; lra|].
  exists (Rmax x1 x2). split; [eapply Rlt_le_trans; [exact P1|apply Rmax_l]|]. intros x Hx. assert (X1 : x1 <= x) by (eapply Rle_trans; [apply Rmax_l|exact Hx]). assert (X2 : x2 <= x) by (eapply Rle_trans; [apply Rmax_r|exact Hx]).
  specialize (H1 x X1). specialize (H2 x X2). destruct (slip_order x) as (S1 & S3). pose proof (r_pos g s G x ltac:(lra)) as PR. pose proof (r_free g s G x ltac:(lra)) as E. fold q in E. fold (slipE x) in E. fold r in PR, E.
  assert (Pf : 0 < betaFM 1 (gT g) x x) by (apply free_pos; lra). set (a := betaFM 1 (gT g) x x) in *. set (u := slipE x) in *. clearbody a u q.
  assert (L : r x <= e). { rewrite E. apply (Rmult_le_reg_r a); [exact Pf|]. replace (q * u / a * a) with (q * u) by (field; lra). apply (Rmult_le_compat_l e) in H2; [|lra]. replace (e * (2 * q / e)) with (2 * q) in H2 by (field; lra). nra. }
  assert (r x ^ 2 <= e) by nra. unfold fac. destruct co; lra.
Qed.
Lemma lim_low x : massCutoff < x -> co <> C_CONTINUUM -> / (/ betaFM 1 (gT g) x x + / Bc) <= kern x.
Proof.
  intros H N. rewrite (lim_kernel x H). pose proof lim_Bc. destruct (slip_order x) as (S1 & S2). pose proof cut_pos. pose proof (free_pos x ltac:(lra)) as Pa. apply Rinv_0_lt_compat in Pa. destruct HC as [-> | [-> | ->]]; [contradiction| |].
  - assert (Q : Bc * 1 <= Bc * slipE x) by (apply Rmult_le_compat_l; lra). rewrite Rmult_1_r in Q. assert (I1 : / (Bc * slipE x) <= / Bc) by (apply Rinv_le_contravar; lra). assert (0 < / (Bc * slipE x)) by (apply Rinv_0_lt_compat; lra).
    apply Rinv_le_contravar; lra.
  - destruct (num_gas m0 g PH) as (s & G). rewrite (fuchs_inv s _ _ _ _ G) by lra. pose proof (rest_le (gT g) (gP g) (gRho g) (gMu g) x s G) as Q. pose proof (fuchsRest_pos s _ _ _ _ G x x) as P. fold Bc in Q. apply Rinv_le_contravar; lra.
Qed.
Lemma lim_kern z : 0 < z -> exists x0, 0 < x0 /\ forall x, x0 <= x -> massCutoff < x -> Rabs (kern x - Bc) <= z.
Proof.
  intros Hz. pose proof lim_Bc as PB. assert (PZ : 0 < z / Bc) by now apply Rdiv_lt_0_compat. set (e := Rmin 1 (z / Bc / 3)). assert (Pe : 0 < e) by (apply Rmin_glb_lt; lra). assert (e1 : e <= 1) by apply Rmin_l. assert (e3 : e <= z / Bc / 3) by apply Rmin_r.
  destruct (lim_slip e Pe) as (x1 & P1 & H1). destruct (lim_fac e Pe) as (x3 & P3 & H3).
  assert (P2 : 0 < Bc ^ 2) by now apply pow_lt. destruct (lim_free (Bc ^ 2 / z)) as (x2 & Px2 & H2); [now apply Rdiv_lt_0_compat|].
  exists (Rmax x1 (Rmax x2 x3)). split; [eapply Rlt_le_trans; [exact P1|apply Rmax_l]|]. intros x Hx Hc. assert (X1 : x1 <= x) by (eapply Rle_trans; [apply Rmax_l|exact Hx]). assert (X0 : Rmax x2 x3 <= x) by (eapply Rle_trans; [apply Rmax_r|exact Hx]).
  assert (X2 : x2 <= x) by (eapply Rle_trans; [apply Rmax_l|exact X0]). assert (X3 : x3 <= x) by (eapply Rle_trans; [apply Rmax_r|exact X0]).
  specialize (H1 x X1). specialize (H2 x X2). specialize (H3 x X3). pose proof (lim_slow x Hc) as U. destruct (slip_order x) as (S1 & S2). pose proof cut_pos. pose proof (fac_one x ltac:(lra)) as F1.
  assert (U1 : slip x * fac x <= 1 + z / Bc). { apply Rle_trans with ((1 + e) * (1 + e)); [apply Rmult_le_compat; lra|]. nra. }
  assert (U2 : Bc * (slip x * fac x) <= Bc * (1 + z / Bc)) by (apply Rmult_le_compat_l; lra). replace (Bc * (1 + z / Bc)) with (Bc + z) in U2 by (field; lra).
  assert (LO : Bc - z <= kern x).
  { destruct HC as [E | OT].
    - rewrite (lim_kernel x Hc), E. assert (Bc * 1 <= Bc * slip x) by (apply Rmult_le_compat_l; lra). lra.
    - assert (N : co <> C_CONTINUUM) by (destruct OT as [-> | ->]; discriminate). eapply Rle_trans; [|exact (lim_low x Hc N)].
      set (a := betaFM _ _ _ _) in *. assert (Pa : 0 < a). { eapply Rlt_le_trans; [|exact H2]. now apply Rdiv_lt_0_compat. }
      assert (W : Bc ^ 2 <= z * a). { apply (Rmult_le_compat_l z) in H2; [|lra]. replace (z * (Bc ^ 2 / z)) with (Bc ^ 2) in H2 by (field; lra). exact H2. }
      replace (/ (/ a + / Bc)) with (a * Bc / (a + Bc)) by (field; lra). apply (Rmult_le_reg_r (a + Bc)); [lra|]. replace (a * Bc / (a + Bc) * (a + Bc)) with (a * Bc) by (field; lra). assert (0 < z * Bc) by now apply Rmult_lt_0_compat. nra. }
  apply Rabs_le. lra.
Qed.
Context (y : nat -> list R) (L0 : length (y 0%nat) = 2%nat) (START : massCutoff * el (y 0%nat) 0 < el (y 0%nat) 1) (LOOP : integrates m0 2 (fun _ => g) (fun _ => dt) eig y).
Context (PJ : 0 < J) (PN : 0 < el (y 0%nat) 0) (SHORT : shortStep J B Km dt (el (y 0%nat) 0)).
Let N i := el (y i) 0.
Let M i := el (y i) 1.
Let Ns := sqrt (2 * J / Bc).
Let cap := Rmax (N 0%nat) (numberCap J B dt).
Lemma lim_ns : 0 < Ns. Proof. apply sqrt_lt_R0. pose proof lim_Bc. apply Rdiv_lt_0_compat; lra. Qed.
Lemma lim_cap i : N i <= cap. Proof. exact (num_bound nu co F c m0 g dt eig E0 NU NC PH Hd BIG y L0 START LOOP i). Qed.
Lemma lim_mean i : 0 < N i -> massCutoff < M i / N i.
Proof.
  intros H. apply (Rmult_lt_reg_r (N i)); [exact H|]. replace (M i / N i * N i) with (M i) by (field; lra). exact (num_size nu co F c m0 g dt eig E0 NU NC PH Hd BIG y L0 START LOOP i).
Qed.
Lemma lim_step i : 0 < N i -> N (S i) = N i + dt * (J - 1 / 2 * kern (M i / N i) * N i ^ 2).
Proof.
  intros H. destruct (num_step nu co F c m0 g dt eig E0 NU NC PH Hd y L0 LOOP i) as (_ & A).
  destruct (A H (num_size nu co F c m0 g dt eig E0 NU NC PH Hd BIG y L0 START LOOP i)) as (_ & Q). exact Q.
Qed.
Lemma lim_short b i : 0 < N i -> 0 < b <= Km -> dt * b * (Ns + N i) <= 2.
Proof.
  intros H Hb. pose proof lim_B. pose proof lim_Bc. pose proof lim_order. pose proof lim_ns. eapply Rle_trans; [|exact SHORT]. change (el (y 0%nat) 0) with (N 0%nat). fold cap.
  assert (Ns <= sqrt (2 * J / B)). { apply sqrt_le_1_alt. unfold Rdiv. apply Rmult_le_compat_l; [lra|]. apply Rinv_le_contravar; lra. }
  pose proof (lim_cap i). assert (0 < dt * b) by (apply Rmult_lt_0_compat; lra). apply Rmult_le_compat; try lra. apply Rmult_le_compat_l; lra.
Qed.
Lemma lim_pos i : 0 < N i.
Proof.
  induction i as [|i IH]; [exact PN|]. rewrite (lim_step i IH). destruct (lim_fast _ (lim_mean i IH)) as (B1 & B2). set (b := kern _) in *. pose proof lim_B. pose proof lim_ns.
  pose proof (lim_short b i IH ltac:(lra)). assert (0 < dt * b) by (apply Rmult_lt_0_compat; lra). assert (0 < dt * b * Ns) by now apply Rmult_lt_0_compat. assert (dt * b * N i <= 2) by lra.
  assert (0 <= N i * (2 - dt * b * N i)) by (apply Rmult_le_pos; lra). assert (0 < dt * J) by now apply Rmult_lt_0_compat. nra.
Qed.
Lemma lim_next i : Rabs (N (S i) - Ns) <= (1 - dt * Bc * Ns / 2) * Rabs (N i - Ns) + dt * Rabs (kern (M i / N i) - Bc) / 2 * cap ^ 2.
Proof.
  pose proof (lim_pos i) as P. set (v := kern (M i / N i)). pose proof lim_Bc. pose proof lim_ns. pose proof (lim_cap i).
  assert (SQ : Bc * Ns ^ 2 = 2 * J). { unfold Ns. rewrite pow2_sqrt; [field; lra|]. left. apply Rdiv_lt_0_compat; lra. }
  assert (D : N (S i) - Ns = (N i - Ns) * (1 - dt * Bc / 2 * (Ns + N i)) - dt * (v - Bc) / 2 * N i ^ 2).
  { rewrite (lim_step i P). fold v. replace J with (Bc * Ns ^ 2 / 2) by lra. field. }
  rewrite D. unfold Rminus at 1. eapply Rle_trans; [apply Rabs_triang|]. rewrite Rabs_Ropp, Rabs_mult. assert (dB : 0 < dt * Bc) by now apply Rmult_lt_0_compat.
  pose proof (lim_short Bc i P (conj lim_Bc lim_top)) as F1. assert (0 < dt * Bc * N i) by now apply Rmult_lt_0_compat. rewrite (Rabs_right (1 - dt * Bc / 2 * (Ns + N i))) by lra.
  assert (Q2 : N i ^ 2 <= cap ^ 2) by (apply pow_incr; lra). assert (Q0 : 0 <= N i ^ 2) by apply pow2_ge_0.
  replace (dt * (v - Bc) / 2 * N i ^ 2) with ((v - Bc) * (dt / 2 * N i ^ 2)) by field. rewrite Rabs_mult. assert (0 <= dt / 2 * N i ^ 2) by (apply Rmult_le_pos; lra). rewrite (Rabs_right (dt / 2 * N i ^ 2)) by lra.
  replace (dt * Rabs (v - Bc) / 2 * cap ^ 2) with (Rabs (v - Bc) * (dt / 2 * cap ^ 2)) by field.
  apply Rplus_le_compat; [rewrite Rmult_comm; apply Rmult_le_compat_r; [apply Rabs_pos|lra]|]. apply Rmult_le_compat_l; [apply Rabs_pos|]. apply Rmult_le_compat_l; lra.
Qed.
Lemma lim_cv : Un_cv N Ns.
Proof.
  pose proof lim_Bc. pose proof lim_ns. assert (dB : 0 < dt * Bc) by now apply Rmult_lt_0_compat. assert (dN : 0 < dt * Bc * Ns) by now apply Rmult_lt_0_compat.
  assert (Pc : 0 < cap). { eapply Rlt_le_trans; [apply (lim_pos 0)|apply lim_cap]. } assert (P2 : 0 < cap ^ 2) by now apply pow_lt.
  intros z Hz. destruct (contract (fun i => Rabs (N i - Ns)) (fun i => dt * Rabs (kern (M i / N i) - Bc) / 2 * cap ^ 2) (dt * Bc * Ns / 2)) with (z := z) as (n & Hn); auto.
  - split; [lra|]. pose proof (lim_pos 0). pose proof (lim_short Bc 0 (lim_pos 0) (conj lim_Bc lim_top)) as A. assert (0 < dt * Bc * N 0%nat) by now apply Rmult_lt_0_compat. lra.
  - intros i. apply Rabs_pos.
  - exact lim_next.
  - intros w Hw. assert (PD : 0 < dt * cap ^ 2) by now apply Rmult_lt_0_compat. destruct (lim_kern (w * 2 / (dt * cap ^ 2))) as (x0 & Px & HX). { apply Rdiv_lt_0_compat; lra. }
    destruct (num_mean nu co F c m0 g dt eig E0 NU NC PH Hd BIG y L0 START LOOP PJ x0 (Rlt_le _ _ Px)) as (n & Hn). exists n. intros i Hi. specialize (Hn i Hi). cbv beta in Hn. fold (N i) (M i) in Hn.
    pose proof (lim_pos i). assert (L : x0 <= M i / N i). { apply (Rmult_le_reg_r (N i)); [assumption|]. replace (M i / N i * N i) with (M i) by (field; lra). exact Hn. }
    specialize (HX _ L (lim_mean i ltac:(assumption))). set (v := Rabs _) in *. assert (T : dt * cap ^ 2 / 2 * v <= dt * cap ^ 2 / 2 * (w * 2 / (dt * cap ^ 2))) by (apply Rmult_le_compat_l; lra).
    replace (dt * cap ^ 2 / 2 * (w * 2 / (dt * cap ^ 2))) with w in T by (field; repeat split; lra). lra.
  - exists n. intros i Hi. unfold R_dist. apply Hn. lia.
Qed.
End Limit.

Lemma C99_limit_ nu co F c (m : model (N:=XR)) g dt eig : co = C_CONTINUUM \/ co = C_HM \/ co = C_FUCHS ->
  constructEnum P_MONO 2 nu G_NONE O_NONE co 0 T_NONE (Fin F) c = Ok m -> gasOnly nu -> physical g -> 0 < dt -> massCutoff <= nucMass g ->
  let J := nuclFormula nu g in 0 < J ->
  forall N0 M1, 0 < N0 -> massCutoff * N0 < M1 -> shortStep J (slowestCollision co g) (fastestCollision co g) dt N0 ->
  forall y, y 0%nat = [N0; M1] -> integrates m 2 (fun _ => g) (fun _ => dt) eig y ->
    (forall i, 0 < el (y i) 0) /\ Un_cv (fun i => el (y i) 0) (sqrt (2 * J / (8 * boltzmann * gT g / (3 * gMu g)))).
Proof.
  intros HC E0 NU PH Hd BIG J PJ N0 M1 PN ST SH y Y0 LOOP. assert (L0 : length (y 0%nat) = 2%nat) by now rewrite Y0. assert (Z0 : el (y 0%nat) 0 = N0) by now rewrite Y0. assert (Z1 : el (y 0%nat) 1 = M1) by now rewrite Y0.
  rewrite <- Z0 in ST, PN, SH. rewrite <- Z1 in ST. split; [intros i; exact (lim_pos nu co F c m g dt eig HC E0 NU PH Hd BIG y L0 ST LOOP PJ PN SH i)|exact (lim_cv nu co F c m g dt eig HC E0 NU PH Hd BIG y L0 ST LOOP PJ PN SH)].
Qed.
Lemma short_some J B K N0 : 0 < J -> 0 < B -> 0 < K -> 0 < N0 -> exists dt, 0 < dt /\ shortStep J B K dt N0.
Proof.
  intros HJ HB HK HN. set (s := sqrt (2 * J / B)). assert (0 <= s) by apply sqrt_pos. set (T := s + (N0 + (s + J))). assert (0 < T) by (unfold T; lra). assert (0 < K * T) by now apply Rmult_lt_0_compat.
  set (dt := Rmin 1 (2 / (K * T))). assert (Pd : 0 < dt) by (unfold dt; apply Rmin_glb_lt; [lra|]; apply Rdiv_lt_0_compat; lra). exists dt. split; [exact Pd|]. unfold shortStep, numberCap. fold s.
  assert (D1 : dt <= 1) by apply Rmin_l. assert (D2 : dt <= 2 / (K * T)) by apply Rmin_r. assert (dt * J <= 1 * J) by (apply Rmult_le_compat_r; lra). assert (0 < dt * J) by now apply Rmult_lt_0_compat.
  assert (C : s + Rmax N0 (s + dt * J) <= T) by (unfold T; apply Rplus_le_compat_l, Rmax_lub; lra). assert (0 < dt * K) by now apply Rmult_lt_0_compat.
  apply Rle_trans with (dt * K * T); [apply Rmult_le_compat_l; lra|]. rewrite Rmult_assoc. apply (Rmult_le_compat_r (K * T)) in D2; [|lra]. replace (2 / (K * T) * (K * T)) with 2 in D2 by (field; split; lra). exact D2.
Qed.
Lemma ll_forms : 0 < nuclFormula N_LL demoGas.
Proof.
  pose proof massC_pos. pose proof avo_pos. assert (0 < molarMass C2H2) by (unfold molarMass, massC, massH; cbn; lra). unfold nuclFormula, perParticle, conc; cbn [gT gRho gY gCMin demoGas]; mpos.
Qed.
Lemma limit_case : exists (m : model (N:=XR)) dt,
  constructEnum P_MONO 2 N_LL G_NONE O_NONE C_FUCHS 0 T_NONE (Fin 2) 100 = Ok m /\ 0 < dt /\ massCutoff * 10 < 1 /\
  shortStep (nuclFormula N_LL demoGas) (slowestCollision C_FUCHS demoGas) (fastestCollision C_FUCHS demoGas) dt 10 /\
  forall eig, exists y, y 0%nat = [10; 1] /\ integrates m 2 (fun _ => demoGas) (fun _ => dt) eig y.
Proof.
  assert (E : exists m : model (N:=XR), constructEnum P_MONO 2 N_LL G_NONE O_NONE C_FUCHS 0 T_NONE (Fin 2) 100 = Ok m) by (eexists; reflexivity). destruct E as (m & E0).
  assert (GO : gasOnly N_LL) by (repeat split; discriminate). pose proof demo_physical as PH. assert (NC : C_FUCHS <> C_NONE) by discriminate.
  pose proof (num_Bpos N_LL C_FUCHS 2 100 m demoGas 1 E0 GO NC PH) as PB.
  assert (PK : 0 < fastestCollision C_FUCHS demoGas). { eapply Rlt_le_trans; [exact (lim_Bc m demoGas PH)|apply (lim_top N_LL C_FUCHS 2 100 m demoGas); auto; lra]. }
  destruct (short_some _ _ _ 10 ll_forms PB PK ltac:(lra)) as (dt & Pd & SH). exists m, dt. split; [exact E0|]. split; [exact Pd|]. split; [exact cut_small|]. split; [exact SH|]. intros eig.
  exact (proj1 (C99_ N_LL C_FUCHS 2 100 m demoGas dt eig E0 GO NC PH Pd (Rlt_le _ _ nucleus_collides) 10 1 cut_small)).
Qed.
