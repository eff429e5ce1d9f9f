(** The burner-flame drivers: whole runs. *)
From Coq Require Import ZArith List Bool Reals Lra Lia.
From Verif Require Import Num Defs State Coag Nucl Growth Oxid Tar SootModel Qmom Calls Interp Flame XR XRLemmas NumLaws SpecInterp SpecState SpecChem SpecCoag SpecValid SpecRates SpecPsd SpecQmom SpecSafe SpecFinite SpecFrame SpecFlame
  InterpProofs StateProofs StateXR ValidProofs SafeProofs SafeMain HistMain NeedsMain SurfProofs HmomProofs ShortMain FrameMain FiniteMain FlameProofs.
Import ListNotations.
Local Open Scope R_scope.

(** ** evaluations inside a physical flame *)
Section Phys.
Context (f : flow) (PF : physicalFlow f).
Lemma W : wellFormed f. Proof. exact (proj1 PF). Qed.
Definition inside (z : R) : Prop := bottom f <= z <= top f.
Lemma pos_in Y z : length Y = length (w_z f) -> (forall x, In x Y -> 0 < x) -> inside z -> 0 < lineAt (w_z f) Y z.
Proof. intros L H B. pose proof W as (L2 & HI & _). apply line_pos; auto. Qed.
Lemma unit_in sp z : given sp -> inside z -> 0 <= lineAt (w_z f) (w_y f sp) z <= 1.
Proof. intros G B. destruct PF as ((L2 & HI & _ & _ & _ & _ & LY) & _ & _ & _ & _ & H). pose proof (LY sp G). apply line_unit; auto. exact (H sp G). Qed.
Lemma rho_in z : inside z -> 0 < rhoAt f z.
Proof. destruct PF as ((_ & _ & _ & _ & L & _) & _ & _ & H & _). now apply pos_in. Qed.
Lemma vel_in z : inside z -> 0 < velAt f z.
Proof. destruct PF as ((_ & _ & L & _) & H & _). now apply pos_in. Qed.
Lemma T_in z : inside z -> 0 < gT (gasAt f z).
Proof. destruct PF as ((_ & _ & _ & L & _) & _ & H & _). now apply pos_in. Qed.
Lemma mu_in z : inside z -> 0 < gMu (gasAt f z).
Proof. destruct PF as ((_ & _ & _ & _ & _ & L & _) & _ & _ & _ & H & _). now apply pos_in. Qed.
Lemma y_in z sp : inside z -> 0 <= gY (gasAt f z) sp <= 1.
Proof.
  intros B. unfold gasAt. cbn [gY]. destruct sp; try lra; apply unit_in; auto; unfold given; cbn [In]; tauto.
Qed.
Lemma suits_full z : inside z -> suits (gasAt f z) (full8 f z).
Proof.
  intros B. constructor; try reflexivity.
  - now apply T_in. - cbn [gP gasAt]; lra. - now apply rho_in. - now apply mu_in. - cbn [gCMin gasAt]; lra.
  - intros sp. apply y_in; auto.
  - intros y Hy. unfold full8 in Hy. apply in_map_iff in Hy. destruct Hy as (sp & <- & Hs). apply xltb_false. apply unit_in; auto.
Qed.
Lemma suits_half z : inside z -> suits (driverGas f z) (half8 f z).
Proof.
  intros B. constructor; try reflexivity.
  - now apply T_in. - cbn [gP gasAt driverGas withO2]; lra. - now apply rho_in. - now apply mu_in. - cbn [gCMin gasAt driverGas withO2]; lra.
  - intros sp. unfold driverGas, withO2. cbn [gY]. destruct sp; try (apply y_in; auto). apply unit_in; auto; unfold given; cbn [In]; tauto.
  - intros y Hy. unfold half8 in Hy. apply in_map_iff in Hy. destruct Hy as (sp & <- & Hs). apply xltb_false. apply unit_in; auto. unfold given. cbn [In] in *. tauto.
Qed.

Context (p : psdMech) (n : nat) (m0 : model (N:=XR)) (E0 : flameModel (N:=XR) p n = Ok m0) (SZ : flameSize p n) (eig : eigSolver (N:=XR)).
Lemma evaluate_ok gas yg gs z m s M : mapM (fun o => interp (N:=XR) o (Fin z)) gas = Ok yg -> suits gs yg ->
  gT gs = gT (gasAt f z) -> gP gs = 101325 -> gRho gs = rhoAt f z -> gMu gs = gMu (gasAt f z) -> gCMin gs = 1667 ->
  ready n m0 (None, m, s) -> length M = n ->
  exists m' s', evaluate eig (tablesOf f) n gas (Fin z) (None, m, s) M = Ok (None, m', s') /\ ready n m0 (None, m', s') /\
    fresh eig m0 n gs (times (rhoAt f z) M) (soots m') /\ length (soots m') = n.
Proof.
  intros EG SU ET EP ER EM EC RD LM.
  destruct (eval_ok p n m0 E0 SZ eig m s gs yg (times (rhoAt f z) M) RD SU) as (s1 & m' & s' & A & B & C & D & L); [unfold times; now rewrite map_length|].
  exists m', s'. split; [|auto]. unfold evaluate. rewrite EG. cbn [bind]. rewrite (scaled_ok f W n z M LM). cbn [bind].
  rewrite (at_T f W). cbn [bind]. rewrite (at_rho f W). cbn [bind]. rewrite (at_mu f W). cbn [bind].
  rewrite ET, EP, ER, EM, EC in A.
  etransitivity; [apply (f_equal (fun r => match r with SetOk s2 => setSourceTerms None eig m s2 | SetThrow e _ => Throw e | SetUB => UB OutOfBounds end)); exact A|]. exact B.
Qed.
Lemma along_len M r h rho v : length M = n -> length r = n -> length (along M r h rho v) = n.
Proof. intros A B. unfold along. rewrite map_length, combine_length. lia. Qed.
Lemma half_num dz : nmul (Num:=XR) (nlit 5 (-1)) (Fin dz) = Fin (dz / 2).
Proof. change (Fin (5 / 10 * dz) = Fin (dz / 2)). f_equal. field. Qed.
Lemma mid_num z dz : nadd (Num:=XR) (Fin z) (ndiv (Fin dz) (nZ 2)) = Fin (z + dz / 2).
Proof. change (xadd (Fin z) (xdiv (Fin dz) (Fin 2)) = Fin (z + dz / 2)). rewrite xdiv_fin by lra. reflexivity. Qed.
Lemma step_ok dz z m s M out i : 0 <= dz -> inside z -> inside (z + dz) -> ready n m0 (None, m, s) -> length M = n ->
  exists m' s' M', flameStep eig (tablesOf f) n (Fin dz) (mkLoop (N:=XR) (None, m, s) (Fin z) M out) i =
      Ok (mkLoop (N:=XR) (None, m', s') (Fin (z + dz)) M' (if Nat.eqb (Nat.modulo i 200) 0 then out ++ [(Fin (z + dz), times (rhoAt f (z + dz)) M')] else out)) /\
    ready n m0 (None, m', s') /\ length M' = n /\ midpointWith (driverGas f) eig m0 n f dz z M M'.
Proof.
  intros PD Bz Bd RD LM. set (zh := z + dz / 2). assert (Bh : inside zh) by (unfold inside, zh in *; lra).
  destruct (evaluate_ok (gasFull (tablesOf f)) (full8 f z) (gasAt f z) z m s M (full_ok f W z) (suits_full z Bz)) as (m1 & s1 & A1 & R1 & F1 & L1); auto.
  set (Mh := along M (soots m1) (dz / 2) (rhoAt f z) (velAt f z)).
  assert (LH : length Mh = n) by now apply along_len.
  destruct (evaluate_ok (gasHalf (tablesOf f)) (half8 f zh) (driverGas f zh) zh m1 s1 Mh (half_ok f W zh) (suits_half zh Bh)) as (m2 & s2 & A2 & R2 & F2 & L2); auto.
  set (M' := along M (soots m2) dz (rhoAt f zh) (velAt f zh)). assert (L' : length M' = n) by now apply along_len.
  exists m2, s2, M'. split; [|split; [exact R2|split; [exact L'|exists (soots m1), (soots m2); auto]]].
  unfold flameStep. cbn [pr_z pr_obj pr_M pr_out]. rewrite A1. cbn [bind fst snd]. rewrite half_num, mid_num. fold zh.
  rewrite (advance_ok f W n z (dz / 2) m1 M LM L1). cbn [bind]. fold Mh. rewrite A2. cbn [bind fst snd]. rewrite (advance_ok f W n zh dz m2 M LM L2). cbn [bind]. fold M'.
  change (nadd (Num:=XR) (Fin z) (Fin dz)) with (Fin (z + dz)). destruct (Nat.eqb (i mod 200) 0); [|reflexivity].
  rewrite (scaled_ok f W n (z + dz) M' L'). reflexivity.
Qed.
Context (nsteps : nat) (PN : (1 <= nsteps)%nat).
Let dz := stepLen f nsteps.
Lemma top_above : bottom f <= top f.
Proof. pose proof W as (L2 & HI & _). unfold bottom, top. left. apply HI. lia. Qed.
Lemma nsteps_pos : 0 < INR nsteps. Proof. apply lt_0_INR. lia. Qed.
Lemma dz_pos : 0 <= dz.
Proof. pose proof top_above. pose proof nsteps_pos. unfold dz, stepLen. apply Rmult_le_pos; [lra|]. left. now apply Rinv_0_lt_compat. Qed.
Lemma height_S i : height f nsteps (S i) = height f nsteps i + dz.
Proof. unfold height. rewrite S_INR. fold dz. ring. Qed.
Lemma height_in i : (i <= nsteps)%nat -> inside (height f nsteps i).
Proof.
  intros H. pose proof dz_pos. pose proof nsteps_pos. unfold inside, height. fold dz. pose proof (pos_INR i). split; [assert (0 <= INR i * dz) by (apply Rmult_le_pos; lra); lra|].
  assert (INR i * dz <= INR nsteps * dz) by (apply Rmult_le_compat_r; [lra|apply le_INR; lia]).
  assert (INR nsteps * dz = top f - bottom f) by (unfold dz, stepLen; field; lra). lra.
Qed.
Lemma foldM_app1 {A B} (F : A -> B -> res A) l b : forall a, foldM F (l ++ [b]) a = bind (foldM F l a) (fun a' => F a' b).
Proof.
  induction l as [|x l IH]; intros a; cbn [app foldM].
  - cbn [bind]. destruct (F a b); reflexivity.
  - destruct (F a x); cbn [bind]; auto.
Qed.
Lemma run_ok k : (k <= nsteps)%nat -> exists m s Mt,
  foldM (flameStep eig (tablesOf f) n (Fin dz)) (seq 0 k) (mkLoop (N:=XR) (None, m0, newState n 0) (Fin (bottom f)) (zeros n) [(Fin (bottom f), times (rhoAt f (bottom f)) (zeros n))]) =
    Ok (mkLoop (N:=XR) (None, m, s) (Fin (height f nsteps k)) (Mt k) (rows f nsteps k Mt)) /\
  ready n m0 (None, m, s) /\ Mt 0%nat = zeros (N:=XR) n /\ (forall i, (i <= k)%nat -> length (Mt i) = n) /\
  forall i, (i < k)%nat -> midpointWith (driverGas f) eig m0 n f dz (height f nsteps i) (Mt i) (Mt (S i)).
Proof.
  induction k as [|k IH]; intros Hk.
  - exists m0, (newState n 0), (fun _ => zeros (N:=XR) n). split.
    + cbn [seq foldM]. unfold rows. cbn [seq filter map]. do 2 f_equal. unfold height. cbn [INR]. f_equal. ring.
    + split; [now apply (ready0 p)|]. split; [reflexivity|]. split; [intros; unfold zeros; apply repeat_length|intros i Hi; lia].
  - destruct IH as (m & s & Mt & E & RD & Z0 & LM & HM); [lia|].
    destruct (step_ok dz (height f nsteps k) m s (Mt k) (rows f nsteps k Mt) k) as (m' & s' & M' & ES & RD' & L' & MP); auto using dz_pos.
    { apply height_in. lia. } { rewrite <- height_S. apply height_in. lia. }
    set (Mt' := fun i => if Nat.leb i k then Mt i else M').
    assert (Old : forall i, (i <= k)%nat -> Mt' i = Mt i) by (intros i Hi; unfold Mt'; destruct (Nat.leb_spec i k); [reflexivity|lia]).
    assert (New : Mt' (S k) = M') by (unfold Mt'; destruct (Nat.leb_spec (S k) k); [lia|reflexivity]).
    exists m', s', Mt'. split; [|split; [exact RD'|split; [rewrite Old by lia; exact Z0|split]]].
    + rewrite seq_S, foldM_app1, E. cbn [bind plus]. rewrite ES. rewrite <- height_S, New. do 2 f_equal.
      unfold rows. rewrite seq_S, filter_app, map_app. cbn [plus filter].
      assert (Q : map (fun i => (Fin (height f nsteps (S i)), times (rhoAt f (height f nsteps (S i))) (Mt' (S i)))) (filter (fun i => Nat.eqb (i mod 200) 0) (seq 0 k))
                = map (fun i => (Fin (height f nsteps (S i)), times (rhoAt f (height f nsteps (S i))) (Mt (S i)))) (filter (fun i => Nat.eqb (i mod 200) 0) (seq 0 k))).
      { apply map_ext_in. intros i Hi. apply filter_In in Hi. destruct Hi as (Hi & _). apply in_seq in Hi. rewrite Old by lia. reflexivity. }
      rewrite Q, (Old 0%nat) by lia. destruct (Nat.eqb (k mod 200) 0); cbn [map]; [rewrite New; reflexivity|rewrite app_nil_r; reflexivity].
    + intros i Hi. destruct (Nat.eq_dec i (S k)) as [-> |D]; [now rewrite New|]. rewrite Old by lia. apply LM. lia.
    + intros i Hi. destruct (Nat.eq_dec i k) as [-> |D]; [rewrite New, Old by lia; exact MP|]. rewrite !Old by lia. apply HM. lia.
Qed.
Lemma trajectory : exists m s Mt,
  flame eig p n nsteps (columnsOf f) = Ok (mkLoop (N:=XR) (None, m, s) (Fin (top f)) (Mt nsteps) (rows f nsteps nsteps Mt)) /\
  Mt 0%nat = zeros (N:=XR) n /\ (forall i, (i <= nsteps)%nat -> length (Mt i) = n) /\
  forall i, (i < nsteps)%nat -> midpointWith (driverGas f) eig m0 n f dz (height f nsteps i) (Mt i) (Mt (S i)).
Proof.
  destruct (run_ok nsteps (le_n _)) as (m & s & Mt & E & _ & Z0 & LM & HM). exists m, s, Mt. split; [|auto].
  unfold flame. rewrite (tables_ok f W). cbn [bind]. rewrite E0. cbn [bind columnsOf c_z]. pose proof W as (L2 & HI & _).
  assert (V0 : vget (map Fin (w_z f)) 0 = Ok (Fin (bottom f))) by (apply (vget_fin (w_z f) 0); lia).
  assert (V1 : vget (map Fin (w_z f)) (length (map Fin (w_z f)) - 1) = Ok (Fin (top f))) by (rewrite map_length; apply (vget_fin (w_z f)); lia).
  etransitivity; [apply (f_equal (fun r => bind r _)); exact V0|]. cbn [bind]. etransitivity; [apply (f_equal (fun r => bind r _)); exact V1|]. cbn [bind].
  rewrite (scaled_ok f W n (bottom f) (zeros n)) by (unfold zeros; apply repeat_length). cbn [bind].
  assert (ED : ndiv (Num:=XR) (nsub (Fin (top f)) (Fin (bottom f))) (nn nsteps) = Fin dz).
  { change (xdiv (Fin (top f - bottom f)) (Fin (IZR (Z.of_nat nsteps))) = Fin dz). rewrite <- INR_IZR_INZ. pose proof nsteps_pos. rewrite xdiv_fin by lra. reflexivity. }
  rewrite ED. refine (eq_trans E _). do 2 f_equal. f_equal. unfold height, stepLen. pose proof nsteps_pos. field. lra.
Qed.
End Phys.
