(** The burner-flame drivers: finite runs, absence of undefined behaviour, and where it occurs. *)
From Coq Require Import ZArith List Bool Reals Lra Lia.
From Verif Require Import Num Defs State Coag Nucl Growth Oxid Tar SootModel Qmom Mono Calls Interp Flame XR XRLemmas NumLaws SpecInterp SpecState SpecChem SpecCoag SpecValid SpecRates SpecPah SpecPsd SpecSect SpecLogn SpecQmom SpecMomic SpecSafe SpecFinite SpecFrame SpecFlame
  MonoMain InterpProofs StateProofs StateXR ValidProofs SafeProofs SafeMain HistMain NeedsMain SurfProofs HmomProofs ShortMain FrameMain FiniteMain FlameProofs FlameMain FlameFin.
Import ListNotations.
Local Open Scope R_scope.

Section Phys.
Context (f : flow) (PF : physicalFlow f).
Lemma gas_physical z : inside f z -> physical (gasAt f z).
Proof.
  intros B. split; [|split].
  - split; [now apply T_in|]. split; [cbn [gP gasAt]; lra|]. split; [now apply rho_in|]. split; [now apply mu_in|]. split; [cbn [gCMin gasAt]; lra|]. split; [intros sp; now apply y_in|]. intros sp. cbn [gPah gasAt]. lra.
  - intros sp. now apply y_in.
  - unfold pahVec, allPah. cbn [map fold_left gPah gasAt]. lra.
Qed.
Lemma driver_physical z : inside f z -> physical (driverGas f z).
Proof.
  intros B. destruct (gas_physical z B) as ((A1 & A2 & A3 & A4 & A5 & A6 & A7) & A8 & A9).
  assert (H : 0 <= lineAt (w_z f) (w_y f H_) z <= 1) by (apply unit_in; auto; unfold given; cbn [In]; tauto).
  split; [|split].
  - do 5 (split; [assumption|]). split; [|assumption]. intros sp. unfold driverGas, withO2. cbn [gY]. destruct sp; try apply A6. apply H.
  - intros sp. unfold driverGas, withO2. cbn [gY]. destruct sp; try apply A8. apply H.
  - exact A9.
Qed.
Lemma times_fin c a : times c (map Fin a) = map Fin (map (fun x => x * c) a).
Proof. unfold times. rewrite !map_map. reflexivity. Qed.
Lemma along_fin a r h rho v : 0 < rho -> 0 < v -> along (map Fin a) (map Fin r) h rho v = map Fin (map (fun ab => fst ab + h * snd ab / rho / v) (combine a r)).
Proof.
  intros P1 P2. unfold along. revert r. induction a as [|x a IH]; intros [|y r]; try reflexivity. cbn [map combine]. apply (f_equal2 cons); [|apply IH].
  cbn [fst snd]. change (xadd (Fin x) (xdiv (xdiv (Fin (h * y)) (Fin rho)) (Fin v)) = Fin (x + h * y / rho / v)). rewrite !xdiv_fin by lra. reflexivity.
Qed.
Context (p : psdMech) (n : nat) (m0 : model (N:=XR)) (E0 : flameModel (N:=XR) p n = Ok m0) (SZ : flameSize p n) (eig : eigSolver (N:=XR)).
Lemma fresh_len gs M r : physical gs -> length M = n -> fresh eig m0 n gs (map Fin M) r -> length r = n.
Proof.
  intros PH LM (st & m' & s' & ER & <-).
  pose proof (run_safe 8 n 0 true true [ASet (N:=XR) (Fin (gT gs)) (Fin (gP gs)) (Fin (gRho gs)) (Fin (gMu gs)) (map Fin (gasVec (gY gs))) (map Fin (pahVec (gPah gs))) (map Fin M) (Z.of_nat n) [] 0 (Fin (gCMin gs)); ASrc eig]) as K.
  assert (FA : Forall (fitAction (N:=XR) 8 n 0) [ASet (N:=XR) (Fin (gT gs)) (Fin (gP gs)) (Fin (gRho gs)) (Fin (gMu gs)) (map Fin (gasVec (gY gs))) (map Fin (pahVec (gPah gs))) (map Fin M) (Z.of_nat n) [] 0 (Fin (gCMin gs)); ASrc eig]).
  { constructor; [|constructor; [exact I|constructor]]. split; [cbn; lia|]. split; [rewrite map_length; exact LM|]. split; [reflexivity|]. split; reflexivity. }
  specialize (K FA None m0 (newState n 0) (sized0 p n m0 E0 SZ)). rewrite ER in K. cbn [wp] in K. destruct K as (K & _); auto; [apply new_sized; lia|].
  destruct K as (_ & _ & (K & _) & _). exact K.
Qed.
Lemma midpoint_fin mid dz z a M' : p <> P_MOMIC -> 0 <= dz -> inside f z -> inside f (z + dz) -> (forall x, inside f x -> physical (mid x)) -> length a = n ->
  midpointWith mid eig m0 n f dz z (map Fin a) M' -> exists b, M' = map Fin b /\ length b = n.
Proof.
  intros NM PD Bz Bd MP LA (r1 & r2 & F1 & F2 & ->). cbv zeta in *. assert (Bh : inside f (z + dz / 2)) by (unfold inside in *; lra).
  rewrite times_fin in F1. pose proof F1 as F1'. apply (fresh_fin p n m0 E0 SZ) in F1; [|now apply gas_physical|rewrite map_length; exact LA|intros H; contradiction].
  apply fresh_len in F1'; [|now apply gas_physical|rewrite map_length; exact LA]. destruct F1 as (l1 & ->). rewrite map_length in F1'.
  rewrite along_fin in F2 by (apply rho_in || apply vel_in; auto). rewrite times_fin in F2. pose proof F2 as F2'.
  assert (LH : length (map (fun x => x * rhoAt f (z + dz / 2)) (map (fun ab => fst ab + dz / 2 * snd ab / rhoAt f z / velAt f z) (combine a l1))) = n) by (rewrite !map_length, combine_length; lia).
  apply (fresh_fin p n m0 E0 SZ) in F2; [|now apply MP|exact LH|intros H; contradiction].
  apply fresh_len in F2'; [|now apply MP|exact LH]. destruct F2 as (l2 & ->). rewrite map_length in F2'.
  rewrite along_fin by (apply rho_in || apply vel_in; auto). eexists. split; [reflexivity|]. rewrite map_length, combine_length. lia.
Qed.
Lemma zeros_fin k : zeros (N:=XR) k = map Fin (repeat 0 k).
Proof. unfold zeros. induction k as [|k IH]; [reflexivity|]. cbn [repeat map]. now rewrite IH. Qed.
Lemma all_finite nsteps (PN : (1 <= nsteps)%nat) Mt : p <> P_MOMIC -> Mt 0%nat = zeros (N:=XR) n ->
  (forall i, (i < nsteps)%nat -> midpointWith (driverGas f) eig m0 n f (stepLen f nsteps) (height f nsteps i) (Mt i) (Mt (S i))) ->
  forall i, (i <= nsteps)%nat -> exists a, Mt i = map Fin a /\ length a = n.
Proof.
  intros NM Z0 HM. induction i as [|i IH]; intros Hi.
  - exists (repeat 0 n). split; [rewrite Z0; apply zeros_fin|apply repeat_length].
  - destruct IH as (a & Ea & La); [lia|]. specialize (HM i ltac:(lia)). rewrite Ea in HM.
    apply (midpoint_fin (driverGas f) (stepLen f nsteps) (height f nsteps i) a) in HM; auto.
    + now apply dz_pos.
    + apply height_in; auto. lia.
    + rewrite <- height_S. apply height_in; auto.
    + apply driver_physical.
Qed.
End Phys.

(** ** no undefined behaviour *)
Section Safe.
Context (f : flow) (WF : wellFormed f) (p : psdMech) (n : nat) (m0 : model (N:=XR)) (E0 : flameModel (N:=XR) p n = Ok m0) (NH : p <> P_HMOM) (N7 : p = P_MOMIC -> (n <= 7)%nat) (eig : eigSolver (N:=XR)).
Let b := match p with P_SECT => true | _ => false end.
Definition fine (c : option xr * model (N:=XR) * state (N:=XR)) : Prop :=
  let '(_, m, s) := c in sizedModel 8 n 0 m /\ fitState 8 n 0 s /\ sm_psd m = p.
Lemma fine0 : fine (None, m0, newState n 0).
Proof.
  pose proof E0 as E. rewrite flame_build in E. destruct (build_facts _ _ _ _ _ _ _ _ _ _ _ _ E) as (E1 & _). split; [|split; [apply new_sized; lia|exact E1]].
  apply (build_sized 8 n 0 _ _ _ _ _ _ _ _ _ _ E); auto; try reflexivity.
  - intros [H|[H|H]]; try discriminate H. now destruct H.
  - exact eight_enough.
Qed.
Lemma evaluate_safe gas yg z c M : mapM (fun o => interp (N:=XR) o (Fin z)) gas = Ok yg -> length yg = 8%nat -> fine c -> length M = n ->
  wp true b (evaluate eig (tablesOf f) n gas (Fin z) c M) fine.
Proof.
  destruct c as ((g & m) & s). intros EG LG (SM & FS & PS) LM. unfold evaluate. rewrite EG. cbn [bind]. rewrite (scaled_ok f WF n z M LM). cbn [bind].
  rewrite (at_T f WF). cbn [bind]. rewrite (at_rho f WF). cbn [bind]. rewrite (at_mu f WF). cbn [bind].
  pose proof (set_safe 8 n 0 s (Fin (gT (gasAt f z))) (nZ 101325) (Fin (rhoAt f z)) (Fin (gMu (gasAt f z))) yg (zeros (N:=XR) pahSize) (times (rhoAt f z) M) (Z.of_nat n) [] 0 (nZ 1667) FS) as K.
  match goal with |- wp _ _ (match ?d with _ => _ end) _ => destruct d as [s1|e s1|] end.
  - pose proof (call_safe 8 n 0 (t:=true) (b:=b) g eig m s1 SM) as C. eapply wp_mono; [apply C; auto|].
    + apply K. split; [lia|]. unfold times. rewrite map_length. auto.
    + intros _ H. unfold b. rewrite PS in H. now rewrite H.
    + intros ((g' & m') & s') KE. destruct KE as (A & B & C'). cbn [fst snd] in *. split; [exact A|]. split; [exact B|]. rewrite (proj1 C'). exact PS.
  - reflexivity.
  - apply K. split; [lia|]. unfold times. rewrite map_length. auto.
Qed.
Lemma step_safe dz a i : (exists z, pr_z a = Fin z) -> fine (pr_obj a) -> length (pr_M a) = n ->
  wp true b (flameStep eig (tablesOf f) n (Fin dz) a i) (fun a' => (exists z, pr_z a' = Fin z) /\ fine (pr_obj a') /\ length (pr_M a') = n).
Proof.
  destruct a as [c z M out]. cbn [pr_z pr_obj pr_M]. intros (zr & ->) FI LM. unfold flameStep. cbn [pr_z pr_obj pr_M pr_out].
  eapply wp_seq; [apply (evaluate_safe _ (full8 f zr)); auto; apply (full_ok f WF)|]. intros ((g1 & m1) & s1) F1. cbn [fst snd].
  pose proof F1 as ((_ & _ & (L1 & _) & _) & _ & _). rewrite half_num, mid_num. rewrite (advance_ok f WF n zr (dz / 2) m1 M LM L1). cbn [bind].
  set (zh := zr + dz / 2). set (Mh := along M _ _ _ _).
  assert (LH : length Mh = n) by (apply along_len; [exact LM|exact L1]).
  eapply wp_seq; [apply (evaluate_safe _ (half8 f zh)); auto; apply (half_ok f WF)|]. intros ((g2 & m2) & s2) F2. cbn [fst snd].
  pose proof F2 as ((_ & _ & (L2 & _) & _) & _ & _). rewrite (advance_ok f WF n zh dz m2 M LM L2). cbn [bind].
  set (M' := along M _ _ _ _). assert (L' : length M' = n) by (apply along_len; [exact LM|exact L2]).
  change (nadd (Num:=XR) (Fin zr) (Fin dz)) with (Fin (zr + dz)). destruct (Nat.eqb (i mod 200) 0).
  - rewrite (scaled_ok f WF n (zr + dz) M' L'). cbn [bind wp pr_z pr_obj pr_M]. split; [eexists; reflexivity|]. split; [exact F2|exact L'].
  - cbn [bind wp pr_z pr_obj pr_M]. split; [eexists; reflexivity|]. split; [exact F2|exact L'].
Qed.
Lemma loop_safe dz l : forall a, (exists z, pr_z a = Fin z) -> fine (pr_obj a) -> length (pr_M a) = n ->
  wp true b (foldM (flameStep eig (tablesOf f) n (Fin dz)) l a) (fun a' => (exists z, pr_z a' = Fin z) /\ fine (pr_obj a') /\ length (pr_M a') = n).
Proof.
  induction l as [|i l IH]; intros a Z FI LM; cbn [foldM]; [exact (conj Z (conj FI LM))|].
  eapply wp_seq; [now apply step_safe|]. intros a' (Z' & F' & L'). now apply IH.
Qed.
End Safe.

Lemma ends f : wellFormed f -> vget (map Fin (w_z f)) 0 = Ok (Fin (bottom f)) /\ vget (map Fin (w_z f)) (length (map Fin (w_z f)) - 1) = Ok (Fin (top f)).
Proof. intros (L2 & _). split; [apply (vget_fin (w_z f) 0); lia|rewrite map_length; apply (vget_fin (w_z f)); lia]. Qed.
(** the part of the program before the loop *)
Lemma flame_unfold f p n nsteps m0 eig : wellFormed f -> flameModel (N:=XR) p n = Ok m0 -> (1 <= nsteps)%nat ->
  flame eig p n nsteps (columnsOf f) = foldM (flameStep eig (tablesOf f) n (Fin (stepLen f nsteps))) (seq 0 nsteps)
     (mkLoop (N:=XR) (None, m0, newState n 0) (Fin (bottom f)) (zeros n) [(Fin (bottom f), times (rhoAt f (bottom f)) (zeros n))]).
Proof.
  intros WF E0 PN. unfold flame. rewrite (tables_ok f WF). cbn [bind]. rewrite E0. cbn [bind columnsOf c_z]. destruct (ends f WF) as (V0 & V1).
  etransitivity; [apply (f_equal (fun r => bind r _)); exact V0|]. cbn [bind]. etransitivity; [apply (f_equal (fun r => bind r _)); exact V1|]. cbn [bind].
  rewrite (scaled_ok f WF n (bottom f) (zeros n)) by (unfold zeros; apply repeat_length). cbn [bind].
  assert (ED : ndiv (Num:=XR) (nsub (Fin (top f)) (Fin (bottom f))) (nn nsteps) = Fin (stepLen f nsteps)).
  { change (xdiv (Fin (top f - bottom f)) (Fin (IZR (Z.of_nat nsteps))) = Fin (stepLen f nsteps)). rewrite <- INR_IZR_INZ. pose proof (nsteps_pos nsteps PN). rewrite xdiv_fin by lra. reflexivity. }
  rewrite ED. reflexivity.
Qed.
Lemma never_ub f p n nsteps eig : wellFormed f -> p <> P_HMOM -> (p = P_MOMIC -> (n <= 7)%nat) ->
  match flame (N:=XR) eig p n nsteps (columnsOf f) with UB u => u = BadCast /\ p = P_SECT | _ => True end.
Proof.
  intros WF NH N7. destruct (flameModel (N:=XR) p n) as [m0|e|u] eqn:E0.
  - destruct nsteps as [|k].
    + unfold flame. rewrite (tables_ok f WF). cbn [bind]. rewrite E0. cbn [bind columnsOf c_z]. destruct (ends f WF) as (V0 & V1).
      match goal with |- match ?d with _ => _ end => assert (Q : exists r, d = Ok r) end; [|destruct Q as (r & ->); exact I].
      eexists. etransitivity; [apply (f_equal (fun r => bind r _)); exact V0|]. cbn [bind]. etransitivity; [apply (f_equal (fun r => bind r _)); exact V1|]. cbn [bind].
      rewrite (scaled_ok f WF n (bottom f) (zeros n)) by (unfold zeros; apply repeat_length). cbn [bind seq foldM]. reflexivity.
    + rewrite (flame_unfold f p n (S k) m0 eig WF E0) by lia.
      pose proof (loop_safe f WF p n N7 eig (stepLen f (S k)) (seq 0 (S k)) (mkLoop (N:=XR) (None, m0, newState n 0) (Fin (bottom f)) (zeros n) [(Fin (bottom f), times (rhoAt f (bottom f)) (zeros n))])) as K.
      cbn [pr_z pr_obj pr_M] in K. specialize (K (ex_intro _ _ eq_refl) (fine0 p n m0 E0 NH N7) (repeat_length _ _)).
      match type of K with wp _ _ ?d _ => destruct d as [|e|u] end; auto. cbn [wp] in K. destruct u; try contradiction. split; [reflexivity|]. destruct p; congruence.
  - unfold flame. rewrite (tables_ok f WF). cbn [bind]. rewrite E0. exact I.
  - exfalso. rewrite flame_build in E0. unfold build in E0. destruct (derivedCheck p n (co_mech flameCoag) (ta_mech (newTar T_NONE))) eqn:ED; try discriminate E0.
    unfold derivedCheck, needNoTar, needFmContHm in ED. destruct p; repeat match type of ED with (if ?c then _ else _) = _ => destruct c end; cbn in ED; discriminate ED.
Qed.

(** ** undefined behaviour *)
Lemma first_call f p n nsteps m0 eig : physicalFlow f -> flameModel (N:=XR) p n = Ok m0 -> (1 <= nsteps)%nat ->
  (forall s, setSourceTerms None eig m0 s = UB OutOfBounds) -> flame (N:=XR) eig p n nsteps (columnsOf f) = UB OutOfBounds.
Proof.
  intros PF E0 PN H. pose proof (W f PF) as WF. rewrite (flame_unfold f p n nsteps m0 eig WF E0 PN). destruct nsteps as [|k]; [lia|]. cbn [seq foldM].
  match goal with |- bind ?d _ = _ => assert (Q : d = UB OutOfBounds) end; [|rewrite Q; reflexivity].
  unfold flameStep. cbn [pr_z pr_obj pr_M pr_out]. match goal with |- bind ?d _ = _ => assert (Q : d = UB OutOfBounds) end; [|rewrite Q; reflexivity].
  assert (B : inside f (bottom f)) by (split; [lra|]; pose proof WF as (L2 & HI & _); unfold bottom, top; left; apply HI; lia). pose proof (suits_full f PF _ B) as SU.
  unfold evaluate. rewrite (full_ok f WF). cbn [bind]. rewrite (scaled_ok f WF n (bottom f) (zeros n)) by (unfold zeros; apply repeat_length). cbn [bind].
  rewrite (at_T f WF). cbn [bind]. rewrite (at_rho f WF). cbn [bind]. rewrite (at_mu f WF). cbn [bind].
  destruct (flame_accept (newState n 0) n (gT (gasAt f (bottom f))) 101325 (rhoAt f (bottom f)) (gMu (gasAt f (bottom f))) (full8 f (bottom f)) (times (rhoAt f (bottom f)) (zeros (N:=XR) n)) 1667) as (v & E1 & _); try apply SU; auto; try lra.
  { unfold times, zeros. now rewrite map_length, repeat_length. }
  etransitivity; [apply (f_equal (fun r => match r with SetOk s2 => setSourceTerms None eig m0 s2 | SetThrow e _ => Throw e | SetUB => UB OutOfBounds end)); exact E1|]. apply H.
Qed.
Lemma hmom_flame f n nsteps eig : physicalFlow f -> (4 <= n <= 9)%nat -> (1 <= nsteps)%nat -> flame (N:=XR) eig P_HMOM n nsteps (columnsOf f) = UB OutOfBounds.
Proof.
  intros PF Hn PN. destruct (flameModel (N:=XR) P_HMOM n) as [m0|e|u] eqn:E0.
  2,3: exfalso; rewrite flame_build in E0; unfold build, derivedCheck, needNoTar, needFmContHm in E0; do 10 (destruct n as [|n]; [lia || (cbn in E0; discriminate E0)|]); lia.
  apply (first_call f P_HMOM n nsteps m0 eig PF E0 PN). intros s. rewrite flame_build in E0. exact (C41_ _ _ _ _ _ _ _ _ _ _ _ _ _ _ E0).
Qed.
Lemma momic8_flame f nsteps eig : physicalFlow f -> (1 <= nsteps)%nat -> flame (N:=XR) eig P_MOMIC 8 nsteps (columnsOf f) = UB OutOfBounds.
Proof.
  intros PF PN. destruct (flameModel (N:=XR) P_MOMIC 8) as [m0|e|u] eqn:E0.
  2,3: exfalso; rewrite flame_build in E0; unfold build, derivedCheck, needNoTar, needFmContHm in E0; cbn in E0; discriminate E0.
  apply (first_call f P_MOMIC 8 nsteps m0 eig PF E0 PN). intros s. rewrite flame_build in E0. exact (C39_8 _ _ _ _ _ _ _ _ _ _ _ _ _ E0).
Qed.

(** ** the tar driver *)
Lemma tar_accept (s : state (N:=XR)) t p rho mu yg M TV c : 0 < t -> 0 < p -> 0 < rho -> 0 < mu -> 0 < c -> (forall y, In y yg -> xltb (Fin 1) y = false) ->
  st_nsoot s = 2%Z -> length M = 2%nat -> st_Ntar s = 1%Z -> length TV = 1%nat -> length (yPah s) = 6%nat ->
  exists s1, setState s (Fin t) (Fin p) (Fin rho) (Fin mu) yg (repeat (Fin 0) 6) M 2 TV 1 (Fin c) = SetOk s1 /\ yGas s1 = yg /\ yBio s1 = yBio s.
Proof.
  intros Pt Pp Pr Pm Pc HG NS LM NT LT LP.
  destruct (accept_ok XR_cmpLaws s (mkArgs (Fin t : @num XR) (Fin p) (Fin rho) (Fin mu) yg (repeat (Fin 0) 6) M 2 TV 1 (Fin c))) as (s' & E & _).
  - intros e q Hin. unfold checks in Hin. cbn [aT aP arho amu ayGas ayPah asoot ansoot atar aNtar acMin In] in Hin.
    assert (K : forall x, 0 < x -> nleb (Num:=XR) (Fin x) (nZ 0) <> true).
    { intros x Hx. change (xleb (Fin x) (Fin 0) <> true). rewrite xleb_false by lra. discriminate. }
    destruct Hin as [Hin|[Hin|[Hin|[Hin|[Hin|[Hin|[Hin|[Hin|[Hin|[Hin|[Hin|[]]]]]]]]]]]]; injection Hin as <- <-; try (now apply K).
    + intros (i & x & Ex & Hi & _). assert (i < length M)%nat by (apply nth_error_Some; intros Q; pose proof (eq_trans (eq_sym Q) Ex) as Q'; discriminate Q'). lia.
    + intros (i & x & Ex & Hi & _). assert (i < length TV)%nat by (apply nth_error_Some; intros Q; pose proof (eq_trans (eq_sym Q) Ex) as Q'; discriminate Q'). lia.
    + intros (y & Hy & H1). apply HG in Hy. change (xltb (Fin 1) y = true) in H1. congruence.
    + intros H. apply H. symmetry. exact LP.
    + intros (y & Hy & H1). apply (repeat_spec 6) in Hy. subst y. change (xltb (Fin 0) (Fin 0) = true \/ xltb (Fin 1) (Fin 0) = true) in H1.
      rewrite (xltb_false 0 0), (xltb_false 1 0) in H1 by lra. destruct H1; discriminate.
    + change (xltb (Fin 1) (fold_left xadd six (Fin 0)) <> true). rewrite six_ok. discriminate.
  - cbn [asoot]. rewrite NS. lia.
  - cbn [atar]. rewrite NT. lia.
  - unfold call in E. cbn [aT aP arho amu ayGas ayPah asoot ansoot atar aNtar acMin] in E.
    pose proof (set_gives _ _ _ _ _ _ _ _ _ _ _ _ _ E) as (v & w & E1 & E2 & E3). exists s'. split; [exact E|]. rewrite E3. split; reflexivity.
Qed.
Lemma tar_flame f eig : physicalFlow f -> tarFlameStart (N:=XR) eig (columnsOf f) = UB OutOfBounds.
Proof.
  intros PF. pose proof (W f PF) as WF. assert (B : inside f (bottom f)) by (split; [lra|]; pose proof WF as (L2 & HI & _); unfold bottom, top; left; apply HI; lia).
  pose proof (suits_full f PF _ B) as SU.
  unfold tarFlameStart. rewrite (tables_ok f WF). cbn [bind].
  destruct (tarModel (N:=XR)) as [m|e|u] eqn:EM; [|discriminate EM|discriminate EM]. cbn [bind columnsOf c_z].
  assert (HM : sm_psd m = P_MONO /\ ta_mech (sm_tar m) = T_AJ_RED /\ ta_class (sm_tar m) = T_AJ_RED).
  { unfold tarModel, constructPtr, build in EM. cbn [co_mech newCoag newTar ta_mech derivedCheck Nat.eqb bind] in EM.
    apply (f_equal (fun r => match r with Ok x => x | _ => m end)) in EM. cbv beta iota in EM. rewrite <- EM. cbn [with_coagObj sm_psd sm_tar]. repeat split. }
  etransitivity; [apply (f_equal (fun r => bind r _)); exact (proj1 (ends f WF))|]. cbn [bind]. rewrite (full_ok f WF). cbn [bind].
  rewrite (scaled_ok f WF 2 (bottom f) (zeros 2)) by reflexivity. cbn [bind]. rewrite (scaled_ok f WF 1 (bottom f) (zeros 1)) by reflexivity. cbn [bind].
  rewrite (at_T f WF). cbn [bind]. rewrite (at_rho f WF). cbn [bind]. rewrite (at_mu f WF). cbn [bind].
  destruct (tar_accept (with_yBio (newState (N:=XR) 2 1) bioInputs) (gT (gasAt f (bottom f))) 101325 (rhoAt f (bottom f)) (gMu (gasAt f (bottom f))) (full8 f (bottom f)) (times (rhoAt f (bottom f)) (zeros (N:=XR) 2)) (times (rhoAt f (bottom f)) (zeros (N:=XR) 1)) 100) as (s1 & E1 & G1 & B1);
    try apply SU; try reflexivity; try lra.
  etransitivity; [apply (f_equal (fun r => match r with SetOk s1 => s2 <- get_mtar_ytar s1 ;; setSourceTerms None eig m s2 | SetThrow e _ => Throw e | SetUB => UB OutOfBounds end)); exact E1|].
  assert (G2 : exists s2, get_mtar_ytar s1 = Ok s2 /\ yGas s2 = yGas s1).
  { unfold get_mtar_ytar. cbv zeta. rewrite B1. cbn [yBio with_yBio bioInputs vget nth_error bind]. eexists. split; reflexivity. }
  destruct G2 as (s2 & -> & G2). cbn [bind]. destruct HM as (H1 & H2 & H3).
  assert (K : oob (setSourceTermsMONO m s2) never).
  { apply (mono_out m s2 CO2); [rewrite G2, G1; cbn; lia|]. right. split; [congruence|]. rewrite H3. reflexivity. }
  unfold setSourceTerms. rewrite H1. destruct (setSourceTermsMONO m s2) as [?|?|u]; [contradiction|contradiction|destruct u; try contradiction]. reflexivity.
Qed.
