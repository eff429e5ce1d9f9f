(** The burner-flame drivers: finite sources. *)
From Coq Require Import ZArith List Bool Reals Lra Lia.
From Verif Require Import Num Defs State Coag Nucl Growth Oxid Tar SootModel Qmom Calls Interp Flame XR XRLemmas NumLaws SpecInterp SpecState SpecChem SpecCoag SpecValid SpecRates SpecPah SpecPsd SpecSect SpecLogn SpecQmom SpecMomic SpecSafe SpecFinite SpecFrame SpecFlame
  MonoMain InterpProofs StateProofs StateXR ValidProofs SafeProofs SafeMain HistMain NeedsMain SurfProofs HmomProofs ShortMain FrameMain FiniteMain FlameProofs FlameMain.
Import ListNotations.
Local Open Scope R_scope.

Definition flameK : mechs := mkMechs N_LL G_LL O_LL C_HM (9 / 2 / (22 / 10)).
Lemma flame_coag : flameCoag = with_f C_HM (9 / 2 / (22 / 10)).
Proof.
  unfold flameCoag, with_f. f_equal. change (xdiv (xdiv (Fin 9) (Fin 2)) (Fin (22 / 10)) = Fin (9 / 2 / (22 / 10))). rewrite !xdiv_fin by lra. reflexivity.
Qed.
Lemma flame_okAll : okAll flameK.
Proof. unfold okAll, flameK. cbn [mN mG mO mC mF]. split; [left; unfold gasOnly; repeat split; discriminate|]. repeat (split; [discriminate|]). lra. Qed.
Definition clipped (M : list R) : list R := map (fun x => Rmax 0 x) M.

(** clipping *)
Lemma clip_val (M : list R) : clipNeg (N:=XR) (Z.of_nat (length M)) (map Fin M) = Ok (map Fin (clipped M)).
Proof.
  destruct (clip_ok (N:=XR) (Z.of_nat (length M)) (map Fin M)) as (w & E & L & H); [rewrite map_length; lia|]. rewrite E. f_equal.
  assert (LW : length w = length M) by (rewrite map_length in L; exact L).
  apply nth_ext with (d := Fin 0) (d' := Fin 0); [unfold clipped; now rewrite !map_length|]. intros i Hi.
  assert (HX : nth_error (map Fin M) i = Some (Fin (nth i M 0))) by (rewrite nth_error_map, (nth_error_nth' M 0) by lia; reflexivity).
  specialize (H i _ HX). apply nth_error_nth with (d := Fin 0) in H. etransitivity; [exact H|].
  assert (HC : nth_error (map Fin (clipped M)) i = Some (Fin (Rmax 0 (nth i M 0)))) by (unfold clipped; rewrite !nth_error_map, (nth_error_nth' M 0) by lia; reflexivity).
  apply nth_error_nth with (d := Fin 0) in HC. etransitivity; [|symmetry; exact HC]. destruct (Z.ltb_spec (Z.of_nat i) (Z.of_nat (length M))); [|lia].
  cbn [andb]. change (@nltb XR) with xltb. change (@nZ XR 0) with (Fin 0). destruct (xltb (Fin (nth i M 0)) (Fin 0)) eqn:EX.
  - apply xltb_iff in EX. rewrite Rmax_left by lra. reflexivity.
  - rewrite Rmax_right; [reflexivity|]. apply Rnot_lt_le. intros HQ. apply xltb_iff in HQ. congruence.
Qed.
Lemma clipped_nn M y : In y (clipped M) -> 0 <= y.
Proof. unfold clipped. rewrite in_map_iff. intros (x & <- & _). apply Rmax_l. Qed.
Lemma clipped_id M : (forall y, In y M -> 0 <= y) -> clipped M = M.
Proof. intros H. unfold clipped. rewrite <- (map_id M) at 2. apply map_ext_in. intros y Hy. apply Rmax_right. auto. Qed.
Lemma clipped_len M : length (clipped M) = length M. Proof. unfold clipped. apply map_length. Qed.
Lemma set_clipped (s : state (N:=XR)) t p rho mu yg yp M c n : st_nsoot s = Z.of_nat (length M) ->
  match setState s t p rho mu yg yp (map Fin (clipped M)) n [] 0 c with
  | SetOk s' => setState s t p rho mu yg yp (map Fin M) n [] 0 c = SetOk s'
  | _ => True
  end.
Proof.
  intros HS. pose proof (set_shape s t p rho mu yg yp (map Fin M) n [] 0 c) as A. pose proof (set_shape s t p rho mu yg yp (map Fin (clipped M)) n [] 0 c) as B.
  assert (E : decide (st_nsoot s) (st_Ntar s) (length (yPah s)) t p rho mu yg yp (map Fin M) [] c = decide (st_nsoot s) (st_Ntar s) (length (yPah s)) t p rho mu yg yp (map Fin (clipped M)) [] c).
  { unfold decide. rewrite HS. rewrite clip_val. rewrite <- (clipped_len M), clip_val, (clipped_id (clipped M)); [reflexivity|]. apply clipped_nn. }
  rewrite E in A. match type of A with match ?d with _ => _ end => destruct d as [v|] end.
  - rewrite B. exact A.
  - destruct (setState s t p rho mu yg yp (map Fin (clipped M)) n [] 0 c); auto. now destruct (B s0).
Qed.

Lemma set_clipped' (s : state (N:=XR)) t p rho mu yg yp M c n s' : st_nsoot s = Z.of_nat (length M) ->
  setState s t p rho mu yg yp (map Fin (clipped M)) n [] 0 c = SetOk s' -> setState s t p rho mu yg yp (map Fin M) n [] 0 c = SetOk s'.
Proof. intros HS E. pose proof (set_clipped s t p rho mu yg yp M c n HS) as K. rewrite E in K. exact K. Qed.

Section Fin.
Context (p : psdMech) (n : nat) (m0 : model (N:=XR)) (E0 : flameModel (N:=XR) p n = Ok m0) (SZ : flameSize p n).
Lemma flame_hasAll : hasAll m0 flameK.
Proof.
  destruct (facts0 p n m0 E0 SZ) as (_ & _ & _ & _ & GR & OX & CO & TA).
  assert (EN : sm_nucl m0 = newNucl N_LL).
  { pose proof E0 as E. rewrite flame_build in E. revert E. unfold build. destruct (derivedCheck _ _ _ _); cbn [bind]; try discriminate. intros H. apply (f_equal (fun r => match r with Ok x => x | _ => m0 end)) in H. cbv beta iota in H. rewrite <- H. reflexivity. }
  split; [exact EN|]. split; [exact GR|]. split; [exact OX|]. cbn [flameK mC mF]. rewrite <- flame_coag. exact CO.
Qed.
Lemma flame_shape : sm_nsoot m0 = n /\ privFits m0 /\ sm_sources m0 = newSources n 0 /\ (p = P_MOMIC -> momicArrays m0 n).
Proof.
  pose proof E0 as E. rewrite flame_build in E. revert E. unfold build. destruct (derivedCheck _ _ _ _) eqn:ED; cbn [bind]; try discriminate. intros H.
  apply (f_equal (fun r => match r with Ok x => x | _ => m0 end)) in H. cbv beta iota in H. rewrite <- H. cbn [sm_nsoot sm_sources sm_psd sm_priv]. split; [reflexivity|]. split; [|split; [reflexivity|]].
  - unfold privFits. cbn [sm_psd sm_priv]. clear -SZ. destruct p; try contradiction; exact I.
  - intros ->. unfold momicArrays. cbn [sm_psd sm_priv initPriv]. do 4 eexists. split; [reflexivity|]. split; reflexivity.
Qed.
Lemma flame_inv : inv p flameK n 0 2 100 (None, m0, newState n 0).
Proof.
  destruct flame_shape as (HN & PF & HS & HA). destruct (facts0 p n m0 E0 SZ) as (_ & _ & _ & PS & _ & _ & _ & TA).
  unfold inv. split; [exact flame_hasAll|]. split; [exact PS|]. split; [exact PF|]. split; [reflexivity|]. split; [reflexivity|]. split; [reflexivity|].
  unfold soots, gases, pahs. rewrite HS. cbn [newSources sootSources gasSources pahSources].
  assert (AF : forall k, allFinite (zeros (N:=XR) k)) by (intros k x Hx; apply repeat_spec in Hx; exists 0; exact Hx).
  split; [apply AF|]. split; [apply AF|]. split; [apply AF|]. unfold extra. pose proof SZ as Z. unfold flameSize in Z.
  assert (MC : momentCoag flameK) by (right; right; reflexivity).
  destruct p; try contradiction; auto.
  destruct Z as (Z1 & Z2). apply Nat.even_spec in Z2. destruct Z2 as (q & Hq). exists q. split; [exact Hq|]. split; [|right; lia].
  unfold isQmom. split; [exact PS|]. split; [congruence|]. split; [lia|]. cbn [newState wts absc]. unfold zeros. rewrite !repeat_length.
  assert (H : (n / 2 = q)%nat) by (rewrite Hq, Nat.mul_comm; apply Nat.div_mul; lia). auto.
Qed.
(** what MOMIC needs *)
Definition momicFine (M : list R) : Prop := p = P_MOMIC -> el M 0 <= 0 \/ allPos M.
Lemma fresh_fin eig gs M r : physical gs -> length M = n -> momicFine M -> fresh eig m0 n gs (map Fin M) r -> exists l, r = map Fin l.
Proof.
  intros PH LM MF (st & m' & s' & ER & <-).
  destruct (one_step p flameK n 0 2 100 flame_okAll (None, m0, newState n 0) (mkStep gs (clipped M) [] eig) flame_inv) as (((st1 & m1) & s1) & E1 & I1).
  { cbn [spGas spSoot spTar spEig]. unfold goodStep. cbn [spGas spSoot spTar spEig]. split; [exact PH|]. split; [rewrite clipped_len; exact LM|]. split; [reflexivity|]. split; [apply clipped_nn|]. split; [intros y []|].
    split; [intros [H|H]; discriminate H|]. unfold momicFine in MF. destruct p; auto; try (intros H; discriminate H). split; [intros H; discriminate H|]. intros _. destruct (MF eq_refl) as [H|H].
    - left. destruct M as [|a M]; [reflexivity|]. cbn [clipped map el nth] in *. apply Rmax_left. exact H.
    - right. rewrite clipped_id; [exact H|]. intros y Hy. left. now apply H. }
  cbn [spGas spSoot spTar spEig] in E1. assert (Q : m' = m1).
  { unfold runActions in ER. cbn [foldM] in E1, ER. unfold setTo in E1. cbn [doAction] in E1, ER. rewrite clipped_len, LM in E1. cbn [length map] in E1. change (Z.of_nat 0) with 0%Z in E1.
    match type of E1 with bind (match ?d with _ => _ end) _ = _ => destruct d as [s2|e s2|] eqn:EA end.
    - assert (SC' : setState (N:=XR) (newState n 0) (Fin (gT gs)) (Fin (gP gs)) (Fin (gRho gs)) (Fin (gMu gs)) (map Fin (gasVec (gY gs))) (map Fin (pahVec (gPah gs))) (map Fin M) (Z.of_nat n) [] 0 (Fin (gCMin gs)) = SetOk s2) by (refine (set_clipped' (newState n 0) _ _ _ _ _ _ M _ _ s2 _ EA); cbn [newState st_nsoot]; now rewrite LM).
      match type of ER with bind (match ?d with _ => _ end) _ = _ => replace d with (SetOk s2) in ER by (symmetry; exact SC') end. cbn [bind] in E1, ER. pose proof (eq_trans (eq_sym ER) E1) as Z. apply (f_equal (fun r => match r with Ok (_, x, _) => x | _ => m0 end)) in Z. exact Z.
    - exfalso. destruct (setTo_ok None m0 (newState n 0) gs (clipped M) []) as (s3 & E3 & _); auto.
      + cbn [newState st_nsoot]. now rewrite clipped_len, LM.
      + apply clipped_nn.
      + intros x [].
      + cbn [doAction setTo] in E3. rewrite clipped_len, LM in E3. change (map Fin []) with (@nil xr) in E3. cbn [length] in E3. change (Z.of_nat 0) with 0%Z in E3.
        destruct (argsOf_any (newState n 0) gs (clipped M) []) as (s4 & E4 & _); try apply PH; auto.
        * cbn [newState st_nsoot]. now rewrite clipped_len, LM.
        * apply clipped_nn.
        * intros x [].
        * unfold call, argsOf in E4. cbn [aT aP arho amu ayGas ayPah asoot ansoot atar aNtar acMin] in E4. rewrite clipped_len, LM in E4. cbn [length map] in E4. change (Z.of_nat 0) with 0%Z in E4. rewrite EA in E4. discriminate E4.
    - discriminate E1. }
  rewrite Q. destruct I1 as (_ & _ & _ & _ & _ & _ & FS & _). clear -FS.
  assert (G : forall l : list xr, allFinite l -> exists r, l = map Fin r).
  { induction l as [|a l IH]; intros H; [exists []; reflexivity|]. destruct (H a) as (x & ->); [now left|]. destruct IH as (r & ->); [intros y Hy; apply H; now right|]. exists (x :: r). reflexivity. }
  apply G. exact FS.
Qed.
End Fin.
