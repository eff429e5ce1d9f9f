(** Proofs for C63: time loops of MONO with a tar mechanism. *)
From Coq Require Import ZArith List Bool Reals Lra Lia.
From Verif Require Import Num Defs State Coag Nucl Growth Oxid Tar SootModel Mono Qmom Momic Calls XR XRLemmas NumLaws SpecState SpecConfig SpecFrame SpecChem SpecCoag SpecValid SpecRates SpecGas SpecTar SpecPah SpecPsd SpecSect SpecMomic SpecFinite SpecSign
  ConfigProofs StateProofs ValidProofs GasProofs RateProofs PsdProofs MonoProofs PahProofs MonoTar MonoMain FrameMain FiniteMain VesselProofs BurnProofs.
Import ListNotations.
Local Open Scope R_scope.

(** deposition on no soot mass, and on mass without number *)
Lemma depo_empty (s : state (N:=XR)) g M0 n0 tr mt : valid s g [M0; 0] -> mtar s = Fin mt -> tarVar s = Fin n0 :: tr -> depoRate (newTar T_AJ_RED) s = Ok (Fin 0).
Proof.
  intros V Em Et. unfold depoRate. cbn [ta_class newTar]. unfold depoAJ_RED. rewrite Et, Em, (v_soot _ _ _ V). cbn [map vget nth_error bind].
  f_equal. change (@nltb XR) with xltb. change (@nZ XR 0) with (Fin 0). unfold xltb. destruct (Rlt_dec 0 0) as [H|_]; [lra|]. xsimp. f_equal. ring.
Qed.
Lemma depo_bad (s : state (N:=XR)) g M1 n0 tr mt : valid s g [0; M1] -> 0 < M1 -> 0 < mt -> mtar s = Fin mt -> tarVar s = Fin n0 :: tr -> depoRate (newTar T_AJ_RED) s = Ok NaN.
Proof.
  intros V P1 Pm Em Et. unfold depoRate. cbn [ta_class newTar]. unfold depoAJ_RED. rewrite Et, Em, (v_soot _ _ _ V). cbn [map vget nth_error bind].
  f_equal. change (@nltb XR) with xltb. change (@nZ XR 0) with (Fin 0). unfold xltb. destruct (Rlt_dec 0 M1) as [_|H]; [|lra].
  assert (E : @ndiv XR (Fin M1) (Fin 0) = PInf). { change (@ndiv XR) with xdiv. unfold xdiv, signed. destruct (Req_EM_T 0 0); [|lra]. destruct (Rlt_dec 0 M1); [reflexivity|lra]. }
  rewrite E. cbv zeta.
  assert (EN : @ndiv XR (Fin mt) Na = Fin (mt / rNa)). { pose proof rNa_pos. apply xdiv_fin. lra. }
  rewrite EN. assert (PN : 0 < mt / rNa) by (pose proof rNa_pos; apply Rdiv_lt_0_compat; lra).
  assert (E1 : @nmul XR (Fin (mt / rNa)) PInf = PInf). { change (@nmul XR) with xmul. unfold xmul, signed. destruct (Rlt_dec 0 (mt / rNa)); [reflexivity|lra]. }
  assert (E2 : @nadd XR (Fin (mt / rNa)) PInf = PInf) by reflexivity.
  rewrite E1, E2. assert (E3 : @ndiv XR PInf PInf = NaN) by reflexivity. rewrite E3.
  assert (A1 : forall a, @nmul XR a NaN = NaN) by (intros []; reflexivity). assert (A2 : forall a, @nmul XR NaN a = NaN) by reflexivity.
  assert (A3 : forall a, @ndiv XR a NaN = NaN) by (intros []; reflexivity).
  rewrite A1, A3. change (@nsqrt XR NaN) with NaN. rewrite !A1. reflexivity.
Qed.

Section Run.
Context (m : model (N:=XR)) (s : state (N:=XR)) (g : gas) (k : mechs) (M0 M1 w x : R) (wr ar : list xr).
Context (mt n0 ts0 : R) (tr tsr : list xr).
Context (Hp : sm_psd m = P_MONO) (HM : hasMechs m k) (OM : okAny k).
Context (V : valid s g [M0; M1]) (RG : regular k g M0 M1).
Context (EW : wts s = Fin w :: wr) (EA : absc s = Fin x :: ar).
Context (Pm : 0 < mt) (Em : mtar s = Fin mt) (Et : tarVar s = Fin n0 :: tr).
Context (Es : tarred m = Fin ts0 :: tsr).
Let w' := if Rlt_dec 0 M0 then M0 else w.
Let x' := if Rlt_dec 0 M0 then M1 / M0 else x.
Let s' := with_wa s (Fin w' :: wr) (Fin x' :: ar).
Let V' : valid s' g [M0; M1]. Proof. exact V. Qed.
Let Em' : mtar s' = Fin mt. Proof. exact Em. Qed.
Let Et' : tarVar s' = Fin n0 :: tr. Proof. exact Et. Qed.

Lemma aj_any st eig (D : xr) : sm_tar m = newTar T_AJ_RED -> depoRate (newTar T_AJ_RED) s = Ok D ->
  exists m' f, setSourceTerms st eig m s = Ok (st, m', s') /\ holdsGas (gases m') f /\
    match D with
    | Fin _ => (exists a b, soots m' = [Fin a; Fin b]) /\ exists c, tarred m' = Fin c :: tsr
    | NaN => (exists a, soots m' = [Fin a; NaN]) /\ tarred m' = NaN :: tsr
    | _ => True
    end.
Proof.
  intros HT HD.
  do 2 eexists. split; [|split].
  - unfold setSourceTerms. rewrite Hp. unfold setSourceTermsMONO.
    rewrite (v_soot _ _ _ V). cbn [map vget nth_error bind]. rewrite (monoSetWA_val s M0 M1 w x wr ar EW EA). cbn [bind].
    rewrite HT. cbn [newTar ta_mech]. fold w' x' s'. rewrite Et'. cbn [vget nth_error bind].
    unfold s', w', x'. rewrite (terms_tar m s g k M0 M1 w x wr ar mt n0 tr Hp HM OM V RG Pm Em Et). fold w' x' s'. cbn [bind].
    unfold monoTarTerms. rewrite HT. cbn [ta_mech newTar].
    change (mkTar T_AJ_RED T_AJ_RED) with (newTar T_AJ_RED).
    rewrite (crackAJ_val s' g _ V' n0 tr Et'), (gasifyAJ_val s' g _ V'). replace (depoRate (newTar T_AJ_RED) s') with (Ok D) by (symmetry; exact HD).
    cbn [bind]. rewrite Em'. unfold tarred in Es. rewrite Es. unfold vset. cbn [length Nat.ltb Nat.leb bind upd]. reflexivity.
  - exact (mono_gas m k _ _ _ HM OM).
  - destruct D as [d| | |]; try exact I; (split; [unfold soots|unfold tarred]); unfold finish, monoT, setTarSources;
      cbn [sm_sources with_sources sootSources tarSources mt_N0 mt_C0 mt_N1 mt_Cnd1 mt_G1 mt_X1 mt_A].
    + do 2 eexists. xsimp. reflexivity.
    + eexists. xsimp. reflexivity.
    + eexists. xsimp. reflexivity.
    + xsimp. reflexivity.
Qed.
End Run.

Section Loop.
Context (k : mechs) (ta : tarMech) (nt : nat) (mt : R).
Context (OM : okAny k) (HTA : ta = T_BROWN \/ ta = T_AJ_RED) (Hnt : (1 <= nt)%nat) (Pm : 0 < mt).
Definition invT (a : option xr * model (N:=XR) * state (N:=XR)) : Prop :=
  let '(st, m, s) := a in
  hasMechs m k /\ sm_psd m = P_MONO /\ privFits m /\ sm_tar m = newTar ta /\
  st_nsoot s = 2%Z /\ st_Ntar s = Z.of_nat nt /\ length (yPah s) = 6%nat /\ mtar s = Fin mt /\
  (exists w x, wts s = [Fin w] /\ absc s = [Fin x]) /\ (exists c r, tarred m = Fin c :: r) /\
  allFinite (soots m) /\ allFinite (gases m).

(** what setState hands over *)
Lemma tar_set st m s g soot tar : invT (st, m, s) -> physical g -> length soot = 2%nat -> length tar = nt -> (forall y, In y tar -> 0 <= y) ->
  exists s1 M0 M1 n0 tr, doAction (st, m, s) (setTo g soot tar) = Ok (st, m, s1) /\ invT (st, m, s1) /\ valid s1 g [M0; M1] /\
    tarVar s1 = Fin n0 :: tr /\ M0 = Rmax 0 (el soot 0) /\ M1 = Rmax 0 (el soot 1).
Proof.
  intros (A & B & C & D & S1 & S2 & S3 & Em & (w & x & Ew & Ex) & R) PH L1 L2 N2.
  destruct (setTo_ok st m s g (clip soot) tar) as (s1 & E1 & V & Et & W & Ab & M & T); auto; try (rewrite ?clip_len, ?L1, ?L2; assumption).
  { intros y Hy. now apply (clip_nn soot). }
  destruct soot as [|y0 [|y1 [|]]]; cbn [length] in L1; try lia. destruct tar as [|n0 tar]; [cbn [length] in L2; lia|].
  exists s1, (Rmax 0 y0), (Rmax 0 y1), n0, (map Fin tar). split; [|split; [|split; [exact V|split; [exact Et|split; reflexivity]]]].
  - refine (eq_trans _ E1). apply setTo_clip. exact S1.
  - unfold invT. repeat (split; [assumption|]). split; [rewrite (v_nsoot _ _ _ V); reflexivity|]. split; [congruence|].
    split; [destruct V as (_ & _ & _ & _ & _ & LP & _); exact LP|]. split; [congruence|]. split; [exists w, x; split; congruence|]. exact R.
Qed.
Lemma keep_rest st eig m s st' m' s' w x : invT (st, m, s) -> setSourceTerms st eig m s = Ok (st', m', s') -> s' = with_wa s [Fin w] [Fin x] ->
  (exists c r, tarred m' = Fin c :: r) -> allFinite (soots m') -> allFinite (gases m') -> invT (st', m', s').
Proof.
  intros ((A1 & A2 & A3 & A4) & B & C & D & S1 & S2 & S3 & Em & _) E -> T F G. destruct OM as (NP & _).
  destruct (frame_call (N:=XR) st eig m s _ m' _ C E) as (K & _ & PF & _). destruct K as (K1 & _ & _ & K4 & K5 & K6 & K7 & _ & _ & _ & _ & _ & K13 & _).
  unfold invT. split.
  - split; [rewrite K13; [exact A1|rewrite A1; exact NP]|]. split; [congruence|]. split; congruence.
  - split; [congruence|]. split; [exact PF|]. split; [congruence|]. cbn [st_nsoot st_Ntar yPah mtar wts absc with_wa]. repeat (split; [assumption|]). split; [exists w, x; split; reflexivity|]. split; [exact T|]. split; assumption.
Qed.
Lemma tar_call st m s g M0 M1 n0 tr eig : invT (st, m, s) -> valid s g [M0; M1] -> tarVar s = Fin n0 :: tr -> regular k g M0 M1 ->
  (ta = T_AJ_RED -> 0 < M0 \/ M1 = 0) -> exists m' s', setSourceTerms st eig m s = Ok (st, m', s') /\ invT (st, m', s').
Proof.
  intros I V Et RG HA. pose proof I as (A & B & C & D & S1 & S2 & S3 & Em & (w & x & Ew & Ex) & (c & r & Es) & _).
  assert (CASE : exists m' f a b e u v, setSourceTerms st eig m s = Ok (st, m', with_wa s [Fin u] [Fin v]) /\ holdsGas (gases m') f /\ soots m' = [Fin a; Fin b] /\ tarred m' = Fin e :: r).
  { destruct HTA as [HB|HB]; rewrite HB in D.
    - destruct (br_run m s g k M0 M1 w x [] [] mt n0 c tr r B A OM V RG Ew Ex Pm Em Et Es st eig D) as (m' & E1 & E2 & E3 & E4).
      do 7 eexists. split; [exact E1|]. split; [exact E4|]. split; [exact E2|exact E3].
    - assert (HD : exists d, depoRate (newTar T_AJ_RED) s = Ok (Fin d)).
      { destruct (HA HB) as [P0| ->]; [eexists; exact (depoAJ_val s g M0 M1 mt n0 tr V Pm P0 Em Et)|eexists; exact (depo_empty s g M0 n0 tr mt V Em Et)]. }
      destruct HD as (d & HD). destruct (aj_any m s g k M0 M1 w x [] [] mt n0 c tr r B A OM V RG Ew Ex Pm Em Et Es st eig (Fin d) D HD) as (m' & f & E1 & E2 & (a & b & E3) & e & E4).
      do 7 eexists. split; [exact E1|]. split; [exact E2|]. split; [exact E3|exact E4]. }
  destruct CASE as (m' & f & a & b & e & u & v & E1 & E2 & E3 & E4). do 2 eexists. split; [exact E1|].
  apply (keep_rest st eig m s st m' _ u v I E1 eq_refl); [eauto| |exact (fin_gas _ _ E2)]. rewrite E3. intros y [<-|[<-|[]]]; eauto.
Qed.
Definition goodTar (x : step) : Prop := anySign P_MONO k [] 2 nt x /\ (ta = T_AJ_RED -> 0 < el (spSoot x) 0 \/ el (spSoot x) 1 <= 0).
Lemma el_clip y j : (j < length y)%nat -> el (nonNegative y) j = Rmax 0 (el y j).
Proof. intros H. unfold el, nonNegative. rewrite (nth_indep _ 0 (Rmax 0 0)) by now rewrite map_length. apply map_nth. Qed.
Lemma tar_step a x : invT a -> goodTar x -> exists a', foldM doAction [setTo (spGas x) (spSoot x) (spTar x); ASrc (spEig x)] a = Ok a' /\ invT a'.
Proof.
  destruct a as ((st & m) & s), x as [g soot tar eig]. intros I ((PH & L1 & L2 & N2 & RG) & HA). cbn [spGas spSoot spTar spEig soot0 soot1] in *.
  destruct (tar_set st m s g soot tar I PH L1 L2 N2) as (s1 & M0 & M1 & n0 & tr & E1 & I1 & V & Et & Q0 & Q1).
  rewrite !el_clip, <- Q0, <- Q1 in RG by lia.
  destruct (tar_call st m s1 g M0 M1 n0 tr eig I1 V Et RG) as (m' & s' & A & B).
  { intros H. destruct (HA H) as [H0|H0]; [left; rewrite Q0; rewrite Rmax_right; lra|right; rewrite Q1; apply Rmax_left; lra]. }
  exists (st, m', s'). split; [|exact B]. cbn [foldM]. etransitivity; [apply (f_equal (fun r => bind r _)); exact E1|]. cbn [bind doAction]. etransitivity; [apply (f_equal (fun r => bind r _)); exact A|]. reflexivity.
Qed.
Lemma tar_steps l : forall a, invT a -> (forall x, In x l -> goodTar x) -> exists a', runActions a (actionsOf l) = Ok a' /\ invT a'.
Proof.
  induction l as [|x l IH]; intros a I H; [exists a; split; [reflexivity|exact I]|].
  destruct (tar_step a x I (H x (or_introl eq_refl))) as (a1 & E1 & I1). destruct (IH a1 I1 (fun y Hy => H y (or_intror Hy))) as (a2 & E2 & I2).
  exists a2. split; [|exact I2]. unfold runActions, actionsOf in *. cbn [flat_map]. rewrite foldM_app, E1. exact E2.
Qed.
Lemma tar_bad a g soot tar eig : ta = T_AJ_RED -> invT a -> anySign P_MONO k [] 2 nt (mkStep g soot tar eig) -> el soot 0 <= 0 -> 0 < el soot 1 ->
  exists st' m' s' x r, foldM doAction [setTo g soot tar; ASrc eig] a = Ok (st', m', s') /\ soots m' = [Fin x; NaN] /\ tarSources (sm_sources m') = NaN :: r.
Proof.
  destruct a as ((st & m) & s). intros HB I (PH & L1 & L2 & N2 & RG) H0 H1. cbn [spGas spSoot spTar spEig soot0 soot1] in *.
  destruct (tar_set st m s g soot tar I PH L1 L2 N2) as (s1 & M0 & M1 & n0 & tr & E1 & I1 & V & Et & Q0 & Q1).
  rewrite !el_clip, <- Q0, <- Q1 in RG by lia. rewrite Rmax_left in Q0 by lra. rewrite Rmax_right in Q1 by lra.
  pose proof I1 as (A & B & C & D & S1 & S2 & S3 & Em & (w & x & Ew & Ex) & (c & r & Es) & _). rewrite HB in D.
  assert (HD : depoRate (newTar T_AJ_RED) s1 = Ok NaN) by (apply (depo_bad s1 g M1 n0 tr mt); auto; [now rewrite <- Q0|lra]).
  destruct (aj_any m s1 g k M0 M1 w x [] [] mt n0 c tr r B A OM V RG Ew Ex Pm Em Et Es st eig NaN D HD) as (m' & f & X1 & X2 & (y & X3) & X4).
  do 5 eexists. split; [|split; [exact X3|exact X4]].
  cbn [foldM]. etransitivity; [apply (f_equal (fun r => bind r _)); exact E1|]. cbn [bind doAction]. etransitivity; [apply (f_equal (fun r => bind r _)); exact X1|]. reflexivity.
Qed.
End Loop.

Section Built.
Context (nu : nucleationMech) (gr : growthMech) (ox : oxidationMech) (co : coagulationMech) (nt : nat) (ta : tarMech) (F : xr) (c : Z) (m : model (N:=XR)) (mt yt : R).
Context (E0 : constructEnum P_MONO 2 nu gr ox co nt ta F c = Ok m) (NP : nu <> N_PAH) (HTA : ta = T_BROWN \/ ta = T_AJ_RED) (Hnt : (1 <= nt)%nat) (Pm : 0 < mt).
Let k := mkMechs nu gr ox co 1.
Let s0 := with_my (N:=XR) (newState 2 nt) (Fin mt) (Fin yt).
Lemma tar_start : constructed m /\ okAny k /\ invT k ta nt mt (None, m, s0).
Proof.
  pose proof E0 as E. apply construct_ok in E. destruct E as ((R1 & R2 & R3 & R4 & R5) & DC & EM).
  destruct (built _ _ _ _ _ _ _ _ _ _ _ E0) as (HM & HP & HN & HT & _ & HS & HV).
  assert (CO : constructed m) by (left; do 10 eexists; exact E0).
  assert (EP : isP k = false) by (unfold isP, k; cbn [mN]; destruct nu; congruence).
  split; [exact CO|]. split; [unfold okAny, k; cbn [mN mG mO mC mF]; repeat (split; [assumption|]); lra|].
  unfold invT. split; [now apply hasAll_mechs|]. split; [exact HP|]. split; [exact (proj1 (built_fits m CO))|]. split; [exact HT|]. do 4 (split; [reflexivity|]).
  split; [exists 0, 0; split; reflexivity|]. unfold tarred, soots, gases. rewrite HS. cbn [newSources sootSources gasSources tarSources]. split.
  - destruct nt; [lia|]. exists 0. eexists. reflexivity.
  - split; apply fin_zero.
Qed.
Lemma tar_history_ l : (forall x, In x l -> anySign P_MONO k [] 2 nt x /\ (ta = T_AJ_RED -> 0 < el (spSoot x) 0 \/ el (spSoot x) 1 <= 0)) ->
  exists st' m' s', runActions (None, m, s0) (actionsOf l) = Ok (st', m', s') /\ finiteSources m'.
Proof.
  intros H. destruct tar_start as (CO & OM & I). destruct (tar_steps k ta nt mt OM HTA Hnt Pm l _ I H) as (((st' & m') & s') & R & J).
  exists st', m', s'. split; [exact R|]. destruct J as (_ & _ & _ & _ & _ & _ & _ & _ & _ & (x & r & T) & A & B).
  destruct (C60_unused_ _ _ _ _ _ _ _ CO R) as (Z1 & Z2 & _ & Z3). split; [exact A|]. split; [exact B|].
  split; [intros y Hy; exists 0; apply Z2; [|exact Hy]; destruct (built _ _ _ _ _ _ _ _ _ _ _ E0) as (HM & _); assert (EP : isP k = false) by (unfold isP, k; cbn [mN]; destruct nu; congruence); rewrite (proj1 (hasAll_mechs _ _ HM EP)); exact NP|].
  split; [|intros y Hy; exists 0; now apply Z1].
  unfold tarred in T. rewrite T in *. intros y [<-|Hy]; [eauto|]. exists 0. apply Z3. exact Hy.
Qed.
Lemma tar_spoilt_ l g soot tar eig : ta = T_AJ_RED -> (forall x, In x l -> anySign P_MONO k [] 2 nt x /\ (0 < el (spSoot x) 0 \/ el (spSoot x) 1 <= 0)) ->
  anySign P_MONO k [] 2 nt (mkStep g soot tar eig) -> el soot 0 <= 0 -> 0 < el soot 1 ->
  exists st' m' s' x r, runActions (None, m, s0) (actionsOf l ++ [setTo g soot tar; ASrc eig]) = Ok (st', m', s') /\ soots m' = [Fin x; NaN] /\ tarSources (sm_sources m') = NaN :: r.
Proof.
  intros HB H AS H0 H1. destruct tar_start as (CO & OM & I).
  destruct (tar_steps k ta nt mt OM HTA Hnt Pm l _ I) as (a1 & R & J). { intros x Hx. destruct (H x Hx). split; auto. }
  destruct (tar_bad k ta nt mt OM Hnt Pm a1 g soot tar eig HB J AS H0 H1) as (st' & m' & s' & x & r & A & B & C).
  exists st', m', s', x, r. split; [|split; assumption]. unfold runActions in *. rewrite foldM_app. etransitivity; [apply (f_equal (fun r => bind r _)); exact R|]. exact A.
Qed.
End Built.
