(** The monodisperse model with tar, and the tar mechanisms. *)
From Coq Require Import ZArith List Bool Reals Lra Lia.
From Verif Require Import Num Defs State Coag Nucl Growth Oxid Tar SootModel Mono Qmom Calls XR XRLemmas NumLaws
  SpecChem SpecCoag SpecValid SpecRates SpecGas SpecTar SpecPah SpecPsd CoagProofs StateXR ValidProofs InterpProofs GasProofs MiscProofs RateProofs PsdProofs MonoProofs.
Import ListNotations.
Local Open Scope R_scope.

Section S.
Context (s : state (N:=XR)) (g : gas) (soot : list R) (V : valid s g soot).
Context (mt n0 : R) (tr : list xr) (Pmt : 0 < mt) (Emt : mtar s = Fin mt) (Etar : tarVar s = Fin n0 :: tr).
Let Ht := v_Tpos _ _ _ V.
Let Hc := v_cMinpos _ _ _ V.
Let ET := v_T _ _ _ V.
Let EC := v_cMin _ _ _ V.

Lemma nuclTar_val coll nu : nu_class nu <> N_PAH -> nu_class nu <> N_size ->
  nuclRate coll nu s = Ok (Fin (nuclTar (nu_class nu) g mt n0), nu, s, None).
Proof.
  intros K1 K2.
  destruct (nu_class nu) eqn:E; try congruence;
    try (rewrite (nucl_formula s g soot V) by (rewrite E; repeat split; discriminate); rewrite E; reflexivity).
  - unfold nuclRate. rewrite E. unfold nuclAJ_RED. rewrite Etar, Emt, ET, EC. cbn [vget nth_error bind].
    do 4 f_equal. xsimp. cvals. f_equal. cbn [nuclTar]. unfold tarDiamNucl, enhancement, massC.
    replace (1395 / 10 ^ 13) with (1395 / 10000000000000) by lra. field. lra.
  - unfold nuclRate. rewrite E. unfold nuclBROWN. rewrite Etar, ET, EC. cbn [vget nth_error bind].
    do 4 f_equal. xsimp. vals. f_equal. cbn [nuclTar]. unfold arrhenius. field. split; nz.
Qed.

Lemma crackAJ_val : crackRate (newTar T_AJ_RED) s = Ok (Fin (crackingReduced (gT g) n0)).
Proof.
  pose proof V as (OG & _ & _ & _ & Ey & _). destruct OG as (_ & _ & Pr & _ & _ & Py & _).
  apply (C51_value s (gT g) (gRho g) n0 (gY g H2)); auto; try (now rewrite Etar).
  apply (v_rho _ _ _ V).
Qed.
Lemma gasifyAJ_val : surfRate (newTar T_AJ_RED) s = Ok (Fin (tarGasify g)).
Proof.
  pose proof (press_nneg _ _ _ V CO2) as A. pose proof (press_nneg _ _ _ V H2O) as B.
  unfold surfRate. cbn [ta_class newTar]. unfold surfAJ_RED. rewrite !(v_press _ _ _ V), ET. cbn [bind].
  assert (EP : @npow XR (Fin (partialP g H2O)) (nlit 121 (-2)) = Fin (pow0 (partialP g H2O) (121 / 100))).
  { unfold pow0. destruct (Rlt_dec 0 (partialP g H2O)) as [K|K]; [xsimp; reflexivity|].
    assert (E : partialP g H2O = 0) by lra. rewrite E. xcbn. repeat xstep. apply xpow_0pos. lra. }
  rewrite EP. pose proof rNa_pos. pose proof rkb_pos. f_equal. xsimp. cvals. f_equal. unfold tarGasify. negs. field. repeat split; nz.
Qed.
Lemma crackBR_val : crackRate (newTar T_BROWN) s = Ok (Fin (brownOxid g n0)).
Proof.
  unfold crackRate. cbn [ta_class newTar]. unfold crackBROWN. rewrite (v_conc _ _ _ V), ET, Etar. cbn [bind vget nth_error].
  pose proof rNa_pos. pose proof rkb_pos. f_equal. xsimp. cvals. rewrite rMW_val. f_equal. unfold brownOxid, arrhenius. ring.
Qed.
Lemma gasifyBR_val : surfRate (newTar T_BROWN) s = Ok (Fin (brownGasify g n0)).
Proof.
  unfold surfRate. cbn [ta_class newTar]. unfold surfBROWN. rewrite ET, Etar. cbn [bind vget nth_error].
  pose proof rNa_pos. pose proof rkb_pos. f_equal. xsimp. cvals. f_equal. unfold brownGasify, arrhenius. ring.
Qed.
End S.

Lemma depoAJ_val (s : state (N:=XR)) g M0 M1 mt n0 tr : valid s g [M0; M1] -> 0 < mt -> 0 < M0 -> mtar s = Fin mt -> tarVar s = Fin n0 :: tr ->
  depoRate (newTar T_AJ_RED) s = Ok (Fin (tarDepo g mt n0 M0 M1)).
Proof.
  intros V Pmt P0 Emt Etar.
  assert (P1 : 0 <= M1) by (apply (v_sootpos _ _ _ V); cbn; auto). pose proof (v_Tpos _ _ _ V) as Ht.
  unfold depoRate. cbn [ta_class newTar]. unfold depoAJ_RED. rewrite Etar, Emt, (v_soot _ _ _ V), (v_T _ _ _ V). cbn [map vget nth_error bind].
  f_equal. unfold tarDepo. change (@nltb XR) with xltb. change (@nZ XR 0) with (Fin 0). unfold xltb.
  destruct (Rlt_dec 0 M1) as [Q|Q]; [|xsimp; f_equal; ring].
  pose proof (diam_pos (M1 / M0)) as PD. cbv zeta.
  assert (E1 : @ndiv XR (Fin M1) (Fin M0) = Fin (M1 / M0)) by (apply xdiv_fin; lra). rewrite E1.
  rewrite diam_val by pos.
  assert (Pt : 0 < sqrt (1395 / 10000000000000 * 3) * sqrt (2 * mt / (3 * (12011 / 1000)))) by pos.
  xcbn. xconst. repeat xstep. cvals. pose proof avo_pos. pose proof piC_pos. pose proof boltz_pos.
  f_equal. unfold enhancement, tarDiamDepo, massC. replace (1395 / 10 ^ 13) with (1395 / 10000000000000) by lra.
  replace (Rpower (diam (M1 / M0) + sqrt (1395 / 10000000000000 * 3) * sqrt (2 * mt / (3 * (12011 / 1000)))) 2)
    with ((diam (M1 / M0) + sqrt (1395 / 10000000000000 * 3) * sqrt (2 * mt / (3 * (12011 / 1000)))) ^ 2); [ring|].
  rewrite <- (Rpower_pow 2) by pos. f_equal.
Qed.

Lemma brownAgg_val (s : state (N:=XR)) g M0 M1 soot : valid s g soot -> 0 <= M0 -> 0 <= M1 ->
  brownAgg (Fin M0) (Fin M1) s = Fin (brownAggregate g M0 M1).
Proof.
  intros V P0 P1. pose proof (v_Tpos _ _ _ V) as Ht. unfold brownAgg, brownAggregate. rewrite (v_T _ _ _ V).
  assert (EP : forall x a, 0 <= x -> 0 < a -> @npow XR (Fin x) (Fin a) = Fin (pow0 x a)).
  { intros x a Hx Ha. unfold pow0. change (@npow XR) with xpow. destruct (Rlt_dec 0 x) as [K|K]; [now apply xpow_fin|].
    assert (x = 0) by lra. subst. now apply xpow_0pos. }
  assert (E6 : @ndiv XR (nZ 1) (nZ 6) = Fin (1 / 6)) by (xsimp; reflexivity).
  assert (E11 : @ndiv XR (nZ 11) (nZ 6) = Fin (11 / 6)) by (xsimp; reflexivity).
  assert (EM : @ndiv XR (Fin M1) (MWof C_) = Fin (M1 / massC)) by (xsimp; vals; reflexivity).
  pose proof massC_pos. rewrite E11, E6, EM, (EP M0), (EP (M1 / massC)) by (lra || nneg).
  xsimp. vals. f_equal.
Qed.

(** nucleation rate of a model with tar *)
Lemma runNucl_tar coll (m : model (N:=XR)) s g k soot mt n0 tr : valid s g soot -> hasMechs m k -> okAny k ->
  0 < mt -> mtar s = Fin mt -> tarVar s = Fin n0 :: tr ->
  runNucl coll m s = Ok (Fin (nuclTar (mN k) g mt n0), m, s).
Proof.
  intros V HM OM Pm Em Et. destruct OM as (O1 & O2 & _).
  unfold runNucl. rewrite (proj1 HM).
  rewrite (nuclTar_val s g soot V mt n0 tr Pm Em Et) by (cbn [newNucl nu_class]; auto).
  cbn [bind newNucl nu_class]. rewrite <- (proj1 HM), storeNucl_same. reflexivity.
Qed.

Definition tarred (m : model (N:=XR)) : list xr := tarSources (sm_sources m).

Definition ajSoot k g mt n0 M0 M1 w x : list xr :=
  let J := nuclTar (mN k) g mt n0 in
  let A := surface M0 M1 in
  let net := (kgrow k g M0 M1 - koxid k g M0 M1) * A - tarGasify g in
  [Fin (J - 1 / 2 * kernel k g x x * w ^ 2); Fin (mt * tarDepo g mt n0 M0 M1 + A * net + 2 * mt * J)].
Definition ajTar k g mt n0 M0 M1 : R :=
  let J := nuclTar (mN k) g mt n0 in
  let A := surface M0 M1 in
  let net := (kgrow k g M0 M1 - koxid k g M0 M1) * A - tarGasify g in
  - tarDepo g mt n0 M0 M1 - crackingReduced (gT g) n0 + 2508 * n0 * net - 2 * J.
Definition brSoot k g mt n0 M0 M1 : list xr :=
  let J := nuclTar (mN k) g mt n0 in
  [Fin (J - brownAggregate g M0 M1); Fin (J * nucMass g - koxid k g M0 M1 * surface M0 M1)].
Definition brTar k g mt n0 : R :=
  let J := nuclTar (mN k) g mt n0 in - (J * nucMass g) - brownGasify g n0 - brownOxid g n0.

Section Run.
Context (m : model (N:=XR)) (s : state (N:=XR)) (g : gas) (k : mechs) (M0 M1 w x : R) (wr ar : list xr).
Context (mt n0 ts0 : R) (tr tsr : list xr).
Context (Hp : sm_psd m = P_MONO) (HM : hasMechs m k) (OM : okAny k).
Context (V : valid s g [M0; M1]) (RG : regular k g M0 M1).
Context (EW : wts s = Fin w :: wr) (EA : absc s = Fin x :: ar).
Context (Pm : 0 < mt) (Em : mtar s = Fin mt) (Et : tarVar s = Fin n0 :: tr).
Context (Es : tarred m = Fin ts0 :: tsr).
Let w' := if Rlt_dec 0 M0 then M0 else w.
Let x' := if Rlt_dec 0 M0 then M1 / M0 else x.
Let s' := with_wa s (Fin w' :: wr) (Fin x' :: ar).
Let J := nuclTar (mN k) g mt n0.
Let ZJ : mN k = N_NONE -> J = 0. Proof. unfold J. now intros ->. Qed.
Let V' : valid s' g [M0; M1]. Proof. exact V. Qed.
Let Em' : mtar s' = Fin mt. Proof. exact Em. Qed.
Let Et' : tarVar s' = Fin n0 :: tr. Proof. exact Et. Qed.
Let P0 : 0 <= M0. Proof. apply (v_sootpos _ _ _ V). cbn; auto. Qed.
Let P1 : 0 <= M1. Proof. apply (v_sootpos _ _ _ V). cbn; auto. Qed.

Lemma terms_tar : monoTermsOf (Fin M0) (Fin M1) m s' = Ok (monoT g k M0 M1 w' x' J 0 0, m, s').
Proof.
  pose proof OM as (_ & _ & _ & _ & OC & OF). pose proof (isPAH_no m k HM OM) as NP.
  apply (monoTerms_val m m s' s' g k M0 M1 w' x' J 0 0 wr ar); auto.
  - exact (proj2 HM).
  - exact (runNucl_tar _ m s' g k _ mt n0 tr V' HM OM Pm Em' Et').
  - intros E. apply ZJ. destruct HM as (HN & _). unfold nuclOn in E. rewrite HN in E. cbn [newNucl nu_mech] in E.
    destruct (mN k); congruence.
  - congruence.
Qed.
Lemma tar_isPAH : isPAH m = false. Proof. exact (isPAH_no m k HM OM). Qed.

Lemma aj_run st eig : sm_tar m = newTar T_AJ_RED -> 0 < M0 ->
  exists m', setSourceTerms st eig m s = Ok (st, m', s') /\
    soots m' = ajSoot k g mt n0 M0 M1 w' x' /\
    tarred m' = Fin (ajTar k g mt n0 M0 M1) :: tsr /\
    holdsGas (gases m') (reactions k (J * nucMass g) (kgrow k g M0 M1 * surface M0 M1) (koxid k g M0 M1 * surface M0 M1)).
Proof.
  intros HT Q0.
  eexists. split; [|split; [|split]].
  - unfold setSourceTerms. rewrite Hp. unfold setSourceTermsMONO.
    rewrite (v_soot _ _ _ V). cbn [map vget nth_error bind]. rewrite (monoSetWA_val s M0 M1 w x wr ar EW EA). cbn [bind].
    rewrite HT. cbn [newTar ta_mech]. fold w' x' s'. rewrite Et'. cbn [vget nth_error bind]. rewrite terms_tar. cbn [bind].
    unfold monoTarTerms. rewrite HT. cbn [ta_mech newTar].
    change (mkTar T_AJ_RED T_AJ_RED) with (newTar T_AJ_RED).
    rewrite (crackAJ_val s' g _ V' n0 tr Et'), (gasifyAJ_val s' g _ V'), (depoAJ_val s' g M0 M1 mt n0 tr V' Pm Q0 Em' Et').
    cbn [bind]. rewrite Em'. unfold tarred in Es. rewrite Es. unfold vset. cbn [length Nat.ltb Nat.leb bind upd]. reflexivity.
  - unfold soots, finish, ajSoot, monoT, setTarSources. cbn [sm_sources with_sources sootSources mt_N0 mt_C0 mt_N1 mt_Cnd1 mt_G1 mt_X1 mt_A].
    xsimp. unfold J. repeat (apply f_equal2; [f_equal; ring|]). reflexivity.
  - unfold tarred, finish, ajTar, monoT, setTarSources. cbn [sm_sources with_sources sootSources tarSources mt_N0 mt_C0 mt_N1 mt_Cnd1 mt_G1 mt_X1 mt_A].
    xsimp. unfold J. apply f_equal2; [f_equal; ring|]. reflexivity.
  - exact (mono_gas m k _ _ _ HM OM).
Qed.

Lemma br_run st eig : sm_tar m = newTar T_BROWN ->
  exists m', setSourceTerms st eig m s = Ok (st, m', s') /\
    soots m' = brSoot k g mt n0 M0 M1 /\
    tarred m' = Fin (brTar k g mt n0) :: tsr /\
    holdsGas (gases m') (reactions k (J * nucMass g) (kgrow k g M0 M1 * surface M0 M1) (koxid k g M0 M1 * surface M0 M1)).
Proof.
  intros HT.
  eexists. split; [|split; [|split]].
  - unfold setSourceTerms. rewrite Hp. unfold setSourceTermsMONO.
    rewrite (v_soot _ _ _ V). cbn [map vget nth_error bind]. rewrite (monoSetWA_val s M0 M1 w x wr ar EW EA). cbn [bind].
    rewrite HT. cbn [newTar ta_mech]. fold w' x' s'. rewrite Et'. cbn [vget nth_error bind]. rewrite terms_tar. cbn [bind].
    unfold monoTarTerms. rewrite HT. cbn [ta_mech newTar].
    change (mkTar T_BROWN T_BROWN) with (newTar T_BROWN).
    rewrite (crackBR_val s' g _ V' n0 tr Et'), (gasifyBR_val s' g _ V' n0 tr Et').
    cbn [bind]. rewrite (brownAgg_val s' g M0 M1 _ V' P0 P1).
    unfold tarred in Es. rewrite Es. unfold vset. cbn [length Nat.ltb Nat.leb bind upd]. reflexivity.
  - unfold soots, finish, brSoot, monoT, setTarSources. cbn [sm_sources with_sources sootSources mt_N0 mt_C0 mt_N1 mt_Cnd1 mt_G1 mt_X1 mt_A].
    xsimp. unfold J. repeat (apply f_equal2; [f_equal; ring|]). reflexivity.
  - unfold tarred, finish, brTar, monoT, setTarSources. cbn [sm_sources with_sources sootSources tarSources mt_N0 mt_C0 mt_N1 mt_Cnd1 mt_G1 mt_X1 mt_A].
    xsimp. unfold J. apply f_equal2; [f_equal; ring|]. reflexivity.
  - exact (mono_gas m k _ _ _ HM OM).
Qed.
End Run.

(** without a tar variable *)
Lemma mono_no_tar {N : Num} (m : model (N:=N)) s st eig a b l w wr x xr :
  sm_psd m = P_MONO -> ta_mech (sm_tar m) <> T_NONE -> sootVar s = a :: b :: l -> wts s = w :: wr -> absc s = x :: xr ->
  tarVar s = [] -> setSourceTerms st eig m s = UB OutOfBounds.
Proof.
  intros Hp HT Es Ew Ea Et. unfold setSourceTerms. rewrite Hp. unfold setSourceTermsMONO. rewrite Es. cbn [vget nth_error bind].
  unfold monoSetWA. destruct (ngtb a (nZ 0)).
  - rewrite Ew, Ea. unfold vset. cbn [length Nat.ltb Nat.leb bind upd]. destruct (ta_mech (sm_tar m)); try congruence;
      cbn [with_wa tarVar]; rewrite Et; reflexivity.
  - cbn [bind]. destruct (ta_mech (sm_tar m)); try congruence; rewrite Et; reflexivity.
Qed.
