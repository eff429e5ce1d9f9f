(** The statements about the monodisperse model. *)
From Coq Require Import ZArith List Bool Reals Lra Lia.
From Verif Require Import Num Defs State Coag Nucl Growth Oxid Tar SootModel Mono Qmom Calls XR XRLemmas NumLaws
  SpecState SpecChem SpecCoag SpecValid SpecRates SpecGas SpecTar SpecPah SpecPsd CoagProofs StateXR ValidProofs InterpProofs GasProofs MiscProofs RateProofs PsdProofs PahProofs MonoProofs MonoTar.
Import ListNotations.
Local Open Scope R_scope.

(** ** C23, for any arithmetic *)
Section Gen.
Context {N : Num}.
Lemma mono_indep (m : model (N:=N)) s w a w2 a2 M0 st eig : sm_psd m = P_MONO ->
  nth_error (sootVar s) 0 = Some M0 -> nltb (nZ 0) M0 = true ->
  length w = 1%nat -> length a = 1%nat -> length w2 = 1%nat -> length a2 = 1%nat ->
  setSourceTerms st eig m (with_wa s w a) = setSourceTerms st eig m (with_wa s w2 a2).
Proof.
  intros Hp E0 P0 L1 L2 L3 L4. unfold setSourceTerms. rewrite Hp. unfold setSourceTermsMONO.
  cbn [with_wa sootVar]. assert (EV : vget (sootVar s) 0 = Ok M0) by (unfold vget; now rewrite E0). rewrite EV. cbn [bind].
  destruct (vget (sootVar s) 1) as [M1| |]; cbn [bind]; [|reflexivity|reflexivity].
  destruct w as [|? [|? ?]]; try discriminate L1. destruct a as [|? [|? ?]]; try discriminate L2.
  destruct w2 as [|? [|? ?]]; try discriminate L3. destruct a2 as [|? [|? ?]]; try discriminate L4.
  unfold monoSetWA. rewrite P0. reflexivity.
Qed.
End Gen.

Lemma wa_same {N : Num} (s : state (N:=N)) : with_wa s (wts s) (absc s) = s.
Proof. destruct s; reflexivity. Qed.
Lemma wa_wa {N : Num} (s : state (N:=N)) w a w2 a2 : with_wa (with_wa s w a) w2 a2 = with_wa s w2 a2.
Proof. destruct s; reflexivity. Qed.

(** ** C22 *)
Lemma mono_full (m : model (N:=XR)) s g k M0 M1 st eig :
  sm_psd m = P_MONO -> hasAll m k -> okAll k -> noTar m -> valid s g [M0; M1] -> 0 < M0 -> regular k g M0 M1 ->
  length (wts s) = 1%nat -> length (absc s) = 1%nat ->
  let x := M1 / M0 in
  let o := nucl k g (M0 * kernel k g (dimerMass g) x) in
  exists m', setSourceTerms st eig m s = Ok (st, m', outS k g (with_wa s [Fin M0] [Fin x])) /\
    soots m' = [Fin (oJ o - 1 / 2 * kernel k g x x * M0 ^ 2);
                Fin (oN1 o + kernel k g (oMass o) x * M0 * oConc o * oMass o + (kgrow k g M0 M1 - koxid k g M0 M1) * (M0 * sphere x))] /\
    gasBudget m' k g o (kgrow k g M0 M1 * (M0 * sphere x)) (koxid k g M0 M1 * (M0 * sphere x)) /\
    pahs m' = pahSourcesOf k g (pahs m) /\ hasAll m' k /\ sm_psd m' = P_MONO /\ noTar m'.
Proof.
  intros Hp HM OM HT V P0 RG LW LA x o.
  destruct (mono_run m (with_wa s [Fin 0] [Fin 0]) g k M0 M1 0 0 st eig Hp HM OM HT V RG eq_refl eq_refl) as (m' & E & A).
  destruct (Rlt_dec 0 M0) as [Q|Q]; [|lra]. rewrite (Rabs_right M0) in * by lra. fold x in E, A. fold o in A.
  pose proof (surface_sphere M0 M1 P0) as ES. fold x in ES. exists m'. rewrite <- ES. split; [|exact A].
  rewrite wa_wa in E. rewrite <- E. transitivity (setSourceTerms st eig m (with_wa s (wts s) (absc s))); [now rewrite wa_same|].
  apply (mono_indep m s _ _ _ _ (Fin M0)); auto.
  - rewrite (v_soot _ _ _ V). reflexivity.
  - apply xltb_true. exact P0.
Qed.

(** the same without PAH *)
Lemma outS_no k g s : isP k = false -> outS k g s = s.
Proof. unfold outS. now intros ->. Qed.

(** a model built by the constructor has the mechanisms asked for *)
Lemma built p ns n gr ox co Ntar ta F c (m : model (N:=XR)) : constructEnum p ns n gr ox co Ntar ta F c = Ok m ->
  hasAll m (mkMechs n gr ox co 1) /\ sm_psd m = p /\ sm_nsoot m = ns /\ sm_tar m = newTar ta /\
  sm_mBins m = initBins p ns F c /\ sm_sources m = newSources ns Ntar /\ sm_priv m = initPriv p ns n F.
Proof.
  unfold constructEnum, build. intros H.
  assert (EN : mkNuclEnum (N:=XR) n = Ok (newNucl n) \/ exists e, mkNuclEnum (N:=XR) n = Throw e) by (destruct n; cbn; eauto).
  destruct EN as [EN|(e & EN)]; rewrite EN in H; cbn [bind] in H; [|discriminate].
  assert (EG : mkGrowEnum (N:=XR) gr = Ok (newGrow gr) \/ exists e, mkGrowEnum (N:=XR) gr = Throw e) by (destruct gr; cbn; eauto).
  destruct EG as [EG|(e & EG)]; rewrite EG in H; cbn [bind] in H; [|discriminate].
  assert (EO : mkOxidEnum (N:=XR) ox = Ok (newOxid ox) \/ exists e, mkOxidEnum (N:=XR) ox = Throw e) by (destruct ox; cbn; eauto).
  destruct EO as [EO|(e & EO)]; rewrite EO in H; cbn [bind] in H; [|discriminate].
  assert (EC : mkCoagEnum (N:=XR) co = Ok (newCoag co) \/ exists e, mkCoagEnum (N:=XR) co = Throw e) by (destruct co; cbn; eauto).
  destruct EC as [EC|(e & EC)]; rewrite EC in H; cbn [bind] in H; [|discriminate].
  assert (ET : mkTarEnum ta = Ok (newTar ta) \/ exists e, mkTarEnum ta = Throw e) by (destruct ta; cbn; eauto).
  destruct ET as [ET|(e & ET)]; rewrite ET in H; cbn [bind] in H; [|discriminate].
  destruct (derivedCheck _ _ _ _); cbn [bind] in H; try discriminate.
  apply (f_equal (fun r => match r with Ok x => x | _ => m end)) in H. rewrite <- H.
  split; [|repeat split].
  split.
  - unfold isP. cbn [mN sm_nucl]. destruct n; try reflexivity. split; [reflexivity|]. split; [reflexivity|]. split; [reflexivity|].
    intros sp _ _. destruct sp; reflexivity.
  - split; [reflexivity|]. split; [reflexivity|]. reflexivity.
Qed.

(** ** calls in sequence *)
Lemma setTo_ok st (m : model (N:=XR)) s0 g soot tar : st_nsoot s0 = Z.of_nat (length soot) -> st_Ntar s0 = Z.of_nat (length tar) -> length (yPah s0) = 6%nat ->
  physical g -> (forall x, In x soot -> 0 <= x) -> (forall x, In x tar -> 0 <= x) ->
  exists s, doAction (st, m, s0) (setTo g soot tar) = Ok (st, m, s) /\ valid s g soot /\ tarVar s = map Fin tar /\
    wts s = wts s0 /\ absc s = absc s0 /\ mtar s = mtar s0 /\ st_Ntar s = st_Ntar s0.
Proof.
  intros S0 S1 S2 (OG & OY & OP) Hs Ht.
  destruct (argsOf_any s0 g soot tar S0 S1 S2 OG OY OP Hs Ht) as (s & E & V & Et & Ew & Ea & Em).
  exists s. split; [|do 5 (split; [assumption|])].
  - unfold doAction, setTo. unfold call, argsOf in E. cbn [aT aP arho amu ayGas ayPah asoot ansoot atar aNtar acMin] in E. rewrite E. reflexivity.
  - pose proof (StateProofs.describe XR_cmpLaws s0 (argsOf g soot tar)) as D. rewrite E in D. inversion D as [? Ha Hst B1 B2| |]; subst.
    destruct Hst as (_ & _ & _ & _ & _ & _ & _ & _ & EN & _). etransitivity; [exact EN|symmetry; exact S1].
Qed.

Lemma demo_physical : physical demoGas.
Proof.
  split; [|split].
  - repeat split; cbn [gT gP gRho gMu gCMin gY gPah demoGas]; intros; lra.
  - intros; cbn; lra.
  - unfold pahVec, allPah. cbn [map fold_left gPah demoGas]. lra.
Qed.

Lemma nucl_noP k g i : isP k = false -> nucl k g i = mkOut (Jnuc k g) g 0 0.
Proof. unfold nucl. now intros ->. Qed.
Lemma okMechs_all k : okMechs k -> okAll k /\ isP k = false.
Proof.
  intros (A & B). unfold okAny in B. split; [unfold okAll; tauto|]. unfold isP. destruct A as (A & _). destruct (mN k); congruence.
Qed.
Lemma hasMechs_all m k : okMechs k -> hasMechs m k -> hasAll m k.
Proof. intros O (A & B). split; auto. destruct (okMechs_all k O) as (_ & E). now rewrite E. Qed.

Lemma mono_two_runs (m : model (N:=XR)) k g g2 M0 M1 st eig :
  sm_psd m = P_MONO -> hasAll m k -> okMechs k -> noTar m -> physical g -> physical g2 -> 0 < M0 -> 0 <= M1 ->
  regular k g M0 M1 -> regular k g2 0 0 ->
  let x := M1 / M0 in
  exists m1 m2 s1 s2,
    runActions (st, m, newState 2 0) [setTo g [M0; M1] []; ASrc eig; setTo g2 [0; 0] []; ASrc eig] = Ok (st, m1, s1) /\
    runActions (st, m, newState 2 0) [setTo g2 [0; 0] []; ASrc eig] = Ok (st, m2, s2) /\
    nth_error (soots m1) 0 = Some (Fin (Jnuc k g2 - 1 / 2 * kernel k g2 x x * M0 ^ 2)) /\
    nth_error (soots m2) 0 = Some (Fin (Jnuc k g2)).
Proof.
  intros Hp HM OM HT Og Og2 P0 P1 RG RG2 x. destruct (okMechs_all k OM) as (OA & NP).
  assert (In2 : forall a b, 0 <= a -> 0 <= b -> forall y, In y [a; b] -> 0 <= y) by (intros a b Ha Hb y [<-|[<-|[]]]; auto).
  assert (In0 : forall y : R, In y [] -> 0 <= y) by (intros y []).
  destruct (setTo_ok st m (newState 2 0) g [M0; M1] [] eq_refl eq_refl eq_refl Og (In2 _ _ (Rlt_le _ _ P0) P1) In0) as (s1 & E1 & V1 & _ & W1 & A1 & _ & T1).
  destruct (mono_full m s1 g k M0 M1 st eig Hp HM OA HT V1 P0 RG) as (ma & Ea & _ & _ & _ & Ha & Hpa & HTa);
    [rewrite W1; reflexivity|rewrite A1; reflexivity|]. fold x in Ea.
  rewrite (outS_no k g _ NP) in Ea.
  destruct (setTo_ok st ma (with_wa s1 [Fin M0] [Fin x]) g2 [0; 0] []) as (s2 & E2 & V2 & _ & W2 & A2 & _ & T2);
    [exact (v_nsoot _ _ _ V1)|cbn [with_wa st_Ntar]; rewrite T1; reflexivity|destruct V1 as (_ & _ & _ & _ & _ & L & _); exact L|exact Og2|apply In2; lra|exact In0|].
  cbn [with_wa wts absc] in W2, A2.
  destruct (mono_run ma s2 g2 k 0 0 M0 x st eig Hpa Ha OA HTa V2 RG2 W2 A2) as (mb & Eb & Sb & _).
  destruct (setTo_ok st m (newState 2 0) g2 [0; 0] [] eq_refl eq_refl eq_refl Og2) as (s3 & E3 & V3 & _ & W3 & A3 & _); [apply In2; lra|exact In0|].
  destruct (mono_run m s3 g2 k 0 0 0 0 st eig Hp HM OA HT V3 RG2 W3 A3) as (mc & Ec & Sc & _).
  destruct (Rlt_dec 0 0); [lra|]. 
  eexists mb, mc, _, _. split; [|split; [|split]].
  - unfold runActions. cbn [foldM]. rewrite E1. cbn [bind]. unfold doAction at 1. rewrite Ea. cbn [bind]. rewrite E2. cbn [bind doAction]. rewrite Eb. reflexivity.
  - unfold runActions. cbn [foldM]. rewrite E3. cbn [bind doAction]. rewrite Ec. reflexivity.
  - rewrite Sb. rewrite nucl_noP by auto. reflexivity.
  - rewrite Sc. rewrite nucl_noP by auto. unfold monoSources. cbn [nth_error oJ]. do 2 f_equal. ring.
Qed.

(** ** tar *)
Lemma brown_balance (m : model (N:=XR)) s g k M0 M1 w x mt n0 ts0 tr tsr st eig :
  sm_psd m = P_MONO -> hasMechs m k -> okAny k -> valid s g [M0; M1] -> regular k g M0 M1 ->
  wts s = [Fin w] -> absc s = [Fin x] -> 0 < mt -> mtar s = Fin mt -> tarVar s = Fin n0 :: tr ->
  tarSources (sm_sources m) = Fin ts0 :: tsr -> sm_tar m = newTar T_BROWN ->
  let J := nuclTar (mN k) g mt n0 in let A := surface M0 M1 in
  exists m' s' q, setSourceTerms st eig m s = Ok (st, m', s') /\
    soots m' = [Fin (J - brownAggregate g M0 M1); Fin (J * nucMass g - koxid k g M0 M1 * A)] /\
    tarSources (sm_sources m') = Fin (- (J * nucMass g) - brownGasify g n0 - brownOxid g n0) :: tsr /\
    q = reactions k (J * nucMass g) (kgrow k g M0 M1 * A) (koxid k g M0 M1 * A) /\ holdsGas (gases m') q /\
    total q + (J * nucMass g - koxid k g M0 M1 * A) = - (kgrow k g M0 M1 * A).
Proof.
  intros Hp HM OM V RG EW EA Pm Em Et Es HT J A.
  destruct (br_run m s g k M0 M1 w x [] [] mt n0 ts0 tr tsr Hp HM OM V RG EW EA Pm Em Et Es st eig HT) as (m' & E & S & T & Hq).
  pose proof (reactions_bal k (J * nucMass g) (kgrow k g M0 M1 * surface M0 M1) (koxid k g M0 M1 * surface M0 M1) OM) as (Tq & _).
  { intros X. unfold J. unfold nuclTar. rewrite X. cbn [nuclFormula]. ring. }
  { intros X. rewrite (kg_none _ _ _ _ X). ring. }
  { intros X. rewrite (ko_none _ _ _ _ X). ring. }
  exists m'. eexists. eexists. split; [exact E|]. split; [exact S|]. split; [exact T|]. split; [reflexivity|]. split; [exact Hq|].
  unfold J, A in *. rewrite Tq. ring.
Qed.
Lemma aj_balance (m : model (N:=XR)) s g k M0 M1 w x mt n0 ts0 tr tsr st eig :
  sm_psd m = P_MONO -> hasMechs m k -> okAny k -> valid s g [M0; M1] -> regular k g M0 M1 ->
  wts s = [Fin w] -> absc s = [Fin x] -> 0 < mt -> mtar s = Fin mt -> tarVar s = Fin n0 :: tr ->
  tarSources (sm_sources m) = Fin ts0 :: tsr -> sm_tar m = newTar T_AJ_RED -> 0 < M0 ->
  let J := nuclTar (mN k) g mt n0 in let A := M0 * sphere (M1 / M0) in
  let R1 := (kgrow k g M0 M1 - koxid k g M0 M1) * A in
  exists m' s' q, setSourceTerms st eig m s = Ok (st, m', s') /\
    soots m' = [Fin (J - 1 / 2 * kernel k g (M1 / M0) (M1 / M0) * M0 ^ 2);
                Fin (mt * tarDepo g mt n0 M0 M1 + A * (R1 - tarGasify g) + 2 * mt * J)] /\
    tarSources (sm_sources m') =
      Fin (- tarDepo g mt n0 M0 M1 - crackingReduced (gT g) n0 + 2508 * n0 * (R1 - tarGasify g) - 2 * J) :: tsr /\
    q = reactions k (J * nucMass g) (kgrow k g M0 M1 * A) (koxid k g M0 M1 * A) /\ holdsGas (gases m') q /\ total q = - (J * nucMass g + R1).
Proof.
  intros Hp HM OM V RG EW EA Pm Em Et Es HT P0 J A R1.
  destruct (aj_run m s g k M0 M1 w x [] [] mt n0 ts0 tr tsr Hp HM OM V RG EW EA Pm Em Et Es st eig HT P0) as (m' & E & S & T & Hq).
  pose proof (reactions_bal k (J * nucMass g) (kgrow k g M0 M1 * surface M0 M1) (koxid k g M0 M1 * surface M0 M1) OM) as (Tq & _).
  { intros X. unfold J. unfold nuclTar. rewrite X. cbn [nuclFormula]. ring. }
  { intros X. rewrite (kg_none _ _ _ _ X). ring. }
  { intros X. rewrite (ko_none _ _ _ _ X). ring. }
  exists m'. eexists. eexists. destruct (Rlt_dec 0 M0) as [Q|Q]; [|exfalso; exact (Q P0)].
  unfold R1, A. rewrite <- (surface_sphere M0 M1 P0).
  split; [exact E|]. split; [exact S|]. split; [exact T|]. split; [reflexivity|]. split; [exact Hq|]. rewrite Tq. unfold J. ring.
Qed.

(** molar mass 0, the value a new state has *)
Lemma aj_mtar0 coll (s : state (N:=XR)) g soot nu n0 tr : valid s g soot -> nu_class nu = N_AJ_RED -> mtar s = Fin 0 -> tarVar s = Fin n0 :: tr ->
  nuclRate coll nu s = Ok (NaN, nu, s, None).
Proof.
  intros V E Em Et. pose proof (v_Tpos _ _ _ V) as Ht. pose proof (v_cMinpos _ _ _ V) as Hc.
  unfold nuclRate. rewrite E. unfold nuclAJ_RED. rewrite Et, Em, (v_T _ _ _ V), (v_cMin _ _ _ V). cbn [vget nth_error bind].
  do 4 f_equal. xcbn. xconst. repeat xstep.
  replace (2 * 0 / (3 * (12011 / 1000))) with 0 by field. rewrite sqrt_0, !Rmult_0_r.
  pose proof rpi_pos. pose proof rkb_pos. pose proof rNa_pos.
  assert (ED : xdiv (xdiv (Fin (8 * rpi * rkb * gT g)) (Fin 0)) (Fin rNa) = PInf).
  { unfold xdiv at 2. destruct (Req_EM_T 0 0); [|lra]. assert (0 < 8 * rpi * rkb * gT g) by pos. unfold signed.
    destruct (Rlt_dec 0 (8 * rpi * rkb * gT g)); [|lra]. cbn [xdiv]. unfold signed. destruct (Rlt_dec 0 rNa); [reflexivity|lra]. }
  rewrite ED. cbn [xsqrt xmul]. unfold signed at 1. destruct (Rlt_dec 0 0); [lra|]. reflexivity.
Qed.
Lemma tar_diameters mt : tarDiamDepo mt = sqrt (10 ^ 13 / 1395) * tarDiamNucl mt.
Proof.
  unfold tarDiamDepo, tarDiamNucl. rewrite sqrt_mult by lra.
  replace (sqrt (10 ^ 13 / 1395) * (1395 / 10 ^ 13 * sqrt 3 * sqrt (2 * mt / (3 * massC))))
    with ((sqrt (10 ^ 13 / 1395) * (1395 / 10 ^ 13)) * sqrt 3 * sqrt (2 * mt / (3 * massC))) by ring.
  f_equal. f_equal.
  rewrite <- (sqrt_sqrt (1395 / 10 ^ 13)) at 2 by lra. rewrite <- Rmult_assoc, <- sqrt_mult by lra.
  replace (10 ^ 13 / 1395 * (1395 / 10 ^ 13)) with 1 by lra. rewrite sqrt_1. ring.
Qed.
