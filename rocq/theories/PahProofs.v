(** PAH nucleation on extended reals. *)
From Coq Require Import ZArith List Bool Reals Lra Lia.
From Verif Require Import Num Defs State Coag Nucl Growth Oxid Tar SootModel XR XRLemmas NumLaws
  SpecChem SpecCoag SpecValid SpecRates SpecGas SpecPsd SpecPah CoagProofs StateProofs StateXR ValidProofs InterpProofs GasProofs RateProofs PsdProofs.
Import ListNotations.
Local Open Scope R_scope.

Lemma steady_val b i p : 0 < b -> 0 <= i -> 0 < p -> steady b i p (steadyVal b i p).
Proof.
  intros Hb Hi Hp. unfold steadyVal.
  assert (D : 0 < i ^ 2 + 4 * b * p). { assert (0 <= i ^ 2) by nra. assert (0 < b * p) by pos. nra. }
  pose proof (sqrt_lt_R0 _ D) as Sp. pose proof (sqrt_sqrt _ (Rlt_le _ _ D)) as SS.
  set (q := sqrt (i ^ 2 + 4 * b * p)) in *.
  assert (Pn : 0 < 2 * p / (i + q)) by pos.
  assert (EQ : b * (2 * p / (i + q)) ^ 2 + i * (2 * p / (i + q)) = p).
  { replace (b * (2 * p / (i + q)) ^ 2 + i * (2 * p / (i + q))) with (p * ((4 * b * p + 2 * i * (i + q)) / (i + q) ^ 2)) by (field; lra).
    replace (4 * b * p + 2 * i * (i + q)) with ((i + q) ^ 2) by nra. field. lra. }
  split; [exact Pn|]. split; [exact EQ|].
  intros x Px Ex. set (n := 2 * p / (i + q)) in *.
  assert (K : (x - n) * (b * (x + n) + i) = 0) by nra.
  apply Rmult_integral in K. destruct K as [K|K]; [lra|]. assert (0 < b * (x + n)) by pos. lra.
Qed.
Lemma steady_nneg b i p : 0 < b -> 0 <= i -> 0 < p -> 0 <= steadyVal b i p.
Proof. intros. apply Rlt_le, steady_val; auto. Qed.

Lemma valid_cMin (s : state (N:=XR)) g soot c : valid s g soot -> 0 < c -> valid (with_cMin s (Fin c)) (gasCMin g c) soot.
Proof.
  intros (OG & GS & EM & R) Hc. split; [|split; [exact GS|split; [reflexivity|exact R]]].
  destruct OG as (O1 & O2 & O3 & O4 & O5 & O6 & O7). exact (conj O1 (conj O2 (conj O3 (conj O4 (conj Hc (conj O6 O7)))))).
Qed.

Section S.
Context (s : state (N:=XR)) (g : gas) (soot : list R) (V : valid s g soot).
Let Ht := v_Tpos _ _ _ V.
Let ET := v_T _ _ _ V.
Let Lp := pahLoss_nneg s g soot V.

Lemma pahSum_nneg f : (forall sp, 0 <= f sp) -> 0 <= pahSum f.
Proof. intros H. unfold pahSum, sumR, allPah. cbn [map fold_right]. repeat apply Rplus_le_le_0_compat; auto. lra. Qed.
Lemma pahTotal_nneg : 0 <= pahTotal g. Proof. apply pahSum_nneg; auto. Qed.
Lemma pahTotal_some : somePah g -> 0 < pahTotal g.
Proof.
  intros (sp & H).
  assert (P1 : 0 < pahLoss g sp).
  { unfold pahLoss. pose proof (sticking_pos sp). pose proof (betaSelf_pos (gT g) (pahMass sp) Ht (pahMass_pos sp)).
    assert (PD : 0 < pahDensity g sp).
    { unfold pahDensity. pose proof (pahMolarMass_pos sp). pose proof avo_pos. pose proof (v_rhopos _ _ _ V). pose proof (v_pahpos _ _ _ V sp).
      assert (0 < gPah g sp) by lra. unfold Rdiv. repeat apply Rmult_lt_0_compat; auto. now apply Rinv_0_lt_compat. }
    apply Rmult_lt_0_compat; [apply Rmult_lt_0_compat; auto|apply pow_lt; auto]. }
  unfold pahTotal, pahSum, sumR, allPah. cbn [map fold_right].
  pose proof (Lp C10H8). pose proof (Lp C12H8). pose proof (Lp C12H10). pose proof (Lp C14H10). pose proof (Lp C16H10). pose proof (Lp C18H10).
  destruct sp; lra.
Qed.
Lemma pahTotal_none : noPah g -> pahTotal g = 0.
Proof.
  intros H. unfold pahTotal, pahSum, sumR, allPah. cbn [map fold_right]. rewrite !pahLoss0 by apply H. ring.
Qed.
Lemma pahSum_scale f c : pahSum (fun sp => f sp * c) = pahSum f * c.
Proof. unfold pahSum, sumR, allPah. cbn [map fold_right]. ring. Qed.
Lemma dimerRate_half : dimerRate g = pahTotal g / 2.
Proof. unfold dimerRate, pahTotal, pahSum, sumR, allPah. cbn [map fold_right]. field. Qed.
Lemma meanC_ge : 0 < pahTotal g -> 10 <= meanC g.
Proof.
  intros H. unfold meanC. apply Rmult_le_reg_r with (pahTotal g); auto.
  replace (pahSum (fun sp => pahLoss g sp * IZR (pahAtomsC sp)) / pahTotal g * pahTotal g) with (pahSum (fun sp => pahLoss g sp * IZR (pahAtomsC sp))) by (field; lra).
  unfold pahTotal, pahSum, sumR, allPah. cbn [map fold_right pahAtomsC].
  pose proof (Lp C10H8). pose proof (Lp C12H8). pose proof (Lp C12H10). pose proof (Lp C14H10). pose proof (Lp C16H10). pose proof (Lp C18H10). lra.
Qed.
Lemma dimerMass_pos : 0 < pahTotal g -> 0 < dimerMass g.
Proof.
  intros H. unfold dimerMass. destruct (Rlt_dec 0 (pahTotal g)); [|lra]. pose proof (meanC_ge H). pose proof massC_pos. pose proof avo_pos. pos.
Qed.
Lemma pahCMin_pos : 0 < pahCMin g.
Proof.
  unfold pahCMin. pose proof (v_cMinpos _ _ _ V). destruct (Rlt_dec 0 (pahTotal g)) as [K|]; auto.
  pose proof (meanC_ge K). assert (0 < gCMin g / pahTotal g) by pos. lra.
Qed.

(** the ratios table *)
Definition pahRatios (old : list xr) : list xr :=
  ratioTable (N:=XR) old [(C_, Fin 1); (H2, Fin (pahHMin g / 2 / pahCMin g))].
Definition pahObj (nu : nuclObj (N:=XR)) (i : R) : nuclObj (N:=XR) :=
  mkNucl (nu_class nu) (nu_mech nu) (Fin (dimerMass g)) (Fin (dimerConc g i)) (Fin (pahTotal g / 2))
    (pahRatios (nu_ratios nu)) (map (fun sp => Fin (- pahLoss g sp * pahMass sp)) allPah).

Lemma nuclPAH_val coll nu i eff : 0 <= i ->
  coll (with_cMin s (Fin (pahCMin g))) (Fin (dimerMass g)) = Ok (Fin i, eff) ->
  nuclPAH coll nu s = Ok (Fin (pahNuclRate g i), pahObj nu i, with_cMin s (Fin (pahCMin g)), eff).
Proof.
  intros Hi EC. unfold nuclPAH. rewrite (pahLoop_val s g soot V). cbn [bind a_nDotD a_mDimer a_cMin a_hMin a_rates].
  rewrite dimerRate_half.
  assert (EM : pahSum (fun sp => pahLoss g sp * IZR (pahAtomsC sp) * massC / avogadro) = pahSum (fun sp => pahLoss g sp * IZR (pahAtomsC sp)) * (massC / avogadro)).
  { rewrite <- pahSum_scale. unfold pahSum. f_equal. apply map_ext. intros; unfold Rdiv; ring. }
  assert (E2C : pahSum (fun sp => pahLoss g sp * 2 * IZR (pahAtomsC sp)) = 2 * pahSum (fun sp => pahLoss g sp * IZR (pahAtomsC sp))).
  { unfold pahSum, sumR, allPah. cbn [map fold_right]. ring. }
  assert (E2H : pahSum (fun sp => pahLoss g sp * 2 * IZR (pahAtomsH sp)) = 2 * pahSum (fun sp => pahLoss g sp * IZR (pahAtomsH sp))).
  { unfold pahSum, sumR, allPah. cbn [map fold_right]. ring. }
  rewrite EM, E2C, E2H. clear EM E2C E2H.
  change (@nltb XR) with xltb. change (@nZ XR 0) with (Fin 0).
  pose proof pahCMin_pos as PC. pose proof pahTotal_nneg as PT.
  destruct (Rlt_dec 0 (pahTotal g)) as [P|P].
  - assert (Fp : xltb (Fin 0) (Fin (pahTotal g / 2)) = true) by (apply xltb_true; lra). rewrite Fp.
    assert (E1 : forall x, @ndiv XR (Fin x) (@nmul XR (nZ 2) (Fin (pahTotal g / 2))) = Fin (x / pahTotal g)).
    { intros x. clear EC. xsimp. f_equal. field. lra. }
    rewrite !E1. clear E1.
    replace (pahSum (fun sp => pahLoss g sp * IZR (pahAtomsC sp)) * (massC / avogadro) / pahTotal g) with (dimerMass g)
      by (unfold dimerMass, meanC; destruct (Rlt_dec 0 (pahTotal g)); [field; split; nz|lra]).
    replace ((gCMin g + 2 * pahSum (fun sp => pahLoss g sp * IZR (pahAtomsC sp))) / pahTotal g) with (pahCMin g)
      by (unfold pahCMin, meanC; destruct (Rlt_dec 0 (pahTotal g)); [field; nz|lra]).
    replace (2 * pahSum (fun sp => pahLoss g sp * IZR (pahAtomsH sp)) / pahTotal g) with (pahHMin g)
      by (unfold pahHMin, meanH; destruct (Rlt_dec 0 (pahTotal g)); [field; nz|lra]).
    pose proof (dimerMass_pos P) as PM.
    rewrite EC. cbn [bind]. rewrite (xltb_true 0 (dimerMass g)) by auto. cbn [andb].
    rewrite (preFac_val (with_cMin s (Fin (pahCMin g))) (gasCMin g (pahCMin g)) soot).
    2: now apply valid_cMin.
    2: auto.
    cbn [gasCMin gT].
    pose proof (betaSelf_pos (gT g) (dimerMass g) Ht PM) as PB.
    assert (P2 : 0 < pahTotal g / 2) by lra.
    assert (PD : 0 <= 4 * betaSelf (gT g) (dimerMass g) * (pahTotal g / 2)) by nneg.
    assert (PS : 0 < i * i + 4 * betaSelf (gT g) (dimerMass g) * (pahTotal g / 2)).
    { assert (0 <= i * i) by nra. assert (0 < 4 * betaSelf (gT g) (dimerMass g) * (pahTotal g / 2)) by pos. lra. }
    pose proof (sqrt_lt_R0 _ PS) as PQ.
    assert (EN : @ndiv XR (@nmul XR (nZ 2) (Fin (pahTotal g / 2)))
       (@nadd XR (Fin i) (@nsqrt XR (@nadd XR (@nmul XR (Fin i) (Fin i))
          (@nmul XR (@nmul XR (nZ 4) (Fin (betaSelf (gT g) (dimerMass g)))) (Fin (pahTotal g / 2)))))) = Fin (dimerConc g i)).
    { clear EC. xcbn. xconst. repeat xstep. f_equal. unfold dimerConc. destruct (Rlt_dec 0 (pahTotal g)); [|lra].
      unfold steadyVal. replace (i ^ 2) with (i * i) by ring. reflexivity. }
    rewrite EN. clear EN EC.
    f_equal. f_equal. f_equal. f_equal.
    + xsimp. f_equal. unfold pahNuclRate. field.
    + unfold pahObj. f_equal. unfold pahRatios, ratioTable. cbn [fold_left fst snd].
      change (@nZ XR 1) with (Fin 1). f_equal. xsimp. reflexivity.
  - assert (E0 : pahTotal g = 0) by lra.
    assert (Fp : xltb (Fin 0) (Fin (pahTotal g / 2)) = false) by (apply xltb_false; lra). rewrite Fp. cbn [andb].
    assert (Z : forall sp, pahLoss g sp = 0).
    { assert (K := E0). unfold pahTotal, pahSum, sumR, allPah in K. cbn [map fold_right] in K.
      pose proof (Lp C10H8). pose proof (Lp C12H8). pose proof (Lp C12H10). pose proof (Lp C14H10). pose proof (Lp C16H10). pose proof (Lp C18H10).
      intros sp; destruct sp; lra. }
    assert (SC : forall f, pahSum (fun sp => pahLoss g sp * f sp) = 0).
    { intros f. unfold pahSum, sumR, allPah. cbn [map fold_right]. rewrite !Z. ring. }
    rewrite (SC (fun sp => IZR (pahAtomsC sp))), (SC (fun sp => IZR (pahAtomsH sp))).
    replace (0 * (massC / avogadro)) with (dimerMass g) by (unfold dimerMass; destruct (Rlt_dec 0 (pahTotal g)); [lra|ring]).
    replace (gCMin g + 2 * 0) with (pahCMin g) by (unfold pahCMin; destruct (Rlt_dec 0 (pahTotal g)); [lra|ring]).
    replace (2 * 0) with (pahHMin g) by (unfold pahHMin; destruct (Rlt_dec 0 (pahTotal g)); [lra|ring]).
    rewrite EC. cbn [bind].
    assert (E3 : exists q, pahPreFac (with_cMin s (Fin (pahCMin g))) = Fin q).
    { unfold pahPreFac. cbn [T with_cMin]. rewrite ET. clear EC. xsimp. eauto. }
    destruct E3 as (q & E3). rewrite E3. clear EC.
    assert (EQ0 : dimerMass g = 0) by (unfold dimerMass; destruct (Rlt_dec 0 (pahTotal g)); [lra|ring]).
    assert (EN : dimerConc g i = 0) by (unfold dimerConc; destruct (Rlt_dec 0 (pahTotal g)); [lra|ring]).
    f_equal. f_equal. f_equal. f_equal.
    + unfold pahNuclRate. rewrite EN, EQ0. clear EN EQ0. xsimp. rewrite xpow_0pos by lra. xsimp. f_equal. ring.
    + unfold pahObj. rewrite EN. f_equal. unfold pahRatios, ratioTable. cbn [fold_left fst snd].
      change (@nZ XR 1) with (Fin 1). f_equal. clear EN EQ0. xsimp. reflexivity.
Qed.
End S.

(** ** one nucleation call, with or without PAH *)
Definition outM (k : mechs) (g : gas) (m : model (N:=XR)) (i : R) (eff : list xr) : model (N:=XR) :=
  if isP k then storeNucl m (pahObj g (sm_nucl m) i) (Some eff) else m.
Definition outS (k : mechs) (g : gas) (s : state (N:=XR)) : state (N:=XR) :=
  if isP k then with_cMin s (Fin (pahCMin g)) else s.

Lemma storeNucl_nucl (m : model (N:=XR)) nu e : sm_nucl (storeNucl m nu e) = nu.
Proof. unfold storeNucl. destruct m as [? ? ? ? ? ? ? ? ? ? ? p]; destruct p; destruct e as [[|? [|? ?]]|]; reflexivity. Qed.
Lemma storeNucl_rest (m : model (N:=XR)) nu e : let m' := storeNucl m nu e in
  sm_psd m' = sm_psd m /\ sm_nsoot m' = sm_nsoot m /\ sm_grow m' = sm_grow m /\ sm_oxid m' = sm_oxid m /\ sm_coag m' = sm_coag m /\
  sm_tar m' = sm_tar m /\ sm_mBins m' = sm_mBins m /\ sm_sources m' = sm_sources m.
Proof. unfold storeNucl. destruct m as [? ? ? ? ? ? ? ? ? ? ? p]; destruct p; destruct e as [[|? [|? ?]]|]; repeat split. Qed.

Lemma outM_rest k g m i eff : let m' := outM k g m i eff in
  sm_psd m' = sm_psd m /\ sm_nsoot m' = sm_nsoot m /\ sm_grow m' = sm_grow m /\ sm_oxid m' = sm_oxid m /\ sm_coag m' = sm_coag m /\
  sm_tar m' = sm_tar m /\ sm_mBins m' = sm_mBins m /\ sm_sources m' = sm_sources m.
Proof. unfold outM. destruct (isP k); [apply storeNucl_rest|repeat split]. Qed.
Lemma outM_GOC k g m i eff : hasGOC m k -> hasGOC (outM k g m i eff) k.
Proof. destruct (outM_rest k g m i eff) as (_ & _ & E1 & E2 & E3 & _). intros (A & B & C). unfold hasGOC. rewrite E1, E2, E3. auto. Qed.
Lemma outM_view k g m i eff : viewOf (outM k g m i eff) = viewOf m.
Proof. destruct (outM_rest k g m i eff) as (E0 & E1 & _ & _ & _ & _ & E3 & _). unfold viewOf. now rewrite E0, E1, E3. Qed.
Lemma outS_rest k g s : wts (outS k g s) = wts s /\ absc (outS k g s) = absc s /\ sootVar (outS k g s) = sootVar s.
Proof. unfold outS. destruct (isP k); repeat split. Qed.
Lemma outS_valid k s g soot i : valid s g soot -> valid (outS k g s) (oGas (nucl k g i)) soot.
Proof. intros V. unfold outS, nucl. destruct (isP k); cbn [oGas]; auto. apply valid_cMin; auto. eapply pahCMin_pos; eauto. Qed.
Lemma kernel_out k g i a b : kernel k (oGas (nucl k g i)) a b = kernel k g a b.
Proof. unfold nucl. destruct (isP k); reflexivity. Qed.
Lemma kgrow_out k g i a b : kgrow k (oGas (nucl k g i)) a b = kgrow k g a b.
Proof. unfold nucl. destruct (isP k); reflexivity. Qed.
Lemma koxid_out k g i a b : koxid k (oGas (nucl k g i)) a b = koxid k g a b.
Proof. unfold nucl. destruct (isP k); reflexivity. Qed.
Lemma regular_out k g i a b : regular k g a b -> regular k (oGas (nucl k g i)) a b.
Proof. unfold nucl. destruct (isP k); auto. Qed.

Lemma isP_true k : isP k = true <-> mN k = N_PAH.
Proof. unfold isP. destruct (mN k); split; congruence. Qed.
Lemma isP_false k : isP k = false -> mN k <> N_PAH.
Proof. intros E K. apply isP_true in K. congruence. Qed.

Lemma okAll_any k : okAll k -> isP k = false -> okMechs k.
Proof.
  intros ([A|A] & B) E; [|exfalso; now apply (isP_false _ E)].
  split; [exact A|]. unfold gasOnly in A. unfold okAny. tauto.
Qed.
Lemma hasAll_mechs m k : hasAll m k -> isP k = false -> hasMechs m k.
Proof. intros (A & B) E. rewrite E in A. split; auto. Qed.

Lemma runNucl_all coll (m : model (N:=XR)) s g soot k i eff : valid s g soot -> hasAll m k -> okAll k -> 0 <= i ->
  (isP k = true -> coll (with_cMin s (Fin (pahCMin g))) (Fin (dimerMass g)) = Ok (Fin i, eff)) ->
  runNucl coll m s = Ok (Fin (oJ (nucl k g i)), outM k g m i eff, outS k g s).
Proof.
  intros V HM OM Hi EC. destruct (isP k) eqn:E.
  - unfold nucl, outM, outS. rewrite E. cbn [oJ]. unfold runNucl, nuclRate.
    destruct HM as (HN & _). rewrite E in HN. destruct HN as (HN & _). rewrite HN.
    rewrite (nuclPAH_val s g soot V coll (sm_nucl m) i eff Hi (EC eq_refl)). reflexivity.
  - unfold nucl, outM, outS. rewrite E. cbn [oJ]. eapply runNucl_val; eauto using hasAll_mechs, okAll_any.
Qed.

(** the object after a call *)
Lemma pahObj_ok g nu i : pahObject nu -> pahObject (pahObj g nu i).
Proof.
  intros (A & B & C & D). unfold pahObject, pahObj. cbn [nu_class nu_mech nu_ratios]. do 2 (split; [assumption|]).
  unfold pahRatios, ratioTable. cbn [fold_left fst snd]. split; [rewrite !upd_length; exact C|].
  intros sp K1 K2. rewrite !nth_error_upd. destruct sp; try congruence; exact (D _ K1 K2).
Qed.

Lemma outM_all k g m i eff : hasAll m k -> hasAll (outM k g m i eff) k.
Proof.
  intros (A & B). split; [|now apply outM_GOC]. unfold outM. destruct (isP k) eqn:E; auto. rewrite storeNucl_nucl. now apply pahObj_ok.
Qed.
Lemma outM_isPAH k g m i eff : hasAll m k -> isPAH (outM k g m i eff) = isP k.
Proof.
  intros H. apply (outM_all k g m i eff) in H. destruct H as (A & _). unfold isPAH. destruct (isP k) eqn:E.
  - destruct A as (_ & A & _). now rewrite A.
  - rewrite A. cbn [newNucl nu_mech]. exact E.
Qed.
Lemma outM_dimer k g m i eff : isP k = true ->
  mDimer (sm_nucl (outM k g m i eff)) = Fin (oMass (nucl k g i)) /\ nDimer (sm_nucl (outM k g m i eff)) = Fin (oConc (nucl k g i)).
Proof. intros E. unfold outM, nucl. rewrite E, storeNucl_nucl. split; reflexivity. Qed.
Lemma outM_off k g m i eff : hasAll m k -> nuclOn (outM k g m i eff) = false -> oJ (nucl k g i) = 0.
Proof.
  intros H K. unfold nuclOn in K. destruct H as (A & _). unfold nucl, outM in *. destruct (isP k) eqn:E.
  - rewrite storeNucl_nucl in K. cbn [pahObj nu_mech] in K. destruct A as (_ & A & _). rewrite A in K. discriminate.
  - rewrite A in K. cbn [newNucl nu_mech] in K. cbn [oJ]. unfold Jnuc. destruct (mN k); try discriminate. reflexivity.
Qed.
Lemma outM_pah k g m i eff : isP k = true -> nu_pah (sm_nucl (outM k g m i eff)) = map (fun sp => Fin (- pahLoss g sp * pahMass sp)) allPah.
Proof. intros E. unfold outM. rewrite E, storeNucl_nucl. reflexivity. Qed.

Lemma pah_gas g nu i N1 : pahObject nu ->
  holdsGas (getNucleationGasRates (pahObj g nu i) (Fin N1) (zeros gasSize))
    (fun sp => match sp with H2 => N1 * (pahHMin g / 2 / pahCMin g) * molarMass H2 / massC | _ => 0 end).
Proof.
  intros (A & B & C & D). unfold getNucleationGasRates, addGasRates. split; [rewrite map_length, seq_length; reflexivity|].
  intros sp. rewrite nth_error_seqmap by apply gasIdx_lt. f_equal.
  assert (Z0 : nth (gasIdx sp) (@zeros XR gasSize) (nZ 0) = Fin 0) by (destruct sp; reflexivity).
  rewrite Z0. destruct (Nat.eqb (gasIdx sp) (gasIdx C_)) eqn:EC.
  { destruct sp; try discriminate. reflexivity. }
  assert (R1 : nth (gasIdx C_) (nu_ratios (pahObj g nu i)) (nZ 0) = Fin 1).
  { apply nth_error_nth. unfold pahObj, pahRatios, ratioTable. cbn [nu_ratios fold_left fst snd]. rewrite !nth_error_upd, upd_length, C. reflexivity. }
  rewrite R1.
  assert (R2 : nth (gasIdx sp) (nu_ratios (pahObj g nu i)) (nZ 0) = Fin (match sp with H2 => pahHMin g / 2 / pahCMin g | _ => 0 end)).
  { apply nth_error_nth. destruct (Nat.eqb (gasIdx sp) (gasIdx H2)) eqn:EH.
    - destruct sp; try discriminate. unfold pahObj, pahRatios, ratioTable. cbn [nu_ratios fold_left fst snd]. rewrite !nth_error_upd, upd_length, C. reflexivity.
    - destruct (pahObj_ok g nu i (conj A (conj B (conj C D)))) as (_ & _ & _ & D').
      rewrite D' by (intros ->; discriminate). destruct sp; try discriminate; reflexivity. }
  rewrite R2. change (nth (gasIdx sp) (@gasSpMW XR) (nZ 0)) with (@MWof XR sp).
  xsimp. vals. rewrite ?rMW_val. f_equal. pose proof massC_pos. generalize (pahHMin g / 2 / pahCMin g); intros r. destruct sp; try discriminate; field; nz.
Qed.

Lemma gasSrc_all k g m i eff G1 X1 : hasAll m k -> okAll k ->
  holdsGas (gasSrc (outM k g m i eff) (Fin (oN1 (nucl k g i))) (Fin G1) (Fin X1))
    (fun sp => nuclPart k g (nucl k g i) sp + growGas (mG k) G1 sp + oxidGas (mO k) (- X1) sp).
Proof.
  intros HM OM. destruct (isP k) eqn:E.
  - pose proof (outM_GOC k g m i eff (proj2 HM)) as (HG & HO & _).
    destruct OM as (_ & _ & OG & OO & _). destruct HM as (HN & _). rewrite E in HN.
    pose proof (pah_gas g (sm_nucl m) i (oN1 (nucl k g i)) HN) as (La & Ha).
    destruct (grow_each (mG k) G1 OG) as (Lb & Hb). destruct (oxid_each (mO k) X1 OO) as (Lc & Hc).
    unfold gasSrc. rewrite HG, HO. split; [rewrite map_length, seq_length; reflexivity|].
    intros sp. rewrite nth_error_seqmap by apply gasIdx_lt. f_equal.
    specialize (Ha sp). specialize (Hb sp). specialize (Hc sp).
    assert (EN : sm_nucl (outM k g m i eff) = pahObj g (sm_nucl m) i) by (unfold outM; rewrite E; apply storeNucl_nucl).
    rewrite EN. rewrite (nth_error_nth _ _ _ Ha), (nth_error_nth _ _ _ Hb), (nth_error_nth _ _ _ Hc). unfold nuclPart. rewrite E. reflexivity.
  - unfold nuclPart, outM. rewrite E. apply (gasSrc_val m k); auto using hasAll_mechs.
    apply ok_any. now apply okAll_any.
Qed.
