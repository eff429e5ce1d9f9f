(** C45: PAH nucleation when there is no PAH. *)
From Coq Require Import ZArith List Bool Reals Lra Lia.
From Verif Require Import Num Defs State Coag Nucl Growth Oxid Tar SootModel Momic Calls XR XRLemmas SpecChem SpecCoag SpecValid SpecRates SpecGas SpecPah SpecPsd SpecSect SpecQmom SpecLogn SpecMomic SpecSafe SpecBalance
  StateXR ValidProofs GasProofs RateProofs PsdProofs PahProofs PahRaw MonoProofs MonoMain ChemAll SectProofs SectMain SectCases SectFinal QmomRun QmomMain QmomFinal LognProofs LognFinal LognCases MomicProofs MomicMain MomicRun MomicFinal SafeProofs.
Import ListNotations.
Local Open Scope R_scope.

Lemma nopah_out k g i : isP k = true -> noPah g -> let o := nucl k g i in oJ o = 0 /\ oN1 o = 0 /\ oMass o = 0 /\ oConc o = 0 /\ forall sp, nuclPart k g o sp = 0.
Proof.
  intros EP HN o. pose proof (pahTotal_none g HN) as E0.
  assert (EM : dimerMass g = 0). { unfold dimerMass. rewrite E0. destruct (Rlt_dec 0 0); lra. }
  assert (EN : forall j, dimerConc g j = 0). { intros j. unfold dimerConc. rewrite E0. destruct (Rlt_dec 0 0); lra. }
  assert (EJ : oJ o = 0). { unfold o, nucl. rewrite EP. cbn [oJ]. unfold pahNuclRate. rewrite EN. ring. }
  assert (E1 : oN1 o = 0) by (unfold oN1; rewrite EJ; ring).
  split; [exact EJ|]. split; [exact E1|]. split; [unfold o, nucl; rewrite EP; exact EM|]. split; [unfold o, nucl; rewrite EP; apply EN|]. intros sp. unfold nuclPart. rewrite EP, E1. destruct sp; unfold Rdiv; ring.
Qed.
Lemma none_out k g i : let o := nucl (noNucl k) g i in oJ o = 0 /\ oN1 o = 0 /\ oMass o = 0 /\ oConc o = 0 /\ forall sp, nuclPart (noNucl k) g o sp = 0.
Proof. unfold nucl, nuclPart, oN1. cbn. repeat split; try reflexivity; ring. Qed.
Lemma holds_same v v' q q' : holdsGas v q -> holdsGas v' q' -> (forall sp, q sp = q' sp) -> v = v'.
Proof.
  intros (A & B) (A' & B') E. apply StateProofs.nth_error_ext. intros j. destruct (Nat.lt_ge_cases j 11) as [H|H].
  - destruct (gasIdx_inv j H) as (sp & ->). now rewrite B, B', E.
  - rewrite !(proj2 (nth_error_None _ _)); auto; lia.
Qed.
Lemma budget_same m m0 k g o o0 G X : gasBudget m k g o G X -> gasBudget m0 (noNucl k) g o0 G X ->
  (forall sp, nuclPart k g o sp = 0) -> (forall sp, nuclPart (noNucl k) g o0 sp = 0) -> gases m = gases m0.
Proof. intros A B C D. apply (holds_same _ _ _ _ A B). intros sp. cbn beta. rewrite C, D. reflexivity. Qed.
Lemma pah_zero k g old : isP k = true -> noPah g -> pahSourcesOf k g old = map (fun _ => Fin 0) allPah.
Proof. intros EP HN. unfold pahSourcesOf. rewrite EP. apply map_ext. intros sp. rewrite pahLoss0 by apply HN. f_equal. ring. Qed.
Lemma okAll_none k : okAll k -> okAll (noNucl k).
Proof. intros (_ & _ & A). split; [left; cbn; repeat split; try discriminate; auto|]. split; [discriminate|exact A]. Qed.

Lemma mono_nopah (m m0 : model (N:=XR)) s g k M0 M1 st eig :
  sm_psd m = P_MONO -> sm_psd m0 = P_MONO -> hasAll m k -> okAll k -> isP k = true -> noPah g -> hasAll m0 (noNucl k) -> noTar m -> noTar m0 ->
  valid s g [M0; M1] -> regular k g M0 M1 ->
  length (wts s) = 1%nat -> length (absc s) = 1%nat -> (M0 = 0 -> exists w x, wts s = [Fin w] /\ absc s = [Fin x]) ->
  exists m' s' m0' s0', setSourceTerms st eig m s = Ok (st, m', s') /\ setSourceTerms st eig m0 s = Ok (st, m0', s0') /\ likeWithout m' m0'.
Proof.
  intros HP HP0 HM OM EP HN HM0 HT HT0 V RG LW LA H0. assert (P0 : 0 <= M0) by (apply (v_sootpos _ _ _ V); now left). pose proof (okAll_none k OM) as OM0.
  destruct (Rle_lt_or_eq_dec _ _ P0) as [P|P].
  - destruct (mono_full m s g k M0 M1 st eig HP HM OM HT V P RG LW LA) as (m' & E & A & B & C & _).
    destruct (mono_full m0 s g (noNucl k) M0 M1 st eig HP0 HM0 OM0 HT0 V P RG LW LA) as (m0' & E0 & A0 & B0 & _).
    destruct (nopah_out k g (M0 * kernel k g (dimerMass g) (M1 / M0)) EP HN) as (T1 & T2 & T3 & T4 & T5).
    destruct (none_out k g (M0 * kernel (noNucl k) g (dimerMass g) (M1 / M0))) as (U1 & U2 & U3 & U4 & U5).
    do 4 eexists. split; [exact E|]. split; [exact E0|]. split; [|split].
    + rewrite A, A0. rewrite T1, T2, T4, U1, U2, U4. apply (f_equal2 cons); [reflexivity|]. apply (f_equal2 cons); [|reflexivity]. f_equal.
      change (kgrow (noNucl k) g M0 M1) with (kgrow k g M0 M1). change (koxid (noNucl k) g M0 M1) with (koxid k g M0 M1). ring.
    + exact (budget_same _ _ _ _ _ _ _ _ B B0 T5 U5).
    + rewrite C. now apply pah_zero.
  - destruct (H0 (eq_sym P)) as (w & x & EW & EX).
    pose proof (mono_run m s g k M0 M1 w x st eig HP HM OM HT V RG EW EX) as K. cbv zeta in K. destruct K as (m' & E & A & B & C & _).
    pose proof (mono_run m0 s g (noNucl k) M0 M1 w x st eig HP0 HM0 OM0 HT0 V RG EW EX) as K. cbv zeta in K. destruct K as (m0' & E0 & A0 & B0 & _).
    match type of B with context [nucl k g ?i] => destruct (nopah_out k g i EP HN) as (T1 & T2 & T3 & T4 & T5) end.
    match type of B0 with context [nucl (noNucl k) g ?i] => destruct (none_out k g i) as (U1 & U2 & U3 & U4 & U5) end.
    do 4 eexists. split; [exact E|]. split; [exact E0|]. split; [|split].
    + rewrite A, A0. unfold monoSources. rewrite T1, T2, T4, U1, U2, U4. apply (f_equal2 cons); [reflexivity|]. apply (f_equal2 cons); [|reflexivity]. f_equal.
      change (kgrow (noNucl k) g M0 M1) with (kgrow k g M0 M1). change (koxid (noNucl k) g M0 M1) with (koxid k g M0 M1). ring.
    + exact (budget_same _ _ _ _ _ _ _ _ B B0 T5 U5).
    + rewrite C. now apply pah_zero.
Qed.
Lemma qmom_small (m : model (N:=XR)) s g k soot p eig st r : readyQmom m s g k soot p -> setSourceTerms st eig m s = Ok r -> mC k = C_NONE \/ (p <= 17)%nat.
Proof.
  intros RD E. destruct (r_nodes m s g k soot p eig RD) as (w & x & EN & Lw & Lx & NW & NX & _).
  pose proof RD as (HQ & HM & OM & V & L & RG). destruct (coagOn m) eqn:On.
  - right. destruct (Nat.le_gt_cases p 17); [assumption|]. exfalso.
    rewrite (q_throw m s g k soot p eig w x HQ HM OM V L RG EN Lw Lx NW NX st On) in E by lia. discriminate.
  - left. destruct OM as (_ & _ & _ & _ & OC & _). now apply (coag_off_k m).
Qed.
Lemma qmom_nopah (m m0 : model (N:=XR)) s g k soot p eig st r m' s' :
  readyQmom m s g k soot p -> isP k = true -> noPah g -> readyQmom m0 s g (noNucl k) soot p -> setSourceTerms st eig m s = Ok (r, m', s') ->
  exists m0' s0', setSourceTerms st eig m0 s = Ok (r, m0', s0') /\ likeWithout m' m0'.
Proof.
  intros RD EP HN RD0 E. pose proof (qmom_small m s g k soot p eig st _ RD E) as HC.
  destruct (r_nodes m s g k soot p eig RD) as (w & x & EN & Lw & Lx & NW & NX & _).
  destruct (r_call m s g k soot p eig st RD HC w x EN Lw Lx NW NX) as (m2 & s2 & E2 & _ & A & B & C & _). rewrite E in E2. injection E2 as -> -> _.
  destruct (r_call m0 s g (noNucl k) soot p eig st RD0 HC w x EN Lw Lx NW NX) as (m3 & s3 & E3 & _ & A0 & B0 & _).
  destruct (nopah_out k g (nodeHits k g w x) EP HN) as (T1 & T2 & T3 & T4 & T5). destruct (none_out k g (nodeHits (noNucl k) g w x)) as (U1 & U2 & U3 & U4 & U5).
  exists m3, s3. split; [exact E3|]. split; [|split].
  - rewrite A, A0. apply map_ext. intros j. f_equal. unfold qmomSource, condense. rewrite T1, T4, U1, U4.
    change (smoluchowski (noNucl k) g w x j) with (smoluchowski k g w x j).
    change (kgrow (noNucl k)) with (kgrow k). change (koxid (noNucl k)) with (koxid k). ring.
  - exact (budget_same _ _ _ _ _ _ _ _ B B0 T5 U5).
  - rewrite C. now apply pah_zero.
Qed.
Lemma sect_nopah m m0 m' m0' s s' s0' g k b n F c st st' st0' eig :
  isSect m b F -> isSect m0 b F -> goodBins b -> hasAll m k -> hasAll m0 (noNucl k) -> okAll k -> isP k = true -> noPah g -> valid s g n -> length n = length b ->
  regular k g (number n) (mass b n) -> located st F c -> setSourceTerms st eig m s = Ok (st', m', s') -> setSourceTerms st eig m0 s = Ok (st0', m0', s0') ->
  st' = st0' /\ likeWithout m' m0'.
Proof.
  intros HS HS0 G HM HM0 OM EP HN V Ln RG HC HE HE0.
  destruct (sect_result m m' s s' g k b n F c st st' eig HS G HM OM V Ln RG HC HE) as (A & B & C & _ & _ & _ & D).
  destruct (sect_result m0 m0' s s0' g (noNucl k) b n F c st st0' eig HS0 G HM0 (okAll_none k OM) V Ln RG HC HE0) as (A0 & B0 & _ & _ & _ & _ & D0).
  destruct (nopah_out k g (dimerHits k g b n) EP HN) as (T1 & T2 & T3 & T4 & T5). destruct (none_out k g (dimerHits (noNucl k) g b n)) as (U1 & U2 & U3 & U4 & U5).
  split. { rewrite D, D0. unfold coagOn. destruct HM as (_ & _ & _ & EC). destruct HM0 as (_ & _ & _ & EC0). now rewrite EC, EC0. }
  split; [|split].
  - rewrite A, A0. f_equal. apply map_ext. intros j. unfold sectSource. rewrite T2, U2.
    assert (EZ : forall kk gg o, oConc o = 0 -> moveUp b (condensed kk gg b n o) j = 0).
    { intros kk gg o Z. unfold moveUp, condensed. rewrite Z. destruct (Nat.eqb j 0), (Nat.eqb (S j) (length b)); unfold Rdiv; ring. }
    rewrite !EZ by assumption. reflexivity.
  - exact (budget_same _ _ _ _ _ _ _ _ B B0 T5 U5).
  - rewrite C. now apply pah_zero.
Qed.

(** the interpolative model *)
Lemma chem_run (m : model (N:=XR)) s g k soot i eff coll M0 M1 : valid s g soot -> hasAll m k -> runNucl coll m s = Ok (Fin (oJ (nucl k g i)), outM k g m i eff, outS k g s) ->
  seesMoments (viewOf m) soot M0 M1 -> regular k g M0 M1 ->
  chemRates coll m s = Ok (Fin (oJ (nucl k g i)), Fin (kgrow k g M0 M1), Fin (koxid k g M0 M1), outM k g m i eff, outS k g s).
Proof.
  intros V HM EJ SM RG. unfold chemRates. rewrite EJ. cbn [bind].
  pose proof (outS_valid k s g soot i V) as V2. pose proof (outM_GOC k g m i eff (proj2 HM)) as HG.
  assert (SM2 : seesMoments (viewOf (outM k g m i eff)) soot M0 M1) by (rewrite outM_view; exact SM).
  pose proof (regular_out k g i M0 M1 RG) as RG2.
  rewrite (grow_val _ _ _ _ _ _ _ V2 HG SM2 RG2). cbn [bind].
  rewrite (oxid_val _ _ _ _ _ _ _ V2 HG SM2 RG2). cbn [bind]. now rewrite kgrow_out, koxid_out.
Qed.
Lemma wp_any {A} (r : res A) : SafeProofs.wp false false r (fun _ => True) -> exists a, r = Ok a.
Proof. destruct r as [a|e|u]; cbn; [eauto|discriminate|destruct u; discriminate || contradiction]. Qed.
Lemma bracket_inf (p6 : list xr) c a0 a1 a2 a3 : 0 < c -> 0 < a0 -> 0 < a1 -> 0 < a2 -> 0 < a3 ->
  vget p6 0 = Ok (Fin a0) -> vget p6 1 = Ok (Fin a1) -> vget p6 2 = Ok (Fin a2) -> vget p6 3 = Ok (Fin a3) ->
  contBracket (N:=XR) (Fin 0) (Fin c) p6 0 = Ok PInf.
Proof.
  intros Hc H0 H1 H2 H3 E0 E1 E2 E3. unfold contBracket. cbn [Nat.add]. change (@num XR) with xr in *. rewrite E0, E1, E2, E3. cbn [bind].
  assert (W2 : massPow (N:=XR) (Fin 0) 2 = Fin 0) by (unfold massPow; change (@npow XR) with xpow; xsimp; apply xpow_0pos; lra).
  assert (W3 : massPow (N:=XR) (Fin 0) (-2) = PInf) by (unfold massPow; change (@npow XR) with xpow; xsimp; apply xpow_0neg; negs; lra).
  assert (W4 : massPow (N:=XR) (Fin 0) (-4) = PInf) by (unfold massPow; change (@npow XR) with xpow; xsimp; apply xpow_0neg; negs; lra).
  rewrite W2, W3, W4. f_equal. change (@nZ XR 2) with (Fin 2). change (@nmul XR) with xmul. change (@nadd XR) with xadd.
  assert (XI : forall a, 0 < a -> xmul PInf (Fin a) = PInf). { intros a Ha. unfold xmul. unfold signed. destruct (Rlt_dec 0 a); [reflexivity|]. exfalso; lra. }
  assert (XJ : xmul (Fin c) PInf = PInf). { unfold xmul, signed. destruct (Rlt_dec 0 c); [reflexivity|]. exfalso; lra. }
  rewrite !XI by auto. repeat match goal with |- context [xmul (Fin ?u) (Fin ?v)] => change (xmul (Fin u) (Fin v)) with (Fin (u * v)) end. cbn [xadd]. rewrite XJ. reflexivity.
Qed.
Lemma momic_nopah (m : model (N:=XR)) s g k M st eig : readyMomic m s g k M -> allPos M -> isP k = true -> noPah g ->
  exists m' s', setSourceTerms st eig m s = Ok (st, m', s') /\ length (soots m') = length M /\
    nth_error (soots m') 0 = Some (Fin (momCoag k g (momicMom M) 0)) /\
    (forall r, (1 <= r < length M)%nat -> nth_error (soots m') r = Some NaN) /\ pahs m' = map (fun _ => Fin 0) allPah.
Proof.
  intros (HP & (row & p & q & x0 & EP & LP & LQ) & HM & OM & HC & V & RG & L) AP IP HN. pose proof OM as (_ & _ & _ & _ & _ & OF).
  destruct (moments_val M (mkInterp (length M) row p q x0) L AP eq_refl LP LQ) as (p6 & q6 & EM & L6 & L7 & H6 & H7).
  assert (ED : momicData m = mkInterp (length M) row p q x0) by (unfold momicData; now rewrite EP).
  rewrite <- ED in EM. rewrite <- (v_soot _ _ _ V) in EM.
  match type of EM with _ = Ok ?D => set (d := D) in * end.
  set (m1 := with_priv m (PrivMomic d)). assert (HM1 : hasAll m1 k) by exact HM.
  destruct (nopah_out k g 0 IP HN) as (T1 & T2 & T3 & T4 & T5). set (o := nucl k g 0) in *.
  assert (DM : dimerMass g = 0). { unfold dimerMass. rewrite (pahTotal_none g HN). destruct (Rlt_dec 0 0); lra. }
  assert (IPM : isPAH m1 = true /\ nu_class (sm_nucl m1) = N_PAH). { destruct HM as (A & _). rewrite IP in A. destruct A as (B & A & _). unfold isPAH, m1. cbn [sm_nucl with_priv]. rewrite A. auto. }
  destruct IPM as (IPM & CL).
  pose proof (outS_valid k s g _ 0 V) as V2. fold o in V2.
  assert (EC : exists Ib, collMOMIC m1 (with_cMin s (Fin (pahCMin g))) (Fin (dimerMass g)) = Ok (Ib, [Fin 0])).
  { unfold collMOMIC. rewrite IPM. cbn [negb]. unfold m1 at 1 2. unfold momicData. cbn [sm_priv with_priv id_Mp6 id_Mq6 d].
    destruct (wp_any _ (bracket_safe (N:=XR) (t:=false) (b:=false) (Fin (dimerMass g)) (getKcp (with_cMin s (Fin (pahCMin g)))) p6 L6)) as (br & ->). cbn [bind].
    destruct (wp_any _ (g_grid_safe (N:=XR) (t:=false) (b:=false) (Fin (dimerMass g)) q6 1 L7 ltac:(lia))) as (gg & ->). cbn [bind]. rewrite DM. eauto. }
  destruct EC as (Ib & EC).
  assert (EJ : runNucl (collMOMIC m1) m1 s = Ok (Fin (oJ o), outM k g m1 0 [Fin 0], outS k g s)).
  { unfold runNucl, nuclRate. rewrite CL. rewrite (nuclPAH_none s g M (collMOMIC m1) (sm_nucl m1) Ib [Fin 0] V HN EC). cbn [bind]. unfold outM, outS. rewrite IP, T1. reflexivity. }
  pose proof (chem_run m1 s g k M 0 [Fin 0] (collMOMIC m1) _ _ V HM1 EJ (sees_m m d M HP ltac:(lia)) RG) as ECH. fold o in ECH.
  assert (PF := momicMom_pos M).
  assert (ECND : forall r, (r < length M)%nat -> momicCnd (outM k g m1 0 [Fin 0]) (outS k g s) r = Ok (match r with O => Fin 0 | _ => NaN end)).
  { intros r Hr. unfold momicCnd. rewrite (outM_isPAH k g m1 0 _ HM1), IP. destruct r as [|r]; [reflexivity|]. cbn [andb Nat.leb].
    assert (EP2 : sm_priv (outM k g m1 0 [Fin 0]) = PrivMomic (mkInterp (length M) (id_diff0 d) p6 q6 (Some (Fin 0)))).
    { unfold outM. rewrite IP. reflexivity. }
    unfold momicData. rewrite EP2. cbn [id_mass id_Mp6 id_Mq6].
    destruct (outM_dimer k g m1 0 [Fin 0] IP) as (D1 & D2). fold o in D1, D2. rewrite D1, D2, T3, T4.
    rewrite (kslip_val _ _ _ V2), (kc_val _ _ _ V2).
    pose proof (H6 0%nat ltac:(unfold cntP; lia)) as B0. pose proof (H6 1%nat ltac:(unfold cntP; lia)) as B1. pose proof (H6 2%nat ltac:(unfold cntP; lia)) as B2. pose proof (H6 3%nat ltac:(unfold cntP; lia)) as B3.
    rewrite (bracket_inf p6 (kSlip (oGas o)) _ _ _ _ (kSlip_pos _ _ _ V2) (PF _) (PF _) (PF _) (PF _) B0 B1 B2 B3). cbn [bind].
    destruct (wp_any _ (g_grid_safe (N:=XR) (t:=false) (b:=false) (Fin 0) q6 (Z.of_nat (S r)) L7 ltac:(lia))) as (gg & ->). cbn [bind].
    rewrite nn_INR. f_equal. change (@nmul XR) with xmul. change (@nadd XR) with xadd. change (@ndiv XR) with xdiv.
    cbn [xmul]. rewrite !Rmult_0_r. rewrite signed_0. set (u := xmul _ gg). destruct u; reflexivity. }
  pose proof (coagRates_val (outS k g s) (oGas o) k M (length M) p6 q6 (momicMom M) V2 OF L PF H6 H7 (el M 0)) as ECO.
  rewrite <- (coag2 m1 g k 0 [Fin 0] HM1) in ECO. specialize (ECO ltac:(apply AP; unfold el; apply nth_In; lia) HC).
  destruct (call_part m s g k M 0 [Fin 0] HM OM HC V HP L d EM eq_refl ECH _ ECND _ ECO st eig) as (m' & A & B & C & D & _).
  exists m', (outS k g s). split; [exact A|]. split; [rewrite B, map_length, seq_length; reflexivity|]. split; [|split].
  - rewrite B, nth_error_seqmap by lia. f_equal. fold o. rewrite T1.
    assert (EC0 : nth 0 (map (fun r => Fin (momCoag k (oGas o) (momicMom M) r)) (seq 0 (length M))) (Fin 0) = Fin (momCoag k g (momicMom M) 0)).
    { rewrite (nth_table _ (length M) 0 (Fin 0)) by lia. unfold o. now rewrite momCoag_out. }
    refine (eq_trans (f_equal (fun z : @num XR => @nadd XR _ z) EC0) _). unfold surfOf. fin. f_equal. ring.
  - intros r Hr. rewrite B, nth_error_seqmap by lia. f_equal. destruct r as [|r]; [lia|]. reflexivity.
  - rewrite D. now apply pah_zero.
Qed.
