(** C69: elements in the sources of whole calls with PAH nucleation. *)
From Coq Require Import ZArith List Bool Reals Lra Lia.
From Verif Require Import Num Defs State Coag Nucl Growth Oxid Tar SootModel Momic Calls XR XRLemmas SpecChem SpecCoag SpecValid SpecRates SpecGas SpecPah SpecPsd SpecSect SpecQmom SpecLogn SpecMomic SpecSafe SpecBalance SpecCarbon
  CoagProofs StateXR ValidProofs GasProofs RateProofs PsdProofs PahProofs MonoProofs MonoMain PahMain ChemAll SectProofs SectMain SectFinal QmomRun QmomMain QmomFinal LognProofs LognMain LognFinal MomicMain MomicFinal SafeProofs BalanceMain MomicRun SectBins.
Import ListNotations.
Local Open Scope R_scope.

Lemma molar_pos sp : 0 < pahMolarMass sp.
Proof. unfold pahMolarMass, massC, massH. destruct sp; cbn [pahAtomsC pahAtomsH]; lra. Qed.
Lemma pahSum_ext f h : (forall sp, f sp = h sp) -> pahSum f = pahSum h.
Proof. intros E. unfold pahSum. f_equal. now apply map_ext. Qed.
Lemma pahElement_val at_ g : pahElement at_ (fun sp => - (pahLoss g sp * pahMass sp)) = - consumed at_ g.
Proof.
  unfold pahElement, consumed, Rdiv. rewrite Ropp_mult_distr_r, <- pahSum_scale. apply pahSum_ext. intros sp. unfold pahMass. pose proof (molar_pos sp). pose proof avo_pos. field. lra.
Qed.

Section B.
Context (m : model (N:=XR)) (s : state (N:=XR)) (g : gas) (soot : list R) (k : mechs) (i M0 M1 A B y : R) (old : list xr).
Context (V : valid s g soot) (OM : okAll k) (E : isP k = true) (SP : somePah g) (Hi : 0 <= i).
Let o := nucl k g i.
Context (HG : gasBudget m k g o (kgrow k g M0 M1 * A) (koxid k g M0 M1 * B)) (HP : pahs m = pahSourcesOf k g old).
Context (HY : y = oN1 o + oConc o * oMass o * i + kgrow k g M0 M1 * A - koxid k g M0 M1 * B).
Let PT : 0 < pahTotal g. Proof. exact (pahTotal_some s g soot V SP). Qed.

Lemma J_bounds : 0 < pahNuclRate g i <= pahTotal g / 4.
Proof.
  destruct (conc_steady s g soot V SP i Hi) as (PN & EQ & _).
  pose proof (betaSelf_pos (gT g) (dimerMass g) (v_Tpos _ _ _ V) (dimerMass_pos s g soot V PT)) as PB.
  unfold pahNuclRate. set (b := betaSelf _ _) in *. set (n := dimerConc g i) in *. assert (0 < n ^ 2) by now apply pow_lt.
  assert (0 < b * n ^ 2) by now apply Rmult_lt_0_compat. assert (0 <= i * n) by (apply Rmult_le_pos; lra). split; lra.
Qed.
Lemma moved : oN1 o + oConc o * oMass o * i = 1 / 2 * pahCarbon g + pahNuclRate g i * (gCMin g / pahTotal g) * (massC / avogadro).
Proof.
  destruct (C43_ s g soot V SP (fun _ _ => Ok (Fin i, [])) (newNucl (N:=XR) N_PAH) i [] eq_refl Hi eq_refl) as (nu' & s' & J & n & mD & c & EN & En & Em & Ec & _ & BB).
  unfold nuclRate in EN. cbn [nu_class newNucl] in EN. rewrite (nuclPAH_val s g _ V (fun _ _ => Ok (Fin i, [])) _ i [] Hi eq_refl) in EN. cbn [bind] in EN.
  assert (Q1 : J = pahNuclRate g i) by congruence. assert (Q2 : pahObj g (newNucl N_PAH) i = nu') by congruence.
  assert (Q3 : s' = with_cMin s (Fin (pahCMin g))) by congruence. subst s' nu' J. cbn [nDimer pahObj mDimer with_cMin cMin] in En, Em, Ec.
  assert (n = dimerConc g i) by congruence. assert (mD = dimerMass g) by congruence. assert (c = pahCMin g) by congruence. subst n mD c.
  rewrite <- BB. unfold o, nucl. rewrite E. unfold oN1, nucMass. cbn [oJ oGas oMass oConc gCMin gasCMin]. ring.
Qed.
Lemma carbon_kmol : pahCarbon g = massC * consumed pahAtomsC g.
Proof. unfold pahCarbon, consumed. rewrite pahSum_scale. unfold Rdiv. ring. Qed.
Lemma pah_budget : pahBudget m g y.
Proof.
  set (G := kgrow k g M0 M1 * A) in *. set (X := koxid k g M0 M1 * B) in *.
  exists (fun sp => nuclPart k g o sp + growGas (mG k) G sp + oxidGas (mO k) X sp), (fun sp => - (pahLoss g sp * pahMass sp)), (pahNuclRate g i).
  pose proof OM as (_ & _ & OG & OO & _).
  destruct (growGas_bal _ G OG ltac:(intros Z; unfold G; rewrite (kg_none _ _ _ _ Z); ring)) as (_ & _ & GC & GH & GO_).
  destruct (oxidGas_bal _ X OO ltac:(intros Z; unfold X; rewrite (ko_none _ _ _ _ Z); ring)) as (_ & _ & XC & XH & XO).
  assert (PM : 0 < massC) by (unfold massC; lra). pose proof avo_pos as PA.
  assert (PC : 0 < pahCMin g) by (eapply pahCMin_pos; eauto).
  assert (EH : pahHMin g = 2 * meanH g) by (unfold pahHMin; destruct (Rlt_dec 0 (pahTotal g)); lra).
  split; [exact HG|]. split. { rewrite HP. unfold pahSourcesOf. rewrite E. apply map_ext. intros. f_equal. ring. }
  split; [reflexivity|]. split; [exact J_bounds|]. rewrite !element_add, !pahElement_val.
  assert (NE : forall at_, element at_ (nuclPart k g o) = oN1 o * (pahHMin g / 2 / pahCMin g) / massC * IZR (at_ H2)).
  { intros at_. unfold element, total, nuclPart. rewrite E. unfold molarMass. cbn [atomsC atomsH atomsO]. unfold massC, massH, massO. field. lra. }
  rewrite !NE. cbn [atomsC atomsH atomsO].
  split; [lra|]. split.
  - pose proof moved as MV. rewrite carbon_kmol in MV. rewrite HY.
    replace (oN1 o + oConc o * oMass o * i + G - X) with ((1 / 2 * (massC * consumed pahAtomsC g) + pahNuclRate g i * (gCMin g / pahTotal g) * (massC / avogadro)) + G - X) by lra.
    assert (Q : element atomsC (growGas (mG k) G) = - (G / massC)) by lra. assert (Q2 : element atomsC (oxidGas (mO k) X) = - (- X / massC)) by lra. rewrite Q, Q2. field. lra.
  - assert (Q : element atomsH (growGas (mG k) G) = 0) by lra. assert (Q2 : element atomsH (oxidGas (mO k) X) = 0) by lra. rewrite Q, Q2, EH.
    unfold o, nucl. rewrite E. unfold oN1, nucMass. cbn [oJ oGas gCMin gasCMin]. field. lra.
Qed.
End B.

Lemma consumed_mean at_ g : 0 < pahTotal g -> pahSum (fun sp => pahLoss g sp * IZR (at_ sp)) / pahTotal g = consumed at_ g * avogadro / pahTotal g.
Proof. intros. unfold consumed. pose proof avo_pos. field. lra. Qed.
Lemma loss_nn s g soot : valid s g soot -> forall sp, 0 <= pahLoss g sp.
Proof. intros V sp. eapply pahLoss_nneg; eauto. Qed.
Lemma consumed_pos s g soot at_ : valid s g soot -> somePah g -> (forall sp, (1 <= at_ sp)%Z) -> 0 < consumed at_ g.
Proof.
  intros V SP H. pose proof (pahTotal_some s g soot V SP) as PT. unfold consumed. apply Rdiv_lt_0_compat; [|apply avo_pos].
  apply Rlt_le_trans with (pahTotal g); [exact PT|]. unfold pahTotal, pahSum, allPah. cbn [map sumR fold_right].
  assert (K : forall sp, pahLoss g sp <= pahLoss g sp * IZR (at_ sp)).
  { intros sp. rewrite <- (Rmult_1_r (pahLoss g sp)) at 1. apply Rmult_le_compat_l; [eapply loss_nn; eauto|]. apply IZR_le, H. }
  pose proof (K C10H8); pose proof (K C12H8); pose proof (K C12H10); pose proof (K C14H10); pose proof (K C16H10); pose proof (K C18H10). lra.
Qed.
Lemma budget_loses (s : state (N:=XR)) g soot m y : valid s g soot -> somePah g -> pahBudget m g y -> loses m g y.
Proof.
  intros V SP (q & p & J & HG & HP & _ & (J0 & J1) & _ & C & H). pose proof (pahTotal_some s g soot V SP) as PT. pose proof avo_pos as PA.
  exists q, p. split; [exact HG|]. split; [exact HP|].
  assert (PH : 0 < consumed pahAtomsH g) by (eapply consumed_pos; eauto; intros []; cbn; lia).
  assert (EM : meanH g = consumed pahAtomsH g * avogadro / pahTotal g) by now apply consumed_mean.
  split; [|split; [exact PH|]].
  - rewrite H, EM. replace (J * (2 * (consumed pahAtomsH g * avogadro / pahTotal g)) / avogadro) with (J * (2 * consumed pahAtomsH g / pahTotal g)) by (field; lra).
    apply Rle_trans with (- consumed pahAtomsH g + pahTotal g / 4 * (2 * consumed pahAtomsH g / pahTotal g)).
    + apply Rplus_le_compat_l. apply Rmult_le_compat_r; [|exact J1]. apply Rlt_le, Rdiv_lt_0_compat; lra.
    + replace (pahTotal g / 4 * (2 * consumed pahAtomsH g / pahTotal g)) with (1 / 2 * consumed pahAtomsH g) by (field; lra). lra.
  - intros L. rewrite C. assert (PC := v_cMinpos _ _ _ V).
    apply Rle_lt_trans with (- (1 / 2) * consumed pahAtomsC g + pahTotal g / 4 * (gCMin g / pahTotal g) / avogadro).
    + apply Rplus_le_compat_l. unfold Rdiv at 1 4. apply Rmult_le_compat_r; [apply Rlt_le, Rinv_0_lt_compat; lra|]. apply Rmult_le_compat_r; [|exact J1].
      apply Rlt_le, Rdiv_lt_0_compat; lra.
    + replace (pahTotal g / 4 * (gCMin g / pahTotal g) / avogadro) with (gCMin g / (4 * avogadro)) by (field; lra).
      assert (gCMin g / (4 * avogadro) < 1 / 2 * consumed pahAtomsC g); [|lra]. apply Rmult_lt_reg_r with (4 * avogadro); [lra|]. unfold Rdiv. rewrite Rmult_assoc, Rinv_l by lra. lra.
Qed.

Section Calls.
Context (m : model (N:=XR)) (s : state (N:=XR)) (g : gas) (k : mechs) (E : isP k = true) (SP : somePah g).
Lemma carbon_mono M0 M1 st eig : sm_psd m = P_MONO -> hasAll m k -> okAll k -> noTar m -> valid s g [M0; M1] -> 0 < M0 -> regular k g M0 M1 ->
  length (wts s) = 1%nat -> length (absc s) = 1%nat ->
  exists m' s' y, setSourceTerms st eig m s = Ok (st, m', s') /\ sourceIs m' 1 y /\ pahBudget m' g y.
Proof.
  intros HP HM OM HT V P RG LW LA. destruct (mono_full m s g k M0 M1 st eig HP HM OM HT V P RG LW LA) as (m' & EQ & A & B & C & _).
  eexists m', _, _. split; [exact EQ|]. split; [unfold sourceIs; rewrite A; reflexivity|].
  assert (Hi : 0 <= M0 * kernel k g (dimerMass g) (M1 / M0)). { apply Rmult_le_pos; [lra|]. destruct OM as (_ & _ & _ & _ & _ & OF). eapply kernel_nneg; eauto. }
  apply (pah_budget m' s g _ k _ M0 M1 _ _ _ _ V OM E SP Hi B C). 
  assert (OX : oMass (nucl k g (M0 * kernel k g (dimerMass g) (M1 / M0))) = dimerMass g) by (unfold nucl; rewrite E; reflexivity). rewrite !OX. ring.
Qed.
Lemma carbon_logn M0 M1 M2 st eig : readyLogn m s g k M0 M1 M2 -> 0 < M0 -> 0 < M1 ->
  exists m' s' y, setSourceTerms st eig m s = Ok (st, m', s') /\ sourceIs m' 1 y /\ pahBudget m' g y.
Proof.
  intros RD P0 P1. destruct (logn_run m s g k M0 M1 M2 st eig RD ltac:(auto)) as (m' & EQ & A & B & C & _).
  eexists m', _, _. split; [exact EQ|]. split; [unfold sourceIs; rewrite A; unfold lognSources; cbn [map nth_error]; reflexivity|].
  destruct RD as (_ & _ & OM & _ & V & _). rewrite !Rmult_assoc in B. pose proof OM as (_ & _ & _ & _ & _ & OF).
  assert (PD : 0 < dimerMass g) by (eapply dimerMass_pos; eauto; eapply pahTotal_some; eauto).
  assert (Hi : 0 < lognHits k g (dimerMass g) (mom M0 M1 M2) 0) by (apply (hits_gt s g k M0 M1 M2); auto).
  apply (pah_budget m' s g _ k _ M0 M1 _ _ _ _ V OM E SP (Rlt_le _ _ Hi) B C). rewrite E.
  assert (OX : oMass (nucl k g (lognHits k g (dimerMass g) (mom M0 M1 M2) 0)) = dimerMass g) by (unfold nucl; rewrite E; reflexivity). rewrite !OX. ring.
Qed.
Lemma carbon_qmom soot p eig st r m' s' : readyQmom m s g k soot p -> setSourceTerms st eig m s = Ok (r, m', s') ->
  exists y, sourceIs m' 1 y /\ pahBudget m' g y.
Proof.
  intros RD EQ. destruct (r_nodes m s g k soot p eig RD) as (w & x & EN & Lw & Lx & NW & NX & _).
  assert (HC : mC k = C_NONE \/ (p <= 17)%nat).
  { pose proof RD as (HQ & HM & OM & V & L & RG). destruct (coagOn m) eqn:On.
    - right. destruct (Nat.le_gt_cases p 17); [assumption|]. exfalso.
      rewrite (q_throw m s g k soot p eig w x HQ HM OM V L RG EN Lw Lx NW NX st On) in EQ by lia. discriminate.
    - left. destruct OM as (_ & _ & _ & _ & OC & _). now apply (coag_off_k m). }
  destruct (r_call m s g k soot p eig st RD HC w x EN Lw Lx NW NX) as (m2 & s2 & E2 & _ & A & B & C & _). rewrite EQ in E2. injection E2 as -> -> _.
  pose proof RD as ((_ & _ & P1 & _) & _ & OM & V & _). eexists. split.
  { unfold sourceIs. rewrite A. rewrite nth_error_seqmap by lia. reflexivity. }
  rewrite !Rmult_assoc in B. pose proof OM as (_ & _ & _ & _ & _ & OF).
  assert (Hi : 0 <= nodeHits k g w x). { unfold nodeHits. apply Sum_nneg. intros j Hj. apply Rmult_le_pos; [eapply kernel_nneg; eauto|]. apply NW. now apply nth_In. }
  apply (pah_budget m2 s g _ k _ (el soot 0) (el soot 1) _ _ _ _ V OM E SP Hi B C). unfold qmomSource. rewrite smol_1. unfold condense.
  assert (OX : oMass (nucl k g (nodeHits k g w x)) = dimerMass g) by (unfold nucl; rewrite E; reflexivity). rewrite !OX.
  change (INR 1) with 1. cbn [pow]. unfold oN1. replace (Sum (length w) (fun i => kernel k g (dimerMass g) (el x i) * el w i * el x i ^ (1 - 1))) with (nodeHits k g w x).
  2: { unfold nodeHits. apply Sum_ext. intros j _. change (1 - 1)%nat with O. cbn [pow]. ring. }
  ring.
Qed.
Lemma carbon_momic M st eig : readyMomic m s g k M -> allPos M ->
  exists m' s' y, setSourceTerms st eig m s = Ok (st, m', s') /\ sourceIs m' 1 y /\ pahBudget m' g y.
Proof.
  intros RD AP. destruct (momic_run m s g k M st eig RD AP ltac:(auto)) as (m' & EQ & A & B & C & _).
  pose proof RD as (_ & _ & _ & OM & _ & V & _ & L). eexists m', _, _. split; [exact EQ|]. split.
  { unfold sourceIs. rewrite A. rewrite nth_error_seqmap by lia. reflexivity. }
  rewrite !Rmult_assoc in B. pose proof OM as (_ & _ & _ & _ & _ & OF).
  assert (PD : 0 < dimerMass g) by (eapply dimerMass_pos; eauto; eapply pahTotal_some; eauto).
  assert (PF := momicMom_pos M).
  set (i := momHits k g (dimerMass g) (momicMom M) 1) in *.
  assert (Hi : 0 < i). { unfold i, momHits. apply harm_pos; [apply (condFM_pos s g k M)|apply (condCo_pos s g M)]; auto. }
  apply (pah_budget m' s g _ k _ (el M 0) (el M 1) _ _ _ _ V OM E SP (Rlt_le _ _ Hi) B C). unfold momicSource, condPart. rewrite E.
  assert (OX : oMass (nucl k g i) = dimerMass g) by (unfold nucl; rewrite E; reflexivity). rewrite !OX. fold i.
  unfold surfPart, momCoag, oN1. change (INR 1) with 1. cbn [pow]. replace (1 - 1 / 3) with (2 / 3) by field. destruct (mC k); ring.
Qed.
Lemma carbon_sect m' s' b n F c st st' eig :
  isSect m b F -> goodBins b -> hasAll m k -> okAll k -> valid s g n -> length n = length b ->
  regular k g (number n) (mass b n) -> located st F c -> setSourceTerms st eig m s = Ok (st', m', s') ->
  exists q, soots m' = map Fin q /\ length q = length b /\ pahBudget m' g (mass b q).
Proof.
  intros HS G HM OM V Ln RG HC HE. destruct (C29_ m m' s s' g k b n F c st st' eig HS G HM OM V Ln RG HC HE) as (q & A & LQ & B & C & D).
  exists q. split; [exact A|]. split; [exact LQ|]. pose proof OM as (_ & _ & _ & _ & _ & OF).
  assert (Hi : 0 <= dimerHits k g b n). { unfold dimerHits. apply Sum_nneg. intros j Hj. apply Rmult_le_pos; [eapply kernel_nneg; eauto|]. apply (v_sootpos _ _ _ V). apply nth_In. lia. }
  apply (pah_budget m' s g _ k _ (number n) (mass b n) _ _ _ _ V OM E SP Hi C D). rewrite B.
  assert (OX : oMass (nucl k g (dimerHits k g b n)) = dimerMass g) by (unfold nucl; rewrite E; reflexivity). rewrite !OX. fold (dimerHits k g b n). ring.
Qed.
End Calls.
