(** C21: gas and soot mass sources of whole calls. *)
From Coq Require Import ZArith List Bool Reals Lra Lia.
From Verif Require Import Num Defs State Coag Nucl Growth Oxid Tar SootModel Momic Calls XR XRLemmas SpecChem SpecCoag SpecValid SpecRates SpecGas SpecPah SpecPsd SpecSect SpecQmom SpecLogn SpecMomic SpecSafe SpecBalance
  StateXR ValidProofs GasProofs RateProofs PsdProofs PahProofs MonoProofs MonoMain ChemAll SectProofs SectMain SectFinal QmomRun QmomMain QmomFinal LognFinal MomicFinal SafeProofs.
Import ListNotations.
Local Open Scope R_scope.

Lemma budget_balanced m k g i M0 M1 A B x : okAll k -> isP k = false ->
  gasBudget m k g (nucl k g i) (kgrow k g M0 M1 * A) (koxid k g M0 M1 * B) -> x = oN1 (nucl k g i) + kgrow k g M0 M1 * A - koxid k g M0 M1 * B -> massBalanced m x.
Proof.
  intros OM NP H ->. exists (reactions k (oN1 (nucl k g i)) (kgrow k g M0 M1 * A) (koxid k g M0 M1 * B)). split.
  - apply (holdsGas_ext _ _ _ H). intros sp. unfold nuclPart, reactions. rewrite NP. reflexivity.
  - destruct (reactions_bal k (oN1 (nucl k g i)) (kgrow k g M0 M1 * A) (koxid k g M0 M1 * B) (ok_any _ (okAll_any _ OM NP))) as (T & _ & E).
    + intros X. unfold oN1, nucl. rewrite NP. cbn [oJ oGas]. rewrite (J_none _ _ X). ring.
    + intros X. rewrite (kg_none _ _ _ _ X). ring.
    + intros X. rewrite (ko_none _ _ _ _ X). ring.
    + split; [rewrite T; ring|exact E].
Qed.
Lemma out_noP k g i : isP k = false -> oMass (nucl k g i) = 0 /\ oConc (nucl k g i) = 0.
Proof. intros E. unfold nucl. rewrite E. auto. Qed.

Lemma mono_bal (m : model (N:=XR)) s g k M0 M1 st eig :
  sm_psd m = P_MONO -> hasAll m k -> okAll k -> isP k = false -> noTar m -> valid s g [M0; M1] -> regular k g M0 M1 ->
  length (wts s) = 1%nat -> length (absc s) = 1%nat -> (M0 = 0 -> exists w x, wts s = [Fin w] /\ absc s = [Fin x]) ->
  exists m' s' y, setSourceTerms st eig m s = Ok (st, m', s') /\ sourceIs m' 1 y /\ massBalanced m' y.
Proof.
  intros HP HM OM NP HT V RG LW LA H0. assert (P0 : 0 <= M0) by (apply (v_sootpos _ _ _ V); now left).
  destruct (Rle_lt_or_eq_dec _ _ P0) as [P|P].
  - destruct (mono_full m s g k M0 M1 st eig HP HM OM HT V P RG LW LA) as (m' & E & A & B & _). destruct (out_noP k g (M0 * kernel k g (dimerMass g) (M1 / M0)) NP) as (T2 & T3).
    eexists; eexists; eexists. split; [exact E|]. split; [unfold sourceIs; rewrite A; reflexivity|].
    apply (budget_balanced _ _ _ _ _ _ _ _ _ OM NP B). rewrite T2, T3. ring.
  - destruct (H0 (eq_sym P)) as (w & x & EW & EX). pose proof (mono_run m s g k M0 M1 w x st eig HP HM OM HT V RG EW EX) as K. cbv zeta in K. destruct K as (m' & E & A & B & _).
    eexists; eexists; eexists. split; [exact E|]. split; [unfold sourceIs; rewrite A; reflexivity|].
    match type of B with context [nucl k g ?i] => destruct (out_noP k g i NP) as (T2 & T3) end.
    apply (budget_balanced _ _ _ _ _ _ _ _ _ OM NP B). rewrite T2, T3. ring.
Qed.
Lemma logn_bal (m : model (N:=XR)) s g k M0 M1 M2 st eig : readyLogn m s g k M0 M1 M2 -> isP k = false ->
  exists m' s' y, setSourceTerms st eig m s = Ok (st, m', s') /\ sourceIs m' 1 y /\ massBalanced m' y.
Proof.
  intros RD NP. destruct (logn_run m s g k M0 M1 M2 st eig RD ltac:(congruence)) as (m' & E & A & B & _).
  eexists; eexists; eexists. split; [exact E|]. split; [unfold sourceIs; rewrite A; unfold lognSources; cbn [map nth_error]; reflexivity|].
  destruct RD as (_ & _ & OM & _). rewrite !Rmult_assoc in B. apply (budget_balanced _ _ _ _ _ _ _ _ _ OM NP B). rewrite NP. ring.
Qed.
Lemma qmom_bal (m : model (N:=XR)) s g k soot p eig st r m' s' : readyQmom m s g k soot p -> isP k = false -> setSourceTerms st eig m s = Ok (r, m', s') ->
  exists y, sourceIs m' 1 y /\ massBalanced m' y.
Proof.
  intros RD NP E. destruct (r_nodes m s g k soot p eig RD) as (w & x & EN & Lw & Lx & NW & NX & _).
  assert (HC : mC k = C_NONE \/ (p <= 17)%nat).
  { pose proof RD as (HQ & HM & OM & V & L & RG). destruct (coagOn m) eqn:On.
    - right. destruct (Nat.le_gt_cases p 17); [assumption|]. exfalso.
      rewrite (q_throw m s g k soot p eig w x HQ HM OM V L RG EN Lw Lx NW NX st On) in E by lia. discriminate.
    - left. destruct OM as (_ & _ & _ & _ & OC & _). now apply (coag_off_k m). }
  destruct (r_call m s g k soot p eig st RD HC w x EN Lw Lx NW NX) as (m2 & s2 & E2 & _ & A & B & _). rewrite E in E2. injection E2 as -> -> _.
  pose proof RD as ((_ & _ & P1 & _) & _). eexists. split.
  { unfold sourceIs. rewrite A. rewrite nth_error_seqmap by lia. reflexivity. }
  destruct (out_noP k g (nodeHits k g w x) NP) as (T2 & T3). pose proof RD as (_ & _ & OM & _). rewrite !Rmult_assoc in B. apply (budget_balanced _ _ _ _ _ _ _ _ _ OM NP B). unfold qmomSource. rewrite smol_1.
  unfold condense. rewrite ?T2, ?T3. unfold oN1. change (INR 1) with 1. cbn [pow]. ring.
Qed.
Lemma momic_bal (m : model (N:=XR)) s g k M st eig : readyMomic m s g k M -> isP k = false ->
  exists m' s' y, setSourceTerms st eig m s = Ok (st, m', s') /\ sourceIs m' 1 y /\ massBalanced m' y.
Proof.
  intros (HP & (row & p & q & x0 & EP & LP & LQ) & HM & OM & HC & V & RG & L) NP.
  assert (ED : momicData m = mkInterp (length M) row p q x0) by (unfold momicData; now rewrite EP).
  pose proof (setMoments_safe (t:=false) (b:=false) (length M) (momicData m) (sootVar s) L) as W.
  rewrite ED in W. specialize (W ltac:(rewrite (v_soot _ _ _ V), map_length; lia)). specialize (W ltac:(unfold sizedInterp; auto)). unfold SafeProofs.wp in W.
  rewrite <- ED in W. destruct (setMoments npMOMIC nqMOMIC (momicData m) (sootVar s)) as [d|ex|ub] eqn:EM; [|discriminate W|destruct ub; now try discriminate W].
  destruct W as ((EN & L6 & L7) & _).
  set (m1 := with_priv m (PrivMomic d)). set (m2 := outM k g m1 0 []). set (s2 := outS k g s).
  pose proof (coagRates_safe (t:=false) (b:=false) (sm_coag m2) s2 (length M) (id_Mp6 d) (id_Mq6 d) (Fin (el M 0)) L6 L7 ltac:(lia)) as W. unfold SafeProofs.wp in W.
  destruct (momCoagRates (sm_coag m2) s2 (length M) (id_Mp6 d) (id_Mq6 d) (Fin (el M 0))) as [coa|ex|ub] eqn:EC; [|discriminate W|destruct ub; now try discriminate W]. destruct W as (_ & W1).
  assert (IP : isPAH m2 = false).
  { unfold m2, outM. rewrite NP. unfold isPAH, m1. cbn [sm_nucl with_priv]. destruct HM as (E & _). rewrite NP in E. rewrite E. unfold isP in NP. destruct (mN k); try discriminate NP; reflexivity. }
  destruct (call_part m s g k M 0 [] HM OM HC V HP L d EM EN (chem_all m1 s g k M 0 [] (collMOMIC m1) V HM OM (Rle_refl 0) ltac:(congruence) _ _ (sees_m m d M HP ltac:(lia)) RG) (fun _ => Fin 0)
     ltac:(intros r Hr; unfold momicCnd; fold m1; fold m2; rewrite IP; reflexivity) coa EC st eig) as (m' & E & A & B & _).
  eexists; eexists; eexists. split; [exact E|]. split.
  { unfold sourceIs. rewrite A. rewrite nth_error_seqmap by lia. refine (f_equal Some (eq_trans (f_equal (fun z : @num XR => @nadd XR _ z) (W1 : nth 1 coa (Fin 0) = Fin 0)) _)). fin. reflexivity. }
  assert (B2 : gasBudget m' k g (nucl k g 0) (kgrow k g (el M 0) (el M 1) * surfOf d 1 1) (koxid k g (el M 0) (el M 1) * surfOf d 1 1)).
  { apply (budget_eq _ _ _ _ _ _ _ _ B); unfold surfOf; ring. }
  apply (budget_balanced _ _ _ _ _ _ _ _ _ OM NP B2). unfold oN1, surfOf. cbn [pow]. ring.
Qed.
Lemma sect_bal m m' s s' g k b n F c st st' eig :
  isSect m b F -> goodBins b -> hasAll m k -> okAll k -> isP k = false -> valid s g n -> length n = length b ->
  regular k g (number n) (mass b n) -> located st F c -> setSourceTerms st eig m s = Ok (st', m', s') ->
  exists q, soots m' = map Fin q /\ length q = length b /\ massBalanced m' (mass b q).
Proof.
  intros HS G HM OM NP V Ln RG HC HE. destruct (C29_ m m' s s' g k b n F c st st' eig HS G HM OM V Ln RG HC HE) as (q & A & LQ & B & C & _).
  exists q. split; [exact A|]. split; [exact LQ|]. destruct (out_noP k g (dimerHits k g b n) NP) as (T2 & T3).
  apply (budget_balanced _ _ _ _ _ _ _ _ _ OM NP C). rewrite B, T2, T3. ring.
Qed.
