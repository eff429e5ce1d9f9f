(** Lemmas for C82: rates for every size model, the jump at the smallest mass, a case. *)
From Coq Require Import ZArith List Bool Reals Lra Lia.
From Verif Require Import Num Defs State Coag Nucl Growth Oxid Tar SootModel Qmom Calls XR XRLemmas SpecChem SpecCoag SpecValid SpecRates SpecGas SpecState SpecPah SpecPsd SpecSites SpecCont
  CoagProofs MiscProofs ValidProofs RateProofs PsdProofs PahProofs MonoProofs MonoMain MonoCases RichProofs HeatProofs SitesProofs ContProofs ContMain.
Import ListNotations.
Local Open Scope R_scope.

(** ** rates *)
Section Rates.
Context (G : nat -> gas) (g : gas) (St : nat -> state (N:=XR)) (s : state (N:=XR)) (So : nat -> list R) (soot : list R).
Context (HV : forall n, valid (St n) (G n) (So n)) (V : valid s g soot) (HG : gasTo G g).
Lemma C82_nucl_ coll nu : gasOnly (nu_class nu) -> exists r r', (forall n, nuclRate coll nu (St n) = Ok (Fin (r n), nu, St n, None)) /\ nuclRate coll nu s = Ok (Fin r', nu, s, None) /\ Un_cv r r'.
Proof.
  intros H. exists (fun n => nuclFormula (nu_class nu) (G n)), (nuclFormula (nu_class nu) g). split; [intros n; eapply nucl_formula; eauto|]. split; [eapply nucl_formula; eauto|].
  apply cnucl; [exact HG|apply V|apply V].
Qed.
Lemma C82_oxid_ ox (v : smView (N:=XR)) A0 A1 M0 M1 : ox_class ox <> O_HACA -> (forall n, seesMoments v (So n) (A0 n) (A1 n)) -> seesMoments v soot M0 M1 ->
  exists r r', (forall n, oxidRate ox v (St n) = Ok (Fin (r n))) /\ oxidRate ox v s = Ok (Fin r') /\ Un_cv r r'.
Proof.
  intros H SM S0. exists (fun n => oxidFormula (ox_class ox) (G n) (A0 n) (A1 n)), (oxidFormula (ox_class ox) g M0 M1). split; [intros n; eapply oxid_formula; eauto; contradiction|]. split; [eapply oxid_formula; eauto; contradiction|].
  apply coxid; [exact HG|apply V|exact H|]. intros sp. apply (press_nneg _ _ _ V).
Qed.
Lemma C82_grow_ gr (v : smView (N:=XR)) A0 A1 M0 M1 : gr_class gr <> G_HACA -> (forall n, seesMoments v (So n) (A0 n) (A1 n)) -> seesMoments v soot M0 M1 ->
  (forall n, 0 < A0 n) -> 0 < M0 -> 0 < M1 -> Un_cv A0 M0 -> Un_cv A1 M1 ->
  exists r r', (forall n, growRate gr v (St n) = Ok (Fin (r n))) /\ growRate gr v s = Ok (Fin r') /\ Un_cv r r'.
Proof.
  intros H SM S0 PA P0 P1 H0 H1. exists (fun n => growFormula (gr_class gr) (G n) (A0 n) (A1 n)), (growFormula (gr_class gr) g M0 M1). split; [intros n; eapply grow_formula; eauto; contradiction|]. split; [eapply grow_formula; eauto; contradiction|].
  pose proof (csurface A0 A1 M0 M1 PA P0 ltac:(lra) H0 H1) as CS.
  assert (PS : 0 < surface M0 M1). { unfold surface. destruct (Rlt_dec 0 M0); [|lra]. destruct (Rlt_dec 0 M1); [|lra]. pose proof piC_pos. pose proof (diam_pos (M1 / M0)). repeat apply Rmult_lt_0_compat; lra. }
  assert (CG : Un_cv (fun n => grown (gr_class gr) (G n) (surface (A0 n) (A1 n)) / surface (A0 n) (A1 n)) (grown (gr_class gr) g (surface M0 M1) / surface M0 M1)).
  { assert (Un_cv (fun n => grown (gr_class gr) (G n) (surface (A0 n) (A1 n))) (grown (gr_class gr) g (surface M0 M1))) by (apply cgrow; auto; [apply V|lra|apply (conc_nneg _ _ _ V)]). cvs. lra. }
  destruct (cv_above _ _ 0 PS CS) as (N & E).
  apply (cv_eventually _ (fun n => grown (gr_class gr) (G n) (surface (A0 n) (A1 n)) / surface (A0 n) (A1 n))).
  - exists N. intros n Hn. specialize (E n Hn). rewrite <- grown_val by (auto; lra). field. lra.
  - rewrite <- grown_val in CG by (auto; lra). replace (growFormula (gr_class gr) g M0 M1) with (growFormula (gr_class gr) g M0 M1 * surface M0 M1 / surface M0 M1) by (field; lra). exact CG.
Qed.
End Rates.

(** ** states along a sequence *)
Lemma hotOf_ok t M0 M1 : 0 < t -> 0 <= M0 -> 0 <= M1 -> valid (hotOf t [M0; M1]) (hotGas t) [M0; M1] /\ length (wts (hotOf t [M0; M1])) = 1%nat /\ length (absc (hotOf t [M0; M1])) = 1%nat.
Proof.
  intros T A B. assert (IN : forall x, In x [M0; M1] -> 0 <= x) by (intros x [<-|[<-|[]]]; assumption).
  destruct (argsOf_any (newState 2 0) (hotGas t) [M0; M1] [] eq_refl eq_refl eq_refl) as (s & C & V & _ & EW & EA & _);
    [|intros; cbn; lra|unfold pahVec, allPah; cbn [map fold_left gPah hotGas]; lra|exact IN|intros ? []|].
  - unfold okGas, hotGas. cbn [gT gP gRho gMu gCMin gY gPah]. repeat split; intros; lra.
  - unfold hotOf. cbn [length]. rewrite C. rewrite EW, EA. auto.
Qed.
Lemma cv_1n : Un_cv (fun n => / INR (S n)) 0.
Proof.
  intros e He. destruct (archimed_cor1 e He) as (N & E & P). exists N. intros n Hn. unfold R_dist. rewrite Rminus_0_r. assert (0 < INR (S n)) by (apply lt_0_INR; lia).
  rewrite Rabs_right by (left; now apply Rinv_0_lt_compat). apply Rle_lt_trans with (/ INR N); [|exact E]. apply Rinv_le_contravar; [now apply lt_0_INR|]. apply le_INR. lia.
Qed.
Lemma gasTo_hot (t : nat -> R) t' : Un_cv t t' -> gasTo (fun n => hotGas (t n)) (hotGas t').
Proof. intros H. unfold gasTo, hotGas. cbn [gT gP gRho gMu gCMin gY gPah]. split; [exact H|]. repeat split; intros; apply cv_const. Qed.

(** ** the smallest mass *)
Definition kFM : mechs := mkMechs N_NONE G_NONE O_NONE C_FM 1.
Definition lowFM : R := enhancement * 1 * sqrt (piC * boltzmann * 1800 / 2 * (1 / (2 * massCutoff) + 1 / (2 * massCutoff))) * (diam massCutoff + diam massCutoff) ^ 2.
Lemma low_pos : 0 < lowFM.
Proof.
  unfold lowFM, enhancement. pose proof piC_pos. pose proof boltz_pos. pose proof cut_pos. pose proof (diam_pos massCutoff). assert (0 < 1 / (2 * massCutoff)) by (apply Rdiv_lt_0_compat; lra).
  assert (0 < piC * boltzmann) by now apply Rmult_lt_0_compat. apply Rmult_lt_0_compat; [apply Rmult_lt_0_compat; [lra|]|apply pow_lt; lra]. apply sqrt_lt_R0. apply Rmult_lt_0_compat; lra.
Qed.
Lemma low_le x : massCutoff < x <= 2 * massCutoff -> lowFM <= kernel kFM (hotGas 1800) x x.
Proof.
  intros H. unfold kernel. destruct (Rlt_dec massCutoff x); [|lra]. cbn [mC mF kFM gT hotGas]. unfold lowFM, betaFM, enhancement. pose proof piC_pos. pose proof boltz_pos. pose proof cut_pos.
  assert (PB : 0 < piC * boltzmann) by now apply Rmult_lt_0_compat. pose proof (diam_pos massCutoff) as D1.
  assert (D2 : diam massCutoff <= diam x). { unfold diam. assert (PS : 0 < piC * sootDensity) by (unfold sootDensity; lra). apply Rle_Rpower_l; [lra|]. split; [apply Rdiv_lt_0_compat; lra|]. apply Rmult_le_compat_r; [left; now apply Rinv_0_lt_compat|lra]. }
  assert (I : 1 / (2 * massCutoff) <= 1 / x) by (apply Rmult_le_compat_l; [lra|]; apply Rinv_le_contravar; lra).
  apply Rmult_le_compat; [| |apply Rmult_le_compat_l; [lra|]; apply sqrt_le_1_alt; apply Rmult_le_compat_l; lra|apply pow_incr; lra].
  - apply Rmult_le_pos; [lra|apply sqrt_pos]. - apply pow_le; lra.
Qed.
Lemma C82_cutoff_ : exists (m : model (N:=XR)) c (A1 : nat -> R) M1, 0 < c /\
  constructEnum P_MONO 2 N_NONE G_NONE O_NONE C_FM 0 T_NONE (nZ 2) 100 = Ok m /\ Un_cv A1 M1 /\ M1 / 1 = massCutoff /\
  (forall n, valid (hotOf 1800 [1; A1 n]) (hotGas 1800) [1; A1 n]) /\ valid (hotOf 1800 [1; M1]) (hotGas 1800) [1; M1] /\
  forall st eig, (forall n, exists m' s' a b, setSourceTerms st eig m (hotOf 1800 [1; A1 n]) = Ok (st, m', s') /\ soots m' = [Fin a; Fin b] /\ a <= - c) /\
    exists m' s' b, setSourceTerms st eig m (hotOf 1800 [1; M1]) = Ok (st, m', s') /\ soots m' = [Fin 0; Fin b].
Proof.
  destruct (constructEnum (N:=XR) P_MONO 2 N_NONE G_NONE O_NONE C_FM 0 T_NONE (nZ 2) 100) as [m| |] eqn:E; try discriminate. destruct (built _ _ _ _ _ _ _ _ _ _ _ E) as (H & Hp & _ & Ht & _).
  pose proof cut_pos as CP. exists m, (1 / 2 * lowFM), (fun n => massCutoff * (1 + / INR (S n))), massCutoff. pose proof low_pos as LP.
  assert (K : okAll kFM) by (split; [left; unfold kFM; okm|unfold kFM; okm]).
  assert (PN : forall n, 0 < / INR (S n) <= 1). { intros n. assert (1 <= INR (S n)) by (rewrite S_INR; pose proof (pos_INR n); lra). split; [apply Rinv_0_lt_compat; lra|]. rewrite <- Rinv_1. apply Rinv_le_contravar; lra. }
  assert (PM : forall n, massCutoff < massCutoff * (1 + / INR (S n)) <= 2 * massCutoff) by (intros n; specialize (PN n); split; nra).
  split; [lra|]. split; [reflexivity|]. split; [|split; [field|split; [intros n; apply hotOf_ok; try lra; specialize (PM n); lra|split; [apply hotOf_ok; lra|]]]].
  - pose proof cv_1n as C. apply (cv_ext _ (fun n => massCutoff * (1 + / INR (S n))) _ (massCutoff * (1 + 0))); [reflexivity|ring|]. cvs.
  - intros st eig. split.
    + intros n. destruct (hotOf_ok 1800 1 (massCutoff * (1 + / INR (S n))) ltac:(lra) ltac:(lra) ltac:(specialize (PM n); lra)) as (V & LW & LA).
      destruct (mono_src m _ _ kFM _ _ st eig Hp H K Ht ltac:(discriminate) ltac:(discriminate) ltac:(discriminate) V ltac:(lra) LW LA) as (m' & s' & R1 & R2 & _).
      do 4 eexists. split; [exact R1|]. split; [exact R2|]. unfold srcN, Jnuc. cbn [mN kFM nuclFormula]. fold kFM.
      replace (massCutoff * (1 + / INR (S n)) / 1) with (massCutoff * (1 + / INR (S n))) by (unfold Rdiv; rewrite Rinv_1, Rmult_1_r; reflexivity). pose proof (low_le _ (PM n)). lra.
    + destruct (hotOf_ok 1800 1 massCutoff ltac:(lra) ltac:(lra) ltac:(lra)) as (V & LW & LA).
      destruct (mono_src m _ _ kFM _ _ st eig Hp H K Ht ltac:(discriminate) ltac:(discriminate) ltac:(discriminate) V ltac:(lra) LW LA) as (m' & s' & R1 & R2 & _).
      exists m', s'. eexists. split; [exact R1|]. rewrite R2. f_equal. f_equal. unfold srcN, Jnuc. cbn [mN kFM nuclFormula]. fold kFM. unfold kernel. destruct (Rlt_dec massCutoff (massCutoff / 1)) as [L|]; [|ring].
      exfalso. replace (massCutoff / 1) with massCutoff in L by field. lra.
Qed.

(** ** a case: everything varies *)
Definition kAll : mechs := mkMechs N_LL G_LL O_NSC_NEOH C_FUCHS 1.
Lemma C82_case_ : exists (m : model (N:=XR)) (t A0 A1 : nat -> R), constructEnum P_MONO 2 N_LL G_LL O_NSC_NEOH C_FUCHS 0 T_NONE (nZ 2) 100 = Ok m /\
  sm_psd m = P_MONO /\ hasAll m kAll /\ okAll kAll /\ noTar m /\
  (forall n, valid (hotOf (t n) [A0 n; A1 n]) (hotGas (t n)) [A0 n; A1 n] /\ 0 < A0 n /\ length (wts (hotOf (t n) [A0 n; A1 n])) = 1%nat /\ length (absc (hotOf (t n) [A0 n; A1 n])) = 1%nat) /\
  valid (hotOf 1800 [1; 1]) (hotGas 1800) [1; 1] /\ length (wts (hotOf 1800 [1; 1])) = 1%nat /\ length (absc (hotOf 1800 [1; 1])) = 1%nat /\
  gasTo (fun n => hotGas (t n)) (hotGas 1800) /\ Un_cv A0 1 /\ Un_cv A1 1 /\ 1 / 1 <> massCutoff /\ t 0%nat <> 1800 /\ A0 0%nat <> 1 /\ A1 0%nat <> 1 /\
  (forall n, seesMoments (viewOf m) [A0 n; A1 n] (A0 n) (A1 n)).
Proof.
  destruct (constructEnum (N:=XR) P_MONO 2 N_LL G_LL O_NSC_NEOH C_FUCHS 0 T_NONE (nZ 2) 100) as [m| |] eqn:E; try discriminate. destruct (built _ _ _ _ _ _ _ _ _ _ _ E) as (H & Hp & _ & Ht & _).
  pose proof cut_small as CP. pose proof cv_1n as C.
  assert (PN : forall n, 0 < / INR (S n)) by (intros n; apply Rinv_0_lt_compat, lt_0_INR; lia).
  exists m, (fun n => 1800 + / INR (S n)), (fun n => 1 + / INR (S n)), (fun n => 1 + 2 * / INR (S n)). split; [reflexivity|]. split; [exact Hp|]. split; [exact H|]. split; [split; [left; unfold kAll; okm|unfold kAll; okm]|]. split; [exact Ht|].
  split. { intros n. specialize (PN n). destruct (hotOf_ok (1800 + / INR (S n)) (1 + / INR (S n)) (1 + 2 * / INR (S n)) ltac:(lra) ltac:(lra) ltac:(lra)) as (V & A & B). split; [exact V|]. split; [lra|]. split; assumption. }
  destruct (hotOf_ok 1800 1 1 ltac:(lra) ltac:(lra) ltac:(lra)) as (V & A & B). split; [exact V|]. split; [exact A|]. split; [exact B|].
  split. { apply (gasTo_hot (fun n => 1800 + / INR (S n))). apply (cv_ext _ (fun n => 1800 + / INR (S n)) _ (1800 + 0)); [reflexivity|ring|]. cvs. }
  split. { apply (cv_ext _ (fun n => 1 + / INR (S n)) _ (1 + 0)); [reflexivity|ring|]. cvs. }
  split. { apply (cv_ext _ (fun n => 1 + 2 * / INR (S n)) _ (1 + 2 * 0)); [reflexivity|ring|]. cvs. }
  split; [lra|]. cbn [INR]. split; [lra|]. split; [lra|]. split; [lra|]. intros n. apply sees_moment. rewrite Hp. discriminate.
Qed.
