(** Lemmas for C82: whole calls of the lognormal model. *)
From Coq Require Import ZArith List Bool Reals Lra Lia.
From Verif Require Import Num Defs State Coag Nucl Growth Oxid Tar SootModel Qmom Calls XR XRLemmas SpecChem SpecCoag SpecValid SpecRates SpecGas SpecState SpecPah SpecPsd SpecSites SpecCont
  CoagProofs MiscProofs ValidProofs RateProofs PsdProofs PahProofs MonoProofs MonoMain MonoCases RichProofs HeatProofs SitesProofs ContProofs ContMain ContCases SpecSect SpecQmom SpecLogn LognProofs LognMain LognFinal LognCases.
Import ListNotations.
Local Open Scope R_scope.

(** the growth rate at a positive soot mass *)
Lemma cgrowF c (G : nat -> gas) g (A0 A1 : nat -> R) M0 M1 : c <> G_HACA -> gasTo G g -> 0 < gT g -> (forall sp, 0 <= conc g sp) -> (forall n, 0 < A0 n) -> 0 < M0 -> 0 < M1 -> Un_cv A0 M0 -> Un_cv A1 M1 ->
  Un_cv (fun n => growFormula c (G n) (A0 n) (A1 n)) (growFormula c g M0 M1).
Proof.
  intros H HG T0 PC PA P0 P1 H0 H1. pose proof (csurface A0 A1 M0 M1 PA P0 ltac:(lra) H0 H1) as CS.
  assert (PS : 0 < surface M0 M1). { unfold surface. destruct (Rlt_dec 0 M0); [|lra]. destruct (Rlt_dec 0 M1); [|lra]. pose proof piC_pos. pose proof (diam_pos (M1 / M0)). repeat apply Rmult_lt_0_compat; lra. }
  assert (CG : Un_cv (fun n => grown c (G n) (surface (A0 n) (A1 n)) / surface (A0 n) (A1 n)) (grown c g (surface M0 M1) / surface M0 M1)).
  { assert (Un_cv (fun n => grown c (G n) (surface (A0 n) (A1 n))) (grown c g (surface M0 M1))) by (apply cgrow; auto; lra). cvs. lra. }
  destruct (cv_above _ _ 0 PS CS) as (N & E).
  apply (cv_eventually _ (fun n => grown c (G n) (surface (A0 n) (A1 n)) / surface (A0 n) (A1 n))).
  - exists N. intros n Hn. specialize (E n Hn). rewrite <- grown_val by (auto; lra). field. lra.
  - rewrite <- grown_val in CG by (auto; lra). replace (growFormula c g M0 M1) with (growFormula c g M0 M1 * surface M0 M1 / surface M0 M1) by (field; lra). exact CG.
Qed.

Section Logn.
Context (G : nat -> gas) (g : gas) (HG : gasTo G g) (s : state (N:=XR)) (A0 A1 A2 : nat -> R) (M0 M1 M2 : R) (V : valid s g [M0; M1; M2]).
Context (PA : forall n, 0 < A0 n /\ 0 < A1 n /\ 0 < A2 n) (P0 : 0 < M0) (P1 : 0 < M1) (P2 : 0 < M2) (H0 : Un_cv A0 M0) (H1 : Un_cv A1 M1) (H2 : Un_cv A2 M2).
Let T0 : 0 < gT g. Proof. apply V. Qed.
Let cT : Un_cv (fun n => gT (G n)) (gT g). Proof. apply HG. Qed.
Let cMu : Un_cv (fun n => gMu (G n)) (gMu g). Proof. apply HG. Qed.
Notation MM n := (mom (A0 n) (A1 n) (A2 n)).
Notation M := (mom M0 M1 M2).

Lemma cmom z : Un_cv (fun n => MM n z) (M z).
Proof.
  unfold mom. destruct (Z.eqb z 0); [exact H0|]. destruct (Z.eqb z 6); [exact H1|].
  apply (cv_ext _ (fun n => Rpower (A0 n) (1 + 1 / 2 * sixth z * (sixth z - 3)) * Rpower (A1 n) (sixth z * (2 - sixth z)) * Rpower (A2 n) (1 / 2 * sixth z * (sixth z - 1))) _
    (Rpower M0 (1 + 1 / 2 * sixth z * (sixth z - 3)) * Rpower M1 (sixth z * (2 - sixth z)) * Rpower M2 (1 / 2 * sixth z * (sixth z - 1)))).
  - intros n. destruct (PA n) as (X & Y & Z). unfold closure. destruct (Rlt_dec 0 (A0 n)); [|lra]. destruct (Rlt_dec 0 (A1 n)); [|lra]. destruct (Rlt_dec 0 (A2 n)); [|lra]. reflexivity.
  - unfold closure. destruct (Rlt_dec 0 M0); [|lra]. destruct (Rlt_dec 0 M1); [|lra]. destruct (Rlt_dec 0 M2); [|lra]. reflexivity.
  - apply CV_mult; [apply CV_mult|]; apply cv_rpow; assumption.
Qed.
Lemma ckFM f : Un_cv (fun n => kFM f (G n)) (kFM f g).
Proof. unfold kFM. pose proof piC_pos. pose proof boltz_pos. cvs; try lra. left. apply Rdiv_lt_0_compat; [|lra]. repeat apply Rmult_lt_0_compat; lra. Qed.
Lemma ckC : Un_cv (fun n => kC (G n)) (kC g).
Proof. unfold kC. assert (0 < gMu g) by apply V. cvs. lra. Qed.
Lemma ckSlip : Un_cv (fun n => kSlip (G n)) (kSlip g).
Proof. unfold kSlip. pose proof (cmfp G g HG s [M0; M1; M2] V) as A. cvs. Qed.
Ltac cvm := repeat first [apply cmom | cv1].
Lemma closs_fm f : Un_cv (fun n => lossOf (fmTerms f (G n)) (MM n)) (lossOf (fmTerms f g) M).
Proof. pose proof (ckFM f) as K. unfold lossOf, meanOf, fmTerms, tm. cbv zeta. cbn [fold_right]. cvm. Qed.
Lemma closs_co : Un_cv (fun n => lossOf (coTerms (G n)) (MM n)) (lossOf (coTerms g) M).
Proof. pose proof ckC as K. pose proof ckSlip as L. unfold lossOf, meanOf, coTerms, tm. cbv zeta. cbn [fold_right]. cvm. Qed.
Lemma cgain_fm f : Un_cv (fun n => gainOf (fmTerms f (G n)) (MM n)) (gainOf (fmTerms f g) M).
Proof. pose proof (ckFM f) as K. unfold gainOf, meanOf, fmTerms, tm. cbv zeta. cbn [fold_right]. cvm. Qed.
Lemma cgain_co : Un_cv (fun n => gainOf (coTerms (G n)) (MM n)) (gainOf (coTerms g) M).
Proof. pose proof ckC as K. pose proof ckSlip as L. unfold gainOf, meanOf, coTerms, tm. cbv zeta. cbn [fold_right]. cvm. Qed.
Lemma cC0 k : Un_cv (fun n => lognC0 k (G n) (MM n)) (lognC0 k g M).
Proof. unfold lognC0. destruct (mC k); try apply cv_const; apply CV_opp; [apply closs_fm|apply closs_co]. Qed.
Lemma cC2 k : 0 < mF k -> Un_cv (fun n => lognC2 k (G n) (MM n)) (lognC2 k g M).
Proof.
  intros F. unfold lognC2. destruct (mC k); try apply cv_const; [apply cgain_fm|apply cgain_co|]. cbv zeta. pose proof (cgain_fm (mF k)) as A. pose proof cgain_co as B.
  assert (PM : forall z, 0 < M z) by (intros; now apply mom_gt).
  assert (L3 : 0 < gainOf (fmTerms (mF k) g) M). { unfold gainOf. apply mean_pos; auto; [discriminate|]. intros c p q. now apply (fm_terms_pos s g _ (mF k) c p q V). }
  assert (L4 : 0 < gainOf (coTerms g) M). { unfold gainOf. apply mean_pos; auto; [discriminate|]. intros c p q. now apply (co_terms_pos s g _ c p q V). }
  destruct (Rlt_dec 0 (gainOf (fmTerms (mF k) g) M + gainOf (coTerms g) M)); [|lra].
  apply (cv_eventually _ (fun n => harm (gainOf (fmTerms (mF k) (G n)) (MM n)) (gainOf (coTerms (G n)) (MM n)))).
  - destruct (cv_above _ _ 0 L3 A) as (N1 & E1). destruct (cv_above _ _ 0 L4 B) as (N2 & E2). exists (max N1 N2). intros n Hn. specialize (E1 n ltac:(lia)). specialize (E2 n ltac:(lia)).
    destruct (Rlt_dec 0 (gainOf (fmTerms (mF k) (G n)) (MM n) + gainOf (coTerms (G n)) (MM n))); [reflexivity|lra].
  - unfold harm. cvs. lra.
Qed.
End Logn.

Lemma C82_logn_ (m : model (N:=XR)) k st eig (G : nat -> gas) g (St : nat -> state (N:=XR)) s (A0 A1 A2 : nat -> R) M0 M1 M2 :
  mN k <> N_PAH -> mG k <> G_HACA -> mO k <> O_HACA ->
  (forall n, readyLogn m (St n) (G n) k (A0 n) (A1 n) (A2 n) /\ 0 < A0 n /\ 0 < A1 n /\ 0 < A2 n) ->
  readyLogn m s g k M0 M1 M2 -> 0 < M0 -> 0 < M1 -> 0 < M2 ->
  gasTo G g -> Un_cv A0 M0 -> Un_cv A1 M1 -> Un_cv A2 M2 ->
  exists (a b d : nat -> R) (c : nat -> gasSp -> R) a' b' d' c',
    (forall n, exists m' s', setSourceTerms st eig m (St n) = Ok (st, m', s') /\ soots m' = [Fin (a n); Fin (b n); Fin (d n)] /\ holdsGas (gases m') (c n)) /\
    (exists m' s', setSourceTerms st eig m s = Ok (st, m', s') /\ soots m' = [Fin a'; Fin b'; Fin d'] /\ holdsGas (gases m') c') /\
    Un_cv a a' /\ Un_cv b b' /\ Un_cv d d' /\ forall sp, Un_cv (fun n => c n sp) (c' sp).
Proof.
  intros NP NG NO HS RD P0 P1 P2 HG H0 H1 H2. assert (IP : isP k = false) by (unfold isP; destruct (mN k); congruence).
  set (A := fun g M0 M1 M2 => Jnuc k g + lognC0 k g (mom M0 M1 M2)).
  set (B := fun g M0 M1 M2 => Jnuc k g * nucMass g + 0 + (kgrow k g M0 M1 - koxid k g M0 M1) * areaCoef * mom M0 M1 M2 4%Z).
  set (D := fun g M0 M1 M2 => Jnuc k g * nucMass g * nucMass g + 2 * 0 + 2 * (kgrow k g M0 M1 - koxid k g M0 M1) * areaCoef * mom M0 M1 M2 10%Z + lognC2 k g (mom M0 M1 M2)).
  set (C := fun g M0 M1 M2 sp => nuclGas (mN k) (Jnuc k g * nucMass g) sp + growGas (mG k) (kgrow k g M0 M1 * areaCoef * mom M0 M1 M2 4%Z) sp + oxidGas (mO k) (koxid k g M0 M1 * areaCoef * mom M0 M1 M2 4%Z) sp).
  assert (RUN : forall s g M0 M1 M2, readyLogn m s g k M0 M1 M2 -> exists m' s', setSourceTerms st eig m s = Ok (st, m', s') /\ soots m' = [Fin (A g M0 M1 M2); Fin (B g M0 M1 M2); Fin (D g M0 M1 M2)] /\ holdsGas (gases m') (C g M0 M1 M2)).
  { clear -IP. intros s g M0 M1 M2 RD. destruct (logn_run m s g k M0 M1 M2 st eig RD) as (m' & E & S1 & S2 & _); [congruence|]. eexists m', _. split; [exact E|].
    unfold nucl, lognSources in S1. unfold nucl in S2. rewrite IP in S1, S2. cbv zeta in S1. cbn [map oJ oGas oN1 oMass oConc] in S1. split; [rewrite S1; reflexivity|].
    unfold gasBudget, nuclPart in S2. rewrite IP in S2. exact S2. }
  exists (fun n => A (G n) (A0 n) (A1 n) (A2 n)), (fun n => B (G n) (A0 n) (A1 n) (A2 n)), (fun n => D (G n) (A0 n) (A1 n) (A2 n)), (fun n => C (G n) (A0 n) (A1 n) (A2 n)), (A g M0 M1 M2), (B g M0 M1 M2), (D g M0 M1 M2), (C g M0 M1 M2).
  split; [intros n; apply RUN; apply HS|]. split; [now apply RUN|]. clear RUN.
  destruct RD as (_ & _ & OM & _ & V & _). pose proof OM as (_ & _ & _ & _ & _ & OF).
  assert (T0 : 0 < gT g) by apply V. assert (C0 : 0 < gCMin g) by apply V. pose proof avo_pos as AP.
  assert (PA : forall n, 0 < A0 n /\ 0 < A1 n /\ 0 < A2 n) by (intros n; apply HS).
  assert (CJ : Un_cv (fun n => Jnuc k (G n)) (Jnuc k g)) by now apply cnucl.
  assert (CM : Un_cv (fun n => nucMass (G n)) (nucMass g)). { assert (E : Un_cv (fun n => gCMin (G n)) (gCMin g)) by apply HG. unfold nucMass. cvs. lra. }
  assert (CG : Un_cv (fun n => kgrow k (G n) (A0 n) (A1 n)) (kgrow k g M0 M1)) by (apply cgrowF; auto; [apply (conc_nneg _ _ _ V)|intros n; apply PA]).
  assert (CO : Un_cv (fun n => koxid k (G n) (A0 n) (A1 n)) (koxid k g M0 M1)) by (unfold koxid; apply coxid; auto; intros sp; apply (press_nneg _ _ _ V)).
  pose proof (cmom A0 A1 A2 M0 M1 M2 PA P0 P1 P2 H0 H1 H2) as CZ.
  pose proof (cC0 G g HG s A0 A1 A2 M0 M1 M2 V PA P0 P1 P2 H0 H1 H2 k) as K0. pose proof (cC2 G g HG s A0 A1 A2 M0 M1 M2 V PA P0 P1 P2 H0 H1 H2 k OF) as K2.
  pose proof (CZ 4%Z) as Z4. pose proof (CZ 10%Z) as Z10.
  split; [unfold A; cvs|]. split; [unfold B; cvs|]. split; [unfold D; cvs|]. intros sp. unfold C.
  apply (CV_plus (fun n => nuclGas (mN k) (Jnuc k (G n) * nucMass (G n)) sp + growGas (mG k) (kgrow k (G n) (A0 n) (A1 n) * areaCoef * mom (A0 n) (A1 n) (A2 n) 4%Z) sp)).
  - apply (CV_plus (fun n => nuclGas (mN k) (Jnuc k (G n) * nucMass (G n)) sp)); [apply cnuclGas; cvs|apply cgrowGas; cvs].
  - apply coxidGas. cvs.
Qed.

(** ** a case *)
Definition kLog : mechs := mkMechs N_LL G_LL O_NSC_NEOH C_HM 1.
Lemma hotOf3_ok t M0 M1 M2 : 0 < t -> 0 <= M0 -> 0 <= M1 -> 0 <= M2 -> valid (hotOf t [M0; M1; M2]) (hotGas t) [M0; M1; M2].
Proof.
  intros T A B C. assert (IN : forall x, In x [M0; M1; M2] -> 0 <= x) by (intros x [<-|[<-|[<-|[]]]]; assumption).
  destruct (hot_state t [M0; M1; M2] T IN) as (s & E & V). unfold hotOf. rewrite E. exact V.
Qed.
Lemma C82_logn_case_ : exists (m : model (N:=XR)) (t A0 A1 A2 : nat -> R), constructEnum P_LOGN 3 N_LL G_LL O_NSC_NEOH C_HM 0 T_NONE (nZ 2) 100 = Ok m /\
  (forall n, readyLogn m (hotOf (t n) [A0 n; A1 n; A2 n]) (hotGas (t n)) kLog (A0 n) (A1 n) (A2 n) /\ 0 < A0 n /\ 0 < A1 n /\ 0 < A2 n) /\
  readyLogn m (hotOf 1800 [1; 2; 5]) (hotGas 1800) kLog 1 2 5 /\ gasTo (fun n => hotGas (t n)) (hotGas 1800) /\ Un_cv A0 1 /\ Un_cv A1 2 /\ Un_cv A2 5 /\
  t 0%nat <> 1800 /\ A0 0%nat <> 1 /\ A1 0%nat <> 2 /\ A2 0%nat <> 5.
Proof.
  destruct (constructEnum (N:=XR) P_LOGN 3 N_LL G_LL O_NSC_NEOH C_HM 0 T_NONE (nZ 2) 100) as [m| |] eqn:E; try discriminate. destruct (built _ _ _ _ _ _ _ _ _ _ _ E) as (H & Hp & _).
  pose proof cv_1n as C. assert (PN : forall n, 0 < / INR (S n)) by (intros n; apply Rinv_0_lt_compat, lt_0_INR; lia).
  assert (RD : forall t M0 M1 M2, 0 < t -> 0 <= M0 -> 0 <= M1 -> 0 <= M2 -> readyLogn m (hotOf t [M0; M1; M2]) (hotGas t) kLog M0 M1 M2).
  { intros t M0 M1 M2 T A B D. split; [exact Hp|]. split; [exact H|]. split; [split; [left; unfold kLog; okm|unfold kLog; okm]|]. split; [right; right; reflexivity|]. split; [now apply hotOf3_ok|]. intros [K|K]; discriminate K. }
  exists m, (fun n => 1800 + / INR (S n)), (fun n => 1 + / INR (S n)), (fun n => 2 + / INR (S n)), (fun n => 5 + / INR (S n)). split; [reflexivity|].
  split. { intros n. specialize (PN n). split; [apply RD; lra|]. lra. }
  split; [apply RD; lra|]. assert (X : forall c, Un_cv (fun n => c + / INR (S n)) c). { intros c. apply (cv_ext _ (fun n => c + / INR (S n)) _ (c + 0)); [reflexivity|ring|]. cvs. }
  split; [apply (gasTo_hot (fun n => 1800 + / INR (S n))); apply X|]. split; [apply X|]. split; [apply X|]. split; [apply X|]. cbn [INR]. lra.
Qed.
