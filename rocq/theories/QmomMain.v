(** The whole call of the quadrature method on extended reals. *)
From Coq Require Import ZArith List Bool Reals Lra Lia.
From Verif Require Import Num Defs State Binomial Coag Nucl Growth Oxid Tar SootModel Qmom Calls XR XRLemmas NumLaws SpecBinomial BinomialProofs
  SpecChem SpecCoag SpecValid SpecRates SpecGas SpecPah SpecPsd SpecSect SpecQmom CoagProofs StateXR ValidProofs InterpProofs GasProofs RateProofs PsdProofs PahProofs MonoProofs ChemAll SectProofs SectMain QmomProofs QmomRun.
Import ListNotations.
Local Open Scope R_scope.

Lemma collSum_nodes s g soot k mD w x : valid s g soot -> mC k <> C_size -> 0 < mF k -> nonneg w -> length x = length w ->
  wts s = map Fin w -> absc s = map Fin x ->
  collSum (with_f (mC k) (mF k)) s (Fin mD) = Ok (Fin (Sum (length w) (fun i => kernel k g mD (el x i) * el w i)), []).
Proof.
  intros V OC OF NW Lx EW EA. unfold collSum. rewrite EA, map_length, Lx. change (@nZ XR 0) with (Fin 0).
  rewrite (foldM_sum (fun i => kernel k g mD (el x i) * el w i)).
  - cbn [bind]. do 3 f_equal. unfold Sum. ring.
  - intros i b Hi. rewrite EW, !vget_fin by lia. cbn [bind]. rewrite (kernel_val s g soot) by auto.
    change (@nabs XR) with xabs. cbn [xabs]. fold (el w i) (el x i). rewrite (Rabs_pos_eq (el w i)) by (apply NW, nth_In; lia). fin. do 2 f_equal. ring.
Qed.

Lemma condense_out k g i w x o r : condense k (oGas (nucl k g i)) w x o r = condense k g w x o r.
Proof. unfold condense. f_equal. apply Sum_ext. intros; now rewrite kernel_out. Qed.
Lemma smol_out k g i w x r : smoluchowski k (oGas (nucl k g i)) w x r = smoluchowski k g w x r.
Proof. unfold smoluchowski. f_equal. apply Sum_ext. intros; apply Sum_ext. intros; now rewrite kernel_out. Qed.
Lemma mapM_throw {A B} (f : A -> res B) e l1 a l2 : (forall x, In x l1 -> exists y, f x = Ok y) -> f a = Throw e -> mapM f (l1 ++ a :: l2) = Throw e.
Proof.
  intros H E. induction l1 as [|b l1 IH]; cbn [app mapM]; [now rewrite E|].
  destruct (H b) as (y & ->); [now left|]. cbn [bind]. rewrite IH by (intros; apply H; now right). reflexivity.
Qed.

Section Run.
Context (m : model (N:=XR)) (s : state (N:=XR)) (g : gas) (k : mechs) (soot : list R) (p : nat) (eig : eigSolver (N:=XR)) (w x : list R).
Context (HQ : isQmom m s p) (HM : hasAll m k) (OM : okAll k) (V : valid s g soot) (Ls : length soot = (2 * p)%nat).
Let M0 := el soot 0.
Let M1 := el soot 1.
Context (RG : regular k g M0 M1).
Context (EN : getWtsAbs eig (map Fin soot) (wts s) (absc s) = Ok (map Fin w, map Fin x)).
Context (Lw : length w = p) (Lx : length x = p) (NW : nonneg w) (NX : nonneg x).
Let i := nodeHits k g w x.
Let o := nucl k g i.
Let s1 := with_wa s (map Fin w) (map Fin x).
Let m2 := outM k g m i [].
Let s2 := outS k g s1.
Let kg := kgrow k g M0 M1.
Let ko := koxid k g M0 M1.

Lemma q_hits : 0 <= i.
Proof.
  pose proof OM as (_ & _ & _ & _ & OC & OF). apply Sum_nneg. intros j Hj. apply Rmult_le_pos; [eapply kernel_nneg; eauto|]. now apply wnn.
Qed.
Lemma q_soot : exists l, soot = M0 :: M1 :: l.
Proof. pose proof HQ as (_ & _ & H & _). destruct soot as [|a [|b l]]; cbn in Ls; try lia. exists l. reflexivity. Qed.
Lemma q_chem : chemRates (collSum (sm_coag m)) m s1 = Ok (Fin (oJ o), Fin kg, Fin ko, m2, s2).
Proof.
  pose proof OM as (_ & _ & _ & _ & OC & OF). pose proof HQ as (Hp & _).
  assert (EC : sm_coag m = with_f (mC k) (mF k)) by (destruct HM as (_ & _ & _ & E); exact E).
  apply (chem_all m s1 g k soot i [] _ (valid_wa _ _ _ _ _ V) HM OM q_hits).
  - intros E. rewrite EC. assert (Vc := outS_valid k s1 g _ i (valid_wa _ _ _ _ _ V)). unfold outS, nucl in Vc. rewrite E in Vc. cbn [oGas] in Vc.
    exact (collSum_nodes _ _ _ k (dimerMass g) w x Vc OC OF NW (eq_trans Lx (eq_sym Lw)) eq_refl eq_refl).
  - destruct q_soot as (l & E). rewrite E at 1. apply sees_moment. rewrite Hp. discriminate.
  - exact RG.
Qed.
Lemma q_coagOn : coagOn m2 = coagOn m.
Proof. unfold coagOn, m2. destruct (outM_rest k g m i []) as (_ & _ & _ & _ & E & _). now rewrite E. Qed.
Let V2 : valid s2 (oGas o) soot. Proof. exact (outS_valid k s1 g soot i (valid_wa _ _ _ _ _ V)). Qed.
Let W2 : wts s2 = map Fin w. Proof. destruct (outS_rest k g s1) as (A & _). exact A. Qed.
Let A2 : absc s2 = map Fin x. Proof. destruct (outS_rest k g s1) as (_ & A & _). exact A. Qed.
Let C2 : sm_coag m2 = with_f (mC k) (mF k). Proof. exact (coag2 m g k i [] HM). Qed.
Let Lxw : length x = length w. Proof. congruence. Qed.

Lemma q_nuc r : (if nuclOn m2 return @num XR then @nmul XR (@npow XR (mNucOf s2) (nn r)) (Fin (oJ o)) else nZ 0) = Fin (oJ o * nucMass (oGas o) ^ r).
Proof.
  unfold s2. rewrite (mNuc_val s1 g k soot i (valid_wa _ _ _ _ _ V)). fold o. rewrite npow_nat.
  - fin. change (@nZ XR 0) with (Fin 0). destruct (nuclOn m2) eqn:E; [f_equal; ring|]. unfold m2 in E. pose proof (on_nucl m g k i [] HM E) as Z. fold o in Z. rewrite Z. f_equal. ring.
  - pose proof (v_cMinpos _ _ _ V2). unfold nucMass. apply Rlt_le. pos.
Qed.
Lemma q_cnd r : qmomCnd (N:=XR) m2 s2 r = Ok (Fin (condense k g w x o r)).
Proof.
  pose proof OM as (_ & _ & _ & _ & OC & OF).
  rewrite <- (condense_out k g i). apply (cnd_val s2 (oGas o) k soot w x V2 OC OF NX Lxw W2 A2); [exact C2| |].
  - intros E. apply (outM_dimer k g m i []). rewrite <- E. unfold m2. symmetry. now apply outM_isPAH.
  - intros E. unfold m2 in E. rewrite outM_isPAH in E by auto. unfold o, nucl. rewrite E. reflexivity.
Qed.
Lemma q_grw r : qmomSurf (N:=XR) (growOn m2) (Fin kg) s2 r = Ok (Fin (kg * areaCoef * INR r * fracMoment w x (INR r - 1 / 3))).
Proof. apply surf_val; auto. intros E. exact (on_grow m g k i [] HM M0 M1 E). Qed.
Lemma q_oxi r : qmomSurf (N:=XR) (oxidOn m2) (@nopp XR (Fin ko)) s2 r = Ok (Fin (- ko * areaCoef * INR r * fracMoment w x (INR r - 1 / 3))).
Proof. change (@nopp XR (Fin ko)) with (Fin (- ko)). apply surf_val; auto. intros E. unfold ko. rewrite (on_oxid m g k i [] HM M0 M1 E). ring. Qed.
Lemma q_coa r : (coagOn m = true -> (r <= 34)%nat) -> (if coagOn m2 return res (@num XR) then qmomCoag (N:=XR) (sm_coag m2) s2 r else Ok (nZ 0)) = Ok (Fin (smoluchowski k g w x r)).
Proof.
  intros Hr. pose proof OM as (_ & _ & _ & _ & OC & OF). rewrite q_coagOn, C2. destruct (coagOn m) eqn:E.
  - rewrite <- (smol_out k g i). apply (coag_moment s2 (oGas o) k soot w x V2 OC OF NX Lxw W2 A2). auto.
  - change (@nZ XR 0) with (Fin 0). do 2 f_equal. assert (Z : forall a b, kernel k g a b = 0). { intros. apply (on_coag m g k i [] HM OM). fold m2. rewrite q_coagOn. exact E. }
    unfold smoluchowski. rewrite Sum_0; [ring|]. intros a _. apply Sum_0. intros b _. rewrite Z. ring.
Qed.

Lemma q_exact st : (coagOn m = true -> (p <= 17)%nat) ->
  setSourceTerms st eig m s = Ok (st, finish m2 (map (fun r => Fin (qmomSource k g M0 M1 w x o r)) (seq 0 (2 * p)))
    (Fin (oN1 o)) (Fin (kg * areaCoef * fracMoment w x (1 - 1 / 3))) (Fin (- ko * areaCoef * fracMoment w x (1 - 1 / 3))), s2).
Proof.
  intros HF. pose proof HQ as (Hp & Hn & P1 & Hw & Ha).
  destruct (outM_rest k g m i []) as (R1 & R2 & R3 & R4 & R5 & R6 & R7 & R8). fold m2 in R1, R2, R3, R4, R5, R6, R7, R8.
  set (S2 := fracMoment w x (1 - 1 / 3)).
    unfold setSourceTerms. rewrite Hp. unfold setSourceTermsQMOM. rewrite (v_soot _ _ _ V), EN. cbn [bind]. fold s1. rewrite q_chem. cbn [bind]. cbv zeta.
    rewrite R2, Hn.
    rewrite (mapM_ok (qmomCnd (N:=XR) m2 s2) (fun r => Fin (condense k g w x o r))) by (intros; apply q_cnd). cbn [bind].
    rewrite (mapM_ok (qmomSurf (N:=XR) (growOn m2) (Fin kg) s2) (fun r => Fin (kg * areaCoef * INR r * fracMoment w x (INR r - 1 / 3)))) by (intros; apply q_grw). cbn [bind].
    rewrite (mapM_ok (qmomSurf (N:=XR) (oxidOn m2) (@nopp XR (Fin ko)) s2) (fun r => Fin (- ko * areaCoef * INR r * fracMoment w x (INR r - 1 / 3)))) by (intros; apply q_oxi). cbn [bind].
    match goal with |- context [bind (mapM ?f ?l) ?h] => rewrite (mapM_ok f (fun r => Fin (smoluchowski k g w x r)) l) end.
    2: { intros r Hr. apply in_seq in Hr. apply q_coa. intros E. specialize (HF E). lia. }
    cbn [bind]. f_equal. apply f_equal2; [|reflexivity]. apply f_equal2; [reflexivity|].
    assert (NT : forall (f : nat -> xr) r, (r < 2 * p)%nat -> nth r (map f (seq 0 (2 * p))) (@nZ XR 0) = f r).
    { intros f r Hr. rewrite (nth_indep _ _ (f 0%nat)) by (rewrite map_length, seq_length; exact Hr). rewrite map_nth, seq_nth by exact Hr. reflexivity. }
    apply finish_eq.
    + unfold combine5. apply map_ext_in. intros r Hr. apply in_seq in Hr.
      rewrite !NT by lia. rewrite (q_nuc r). fin. f_equal. unfold qmomSource, kg, ko. ring.
    + rewrite NT by lia. rewrite (q_nuc 1). f_equal. unfold oN1. ring.
    + rewrite NT by lia. f_equal. cbn [INR]. fold S2. ring.
    + rewrite NT by lia. f_equal. cbn [INR]. fold S2. ring.
Qed.
Lemma q_run st : (coagOn m = true -> (p <= 17)%nat) ->
  exists m', setSourceTerms st eig m s = Ok (st, m', s2) /\
    soots m' = map (fun r => Fin (qmomSource k g M0 M1 w x o r)) (seq 0 (2 * p)) /\
    gasBudget m' k g o (kg * areaCoef * fracMoment w x (1 - 1 / 3)) (ko * areaCoef * fracMoment w x (1 - 1 / 3)) /\
    pahs m' = pahSourcesOf k g (pahs m) /\ hasAll m' k /\ isQmom m' s2 p.
Proof.
  intros HF. pose proof HQ as (Hp & Hn & P1 & Hw & Ha).
  destruct (outM_rest k g m i []) as (R1 & R2 & R3 & R4 & R5 & R6 & R7 & R8). fold m2 in R1, R2, R3, R4, R5, R6, R7, R8.
  set (S2 := fracMoment w x (1 - 1 / 3)).
  destruct (finish_all m g k i [] HM OM (map (fun r => Fin (qmomSource k g M0 M1 w x o r)) (seq 0 (2 * p))) (oN1 o) (kg * areaCoef * S2) (- ko * areaCoef * S2) eq_refl) as (F1 & F2 & F3 & F4 & F5 & F6).
  fold m2 in F1, F2, F3, F4, F5, F6.
  eexists. split; [exact (q_exact st HF)|split; [exact F1|split; [|split; [exact F3|split; [exact F4|]]]]].
  - apply (budget_eq _ _ _ _ _ _ _ _ F2); unfold S2; ring.
  - split; [exact (eq_trans F5 Hp)|]. split; [exact (eq_trans R2 Hn)|]. split; [exact P1|].
    rewrite W2, A2, !map_length. split; assumption.
Qed.
Lemma q_throw st : coagOn m = true -> (18 <= p)%nat -> setSourceTerms st eig m s = Throw ERunBinomial.
Proof.
  intros On Hp18. pose proof HQ as (Hp & Hn & P1 & Hw & Ha). pose proof OM as (_ & _ & _ & _ & OC & OF).
  destruct (outM_rest k g m i []) as (R1 & R2 & R3 & R4 & R5 & R6 & R7 & R8). fold m2 in R1, R2, R3, R4, R5, R6, R7, R8.
  unfold setSourceTerms. rewrite Hp. unfold setSourceTermsQMOM. rewrite (v_soot _ _ _ V), EN. cbn [bind]. fold s1. rewrite q_chem. cbn [bind]. cbv zeta.
  rewrite R2, Hn.
  rewrite (mapM_ok (qmomCnd (N:=XR) m2 s2) (fun r => Fin (condense k g w x o r))) by (intros; apply q_cnd). cbn [bind].
  rewrite (mapM_ok (qmomSurf (N:=XR) (growOn m2) (Fin kg) s2) (fun r => Fin (kg * areaCoef * INR r * fracMoment w x (INR r - 1 / 3)))) by (intros; apply q_grw). cbn [bind].
  rewrite (mapM_ok (qmomSurf (N:=XR) (oxidOn m2) (@nopp XR (Fin ko)) s2) (fun r => Fin (- ko * areaCoef * INR r * fracMoment w x (INR r - 1 / 3)))) by (intros; apply q_oxi). cbn [bind].
  assert (ES : seq 0 (2 * p) = seq 0 35 ++ 35%nat :: seq 36 (2 * p - 36)).
  { replace (2 * p)%nat with (35 + S (2 * p - 36))%nat at 1 by lia. rewrite seq_app. reflexivity. }
  match goal with |- context [bind (mapM ?f _) ?h] => assert (EM : mapM f (seq 0 (2 * p)) = Throw ERunBinomial) end.
  { rewrite ES. apply mapM_throw.
    - intros r Hr. apply in_seq in Hr. eexists. apply q_coa. intros _. lia.
    - rewrite q_coagOn, On, C2. apply (coag_throws s2 k w x Lxw A2); lia. }
  rewrite EM. reflexivity.
Qed.
End Run.
