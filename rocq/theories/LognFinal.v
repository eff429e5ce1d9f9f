(** Source terms of the lognormal model on extended reals. *)
From Coq Require Import ZArith List Bool Reals Lra Lia.
From Verif Require Import Num Defs State Coag Nucl Growth Oxid Tar SootModel Logn Qmom Calls XR XRLemmas NumLaws
  SpecChem SpecCoag SpecValid SpecRates SpecGas SpecPah SpecPsd SpecSect SpecQmom SpecLogn CoagProofs StateXR ValidProofs InterpProofs GasProofs RateProofs PsdProofs PahProofs MonoProofs ChemAll SectProofs SectMain QmomProofs QmomRun LognProofs LognMain.
Import ListNotations.
Local Open Scope R_scope.

Lemma hits_pos l x M j : 0 < x -> (forall c p q, In (c, p, q) l -> 0 < c) -> (forall z, 0 <= M z) ->
  (exists c p, In (c, p, 0%Z) l) -> 0 < M (6 * j)%Z -> 0 < hitsOf l x M j.
Proof.
  intros Hx P HM (c & p & Hin) Hj. unfold hitsOf, meanOf.
  assert (NN : forall l, (forall c p q, In (c, p, q) l -> 0 < c) -> 0 <= fold_right (fun t acc => let '(c, p, q) := t in c * Rpower x (sixth p) * M (q + 6 * j)%Z + acc) 0 l).
  { clear - HM. induction l as [|((c, p), q) l IH]; intros P; cbn [fold_right]; [lra|].
    assert (0 < c) by (apply (P c p q); cbn; auto). assert (0 < Rpower x (sixth p)) by apply exp_pos. pose proof (HM (q + 6 * j)%Z).
    assert (0 <= c * Rpower x (sixth p) * M (q + 6 * j)%Z) by nneg. assert (K : forall c p q, In (c, p, q) l -> 0 < c) by (intros ? ? ? HH; apply (P c0 p0 q0); cbn; auto).
    specialize (IH K). lra. }
  induction l as [|((c', p'), q') l IH]; [destruct Hin|]. cbn [fold_right].
  assert (Pl : forall c p q, In (c, p, q) l -> 0 < c) by (intros ? ? ? HH; apply (P c0 p0 q); cbn; auto).
  assert (Pc : 0 < c') by (apply (P c' p' q'); cbn; auto). assert (PX : 0 < Rpower x (sixth p')) by apply exp_pos.
  destruct Hin as [E|Hin].
  - injection E as -> -> ->. rewrite Z.add_0_l. assert (0 < c * Rpower x (sixth p) * M (6 * j)%Z) by pos. specialize (NN l Pl). lra.
  - specialize (IH Pl Hin). pose proof (HM (q' + 6 * j)%Z). assert (0 <= c' * Rpower x (sixth p') * M (q' + 6 * j)%Z) by nneg. lra.
Qed.
Lemma harm_pos a b : 0 < a -> 0 < b -> 0 < harm a b.
Proof. intros; unfold harm. pos. Qed.

(** constants of the coagulation kernels do not depend on the nucleus size *)
Lemma lognC0_out k g i M : lognC0 k (oGas (nucl k g i)) M = lognC0 k g M.
Proof. unfold nucl. destruct (isP k); reflexivity. Qed.
Lemma lognC2_out k g i M : lognC2 k (oGas (nucl k g i)) M = lognC2 k g M.
Proof. unfold nucl. destruct (isP k); reflexivity. Qed.
Lemma lognHits_out k g i x M j : lognHits k (oGas (nucl k g i)) x M j = lognHits k g x M j.
Proof. unfold nucl. destruct (isP k); reflexivity. Qed.

Section S.
Context (s : state (N:=XR)) (g : gas) (k : mechs) (M0 M1 M2 x : R).
Context (V : valid s g [M0; M1; M2]) (OF : 0 < mF k) (X : 0 < x).
Let P0 : 0 <= M0. Proof. apply (v_sootpos _ _ _ V). cbn; auto. Qed.
Let P1 : 0 <= M1. Proof. apply (v_sootpos _ _ _ V). cbn; auto. Qed.
Let P2 : 0 <= M2. Proof. apply (v_sootpos _ _ _ V). cbn; auto. Qed.
Let M := mom M0 M1 M2.
Let Kc := with_f (mC k) (mF k).
Lemma fm_hits j : 0 < M (6 * j)%Z -> 0 < hitsOf (fmTerms (mF k) g) x M j.
Proof.
  intros Hj. apply hits_pos; auto.
  - intros c p q. apply (fm_terms_pos s g _ (mF k) c p q V OF).
  - intros z. unfold M. now apply mom_nn.
  - eexists. eexists. left. reflexivity.
Qed.
Lemma co_hits j : 0 < M (6 * j)%Z -> 0 < hitsOf (coTerms g) x M j.
Proof.
  intros Hj. apply hits_pos; auto.
  - intros c p q. apply (co_terms_pos s g _ c p q V).
  - intros z. unfold M. now apply mom_nn.
  - eexists. eexists. left. reflexivity.
Qed.
Lemma hits_gt j : 0 < M (6 * j)%Z -> 0 < lognHits k g x M j.
Proof. intros. apply harm_pos; [now apply fm_hits|now apply co_hits]. Qed.

(** the two harmonic means *)
Lemma hm1_val : 0 < M0 ->
  let a := lognIfm1 (N:=XR) (getKfm Kc s) (Fin x) (Fin M0) (Fin M1) (Fin M2) in
  let b := lognIc1 (N:=XR) (getKc s) (getKcp s) (Fin x) (Fin M0) (Fin M1) (Fin M2) in
  @nmul XR a b = Fin (hitsOf (fmTerms (mF k) g) x M 0 * hitsOf (coTerms g) x M 0) /\
  @nadd XR a b = Fin (hitsOf (fmTerms (mF k) g) x M 0 + hitsOf (coTerms g) x M 0) /\
  0 < hitsOf (fmTerms (mF k) g) x M 0 + hitsOf (coTerms g) x M 0.
Proof.
  intros Z a b. assert (H0 : 0 < M (6 * 0)%Z) by exact Z. pose proof (fm_hits 0 H0). pose proof (co_hits 0 H0).
  unfold a, b. rewrite (kfm_val s g _ V Kc (mF k)) by reflexivity. rewrite (kc_val s g _ V), (kslip_val s g _ V).
  rewrite (Ifm1_val g M0 M1 M2 P0 P1 P2 x X k), (Ic1_val g M0 M1 M2 P0 P1 P2 x X).
  split; [reflexivity|]. split; [reflexivity|]. lra.
Qed.
Lemma hm2_val : 0 < M1 ->
  let a := lognIfm2 (N:=XR) (getKfm Kc s) (Fin x) (Fin M0) (Fin M1) (Fin M2) in
  let b := lognIc2 (N:=XR) (getKc s) (getKcp s) (Fin x) (Fin M0) (Fin M1) (Fin M2) in
  @nmul XR a b = Fin (2 * hitsOf (fmTerms (mF k) g) x M 1 * (2 * hitsOf (coTerms g) x M 1)) /\
  @nadd XR a b = Fin (2 * hitsOf (fmTerms (mF k) g) x M 1 + 2 * hitsOf (coTerms g) x M 1) /\
  0 < hitsOf (fmTerms (mF k) g) x M 1 + hitsOf (coTerms g) x M 1.
Proof.
  intros Z a b. assert (H0 : 0 < M (6 * 1)%Z) by exact Z. pose proof (fm_hits 1 H0). pose proof (co_hits 1 H0).
  unfold a, b. rewrite (kfm_val s g _ V Kc (mF k)) by reflexivity. rewrite (kc_val s g _ V), (kslip_val s g _ V).
  rewrite (Ifm2_val g M0 M1 M2 P0 P1 P2 x X k), (Ic2_val g M0 M1 M2 P0 P1 P2 x X).
  split; [reflexivity|]. split; [reflexivity|]. lra.
Qed.
End S.

Lemma surf1_val v z M0 M1 M2 : 0 <= M0 -> 0 <= M1 -> 0 <= M2 -> z <> 0%Z -> z <> 6%Z ->
  lognSurf1 (N:=XR) (Fin v) (lognM (Fin M0) (Fin M1) (Fin M2) z) = Fin (v * areaCoef * mom M0 M1 M2 z).
Proof. intros. rewrite M_val, mom_z by auto. unfold lognSurf1. xsimp. cvals. f_equal. unfold areaCoef, sootDensity. ring. Qed.
Lemma surf2_val v z M0 M1 M2 : 0 <= M0 -> 0 <= M1 -> 0 <= M2 -> z <> 0%Z -> z <> 6%Z ->
  lognSurf2 (N:=XR) (Fin v) (lognM (Fin M0) (Fin M1) (Fin M2) z) = Fin (2 * v * areaCoef * mom M0 M1 M2 z).
Proof. intros. rewrite M_val, mom_z by auto. unfold lognSurf2. xsimp. cvals. f_equal. unfold areaCoef, sootDensity. ring. Qed.

(** the part of the call after nucleation; [c1], [c2] are the condensation terms *)
Section Call.
Context (m : model (N:=XR)) (s : state (N:=XR)) (g : gas) (k : mechs) (M0 M1 M2 i : R).
Context (HM : hasAll m k) (OM : okAll k) (HC : momentCoag k) (V : valid s g [M0; M1; M2]) (RG : regular k g M0 M1) (HP : sm_psd m = P_LOGN).
Let P0 : 0 <= M0. Proof. apply (v_sootpos _ _ _ V). cbn; auto. Qed.
Let P1 : 0 <= M1. Proof. apply (v_sootpos _ _ _ V). cbn; auto. Qed.
Let P2 : 0 <= M2. Proof. apply (v_sootpos _ _ _ V). cbn; auto. Qed.
Let M := mom M0 M1 M2.
Let o := nucl k g i.
Let m2 := outM k g m i [].
Let s2 := outS k g s.
Let V2 : valid s2 (oGas o) [M0; M1; M2]. Proof. exact (outS_valid k s g _ i V). Qed.
Let HG : hasGOC m2 k. Proof. exact (outM_GOC k g m i [] (proj2 HM)). Qed.
Let SM : seesMoments (viewOf m2) [M0; M1; M2] M0 M1.
Proof. unfold m2. rewrite outM_view. apply sees_moment. rewrite HP. discriminate. Qed.

Lemma grow_part : (if growOn m2 then
      k0 <- growRate (sm_grow m2) (viewOf m2) s2 ;;
      Ok (lognSurf1 (N:=XR) k0 (lognM (Fin M0) (Fin M1) (Fin M2) 4%Z), lognSurf2 (N:=XR) k0 (lognM (Fin M0) (Fin M1) (Fin M2) 10%Z))
    else Ok (nZ 0, nZ 0)) = Ok (Fin (kgrow k g M0 M1 * areaCoef * M 4%Z), Fin (2 * kgrow k g M0 M1 * areaCoef * M 10%Z)).
Proof.
  destruct (growOn m2) eqn:E.
  - rewrite (grow_val _ _ _ _ _ _ _ V2 HG SM (regular_out k g i M0 M1 RG)). cbn [bind]. unfold o. rewrite kgrow_out.
    rewrite surf1_val, surf2_val by (auto; discriminate). reflexivity.
  - rewrite (on_grow m g k i [] HM M0 M1 E). change (@nZ XR 0) with (Fin 0). do 2 f_equal; f_equal; ring.
Qed.
Lemma oxid_part : (if oxidOn m2 then
      k0 <- oxidRate (sm_oxid m2) (viewOf m2) s2 ;;
      Ok (lognSurf1 (N:=XR) (@nopp XR k0) (lognM (Fin M0) (Fin M1) (Fin M2) 4%Z), lognSurf2 (N:=XR) (@nopp XR k0) (lognM (Fin M0) (Fin M1) (Fin M2) 10%Z))
    else Ok (nZ 0, nZ 0)) = Ok (Fin (- koxid k g M0 M1 * areaCoef * M 4%Z), Fin (2 * - koxid k g M0 M1 * areaCoef * M 10%Z)).
Proof.
  destruct (oxidOn m2) eqn:E.
  - rewrite (oxid_val _ _ _ _ _ _ _ V2 HG SM (regular_out k g i M0 M1 RG)). cbn [bind]. unfold o. rewrite koxid_out.
    change (@nopp XR (Fin (koxid k g M0 M1))) with (Fin (- koxid k g M0 M1)).
    rewrite surf1_val, surf2_val by (auto; discriminate). reflexivity.
  - rewrite (on_oxid m g k i [] HM M0 M1 E). change (@nZ XR 0) with (Fin 0). do 2 f_equal; f_equal; ring.
Qed.
Lemma coag_part : lognCoag (sm_coag m2) s2 (Fin M0) (Fin M1) (Fin M2) = (Fin (lognC0 k g M), Fin (lognC2 k g M)).
Proof.
  unfold m2. rewrite (coag2 m g k i [] HM). rewrite (coag_val s2 (oGas o) _ V2) by auto. unfold o. now rewrite lognC0_out, lognC2_out.
Qed.
Let c1 : xr := if isPAH m2 return @num XR then
   @ndiv XR (@nmul XR (@nmul XR (mDimer (sm_nucl m2)) (nDimer (sm_nucl m2))) (@nmul XR (lognIfm1 (N:=XR) (getKfm (sm_coag m2) s2) (mDimer (sm_nucl m2)) (Fin M0) (Fin M1) (Fin M2)) (lognIc1 (N:=XR) (getKc s2) (getKcp s2) (mDimer (sm_nucl m2)) (Fin M0) (Fin M1) (Fin M2))))
     (@nadd XR (lognIfm1 (N:=XR) (getKfm (sm_coag m2) s2) (mDimer (sm_nucl m2)) (Fin M0) (Fin M1) (Fin M2)) (lognIc1 (N:=XR) (getKc s2) (getKcp s2) (mDimer (sm_nucl m2)) (Fin M0) (Fin M1) (Fin M2)))
  else nZ 0.
Let c2 : xr := if isPAH m2 return @num XR then
   @ndiv XR (@nmul XR (@nmul XR (mDimer (sm_nucl m2)) (nDimer (sm_nucl m2))) (@nmul XR (lognIfm2 (N:=XR) (getKfm (sm_coag m2) s2) (mDimer (sm_nucl m2)) (Fin M0) (Fin M1) (Fin M2)) (lognIc2 (N:=XR) (getKc s2) (getKcp s2) (mDimer (sm_nucl m2)) (Fin M0) (Fin M1) (Fin M2))))
     (@nadd XR (lognIfm2 (N:=XR) (getKfm (sm_coag m2) s2) (mDimer (sm_nucl m2)) (Fin M0) (Fin M1) (Fin M2)) (lognIc2 (N:=XR) (getKc s2) (getKcp s2) (mDimer (sm_nucl m2)) (Fin M0) (Fin M1) (Fin M2)))
  else nZ 0.

Lemma call_part st eig : runNucl (collLOGN m) m s = Ok (Fin (oJ o), m2, s2) ->
  exists m', setSourceTerms st eig m s = Ok (st, m', s2) /\
    soots m' = [Fin (oJ o + lognC0 k g M);
                @nadd XR (@nadd XR (Fin (oN1 o + kgrow k g M0 M1 * areaCoef * M 4%Z)) c1) (Fin (- koxid k g M0 M1 * areaCoef * M 4%Z));
                @nadd XR (@nadd XR (Fin (oN1 o * nucMass (oGas o) + 2 * kgrow k g M0 M1 * areaCoef * M 10%Z)) c2) (Fin (2 * - koxid k g M0 M1 * areaCoef * M 10%Z + lognC2 k g M))] /\
    gasBudget m' k g o (kgrow k g M0 M1 * areaCoef * M 4%Z) (koxid k g M0 M1 * areaCoef * M 4%Z) /\
    pahs m' = pahSourcesOf k g (pahs m) /\ hasAll m' k /\ sm_psd m' = P_LOGN.
Proof.
  intros EJ.
  assert (EN : forall x, (oJ o = 0 -> x = 0) -> (if nuclOn m2 return @num XR then Fin x else nZ 0) = Fin x).
  { intros x Hx. apply ifFin. intros E. apply Hx. exact (on_nucl m g k i [] HM E). }
  assert (ENa : (if nuclOn m2 return @num XR then Fin (oJ o) else nZ 0) = Fin (oJ o)) by (apply EN; auto).
  assert (ENb : (if nuclOn m2 return @num XR then @nmul XR (Fin (oJ o)) (mNucOf s2) else nZ 0) = Fin (oN1 o)).
  { unfold s2. rewrite (mNuc_val s g k _ i V). fold o. apply EN. unfold oN1. intros H; rewrite H; ring. }
  assert (ENc : (if nuclOn m2 return @num XR then @nmul XR (@nmul XR (Fin (oJ o)) (mNucOf s2)) (mNucOf s2) else nZ 0) = Fin (oN1 o * nucMass (oGas o))).
  { unfold s2. rewrite (mNuc_val s g k _ i V). fold o. apply EN. unfold oN1. intros H; rewrite H; ring. }
  pose proof (finish_all m g k i [] HM OM
    [ @nadd XR (@nsub XR (@nadd XR (@nadd XR (Fin (oJ o)) (nZ 0)) (nZ 0)) (nZ 0)) (Fin (lognC0 k g M));
      @nadd XR (@nadd XR (@nadd XR (@nadd XR (Fin (oN1 o)) (Fin (kgrow k g M0 M1 * areaCoef * M 4%Z))) c1) (Fin (- koxid k g M0 M1 * areaCoef * M 4%Z))) (nZ 0);
      @nadd XR (@nadd XR (@nadd XR (@nadd XR (Fin (oN1 o * nucMass (oGas o))) (Fin (2 * kgrow k g M0 M1 * areaCoef * M 10%Z))) c2) (Fin (2 * - koxid k g M0 M1 * areaCoef * M 10%Z))) (Fin (lognC2 k g M))]
    (oN1 o) (kgrow k g M0 M1 * areaCoef * M 4%Z) (- koxid k g M0 M1 * areaCoef * M 4%Z) eq_refl) as FA.
  destruct FA as (FL & FG & FP & FH & FS & _).
  eexists. split; [|split; [|split; [|split; [|split]]]].
  - unfold setSourceTerms. rewrite HP. unfold setSourceTermsLOGN.
    rewrite (v_soot _ _ _ V). cbn [map vget nth_error bind]. rewrite EJ. cbn [bind]. rewrite grow_part. cbn [bind]. rewrite oxid_part. cbn [bind].
    rewrite coag_part, ENa, ENb, ENc. fold c1 c2. reflexivity.
  - refine (eq_trans FL _). change (@nZ XR 0) with (Fin 0). f_equal; [|f_equal; [|f_equal]].
    + xsimp. f_equal. ring.
    + change (@nadd XR (Fin (oN1 o)) (Fin (kgrow k g M0 M1 * areaCoef * M 4%Z))) with (Fin (oN1 o + kgrow k g M0 M1 * areaCoef * M 4%Z)).
      change (@nadd XR) with xadd. destruct c1; cbn [xadd]; auto. f_equal. ring.
    + change (@nadd XR (Fin (oN1 o * nucMass (oGas o))) (Fin (2 * kgrow k g M0 M1 * areaCoef * M 10%Z))) with (Fin (oN1 o * nucMass (oGas o) + 2 * kgrow k g M0 M1 * areaCoef * M 10%Z)).
      change (@nadd XR) with xadd. destruct c2; cbn [xadd]; auto. f_equal. ring.
  - apply (budget_eq _ _ _ _ _ _ _ _ FG); ring.
  - exact FP.
  - exact FH.
  - exact (eq_trans FS HP).
Qed.
End Call.

Lemma logn_run (m : model (N:=XR)) s g k M0 M1 M2 st eig :
  readyLogn m s g k M0 M1 M2 -> (isP k = true -> somePah g /\ 0 < M0 /\ 0 < M1) ->
  let o := nucl k g (lognHits k g (dimerMass g) (mom M0 M1 M2) 0) in
  exists m', setSourceTerms st eig m s = Ok (st, m', outS k g s) /\
    soots m' = map Fin (lognSources k g M0 M1 M2 o) /\
    gasBudget m' k g o (kgrow k g M0 M1 * areaCoef * mom M0 M1 M2 4%Z) (koxid k g M0 M1 * areaCoef * mom M0 M1 M2 4%Z) /\
    pahs m' = pahSourcesOf k g (pahs m) /\ hasAll m' k /\ sm_psd m' = P_LOGN.
Proof.
  intros (HP & HM & OM & HC & V & RG) HS o. pose proof OM as (_ & _ & _ & _ & _ & OF).
  set (i := lognHits k g (dimerMass g) (mom M0 M1 M2) 0) in *.
  assert (EC : sm_coag m = with_f (mC k) (mF k)) by (destruct HM as (_ & _ & _ & E); exact E).
  destruct (isP k) eqn:E.
  - destruct (HS eq_refl) as (SP & Z0 & Z1). assert (PT : 0 < pahTotal g) by (eapply pahTotal_some; eauto).
    assert (PD : 0 < dimerMass g) by (eapply dimerMass_pos; eauto).
    assert (Hi : 0 < i) by (apply (hits_gt s g k M0 M1 M2); auto).
    assert (EI : isPAH m = true).
    { destruct HM as (A & _). rewrite E in A. destruct A as (_ & A & _). unfold isPAH. now rewrite A. }
    assert (EJ : runNucl (collLOGN m) m s = Ok (Fin (oJ o), outM k g m i [], outS k g s)).
    { apply (runNucl_all _ m s g [M0; M1; M2] k i []); auto; [lra|]. intros _.
      unfold collLOGN. rewrite EI. cbn [negb]. change (sootVar (with_cMin s (Fin (pahCMin g)))) with (sootVar s). rewrite (v_soot _ _ _ V). cbn [map vget nth_error bind]. rewrite EC.
      pose proof (outS_valid k s g _ i V) as V2. unfold outS, nucl in V2. rewrite E in V2. cbn [oGas] in V2.
      destruct (hm1_val _ _ k M0 M1 M2 (dimerMass g) V2 OF PD Z0) as (A & B & C). rewrite A, B.
      change (@ndiv XR) with xdiv. rewrite xdiv_fin by (apply Rgt_not_eq; exact C). reflexivity. }
    destruct (call_part m s g k M0 M1 M2 i HM OM HC V RG HP st eig EJ) as (m' & A & B & C). exists m'. split; [exact A|]. split; [|exact C].
    rewrite B. clear B C A. rewrite (outM_isPAH k g m i [] HM), E.
    destruct (outM_dimer k g m i [] E) as (D1 & D2). rewrite D1, D2. rewrite (coag2 m g k i [] HM).
    assert (EM : oMass (nucl k g i) = dimerMass g) by (unfold nucl; rewrite E; reflexivity). rewrite EM.
    pose proof (outS_valid k s g _ i V) as V2.
    destruct (hm1_val _ _ k M0 M1 M2 (dimerMass g) V2 OF PD Z0) as (A1 & B1 & C1). rewrite A1, B1.
    destruct (hm2_val _ _ k M0 M1 M2 (dimerMass g) V2 OF PD Z1) as (A2 & B2 & C2). rewrite A2, B2.
    change (@ndiv XR) with xdiv. change (@nmul XR) with xmul. cbn [xmul]. rewrite !xdiv_fin by lra.
    change (@nadd XR) with xadd. cbn [xadd]. unfold lognSources. fold o. rewrite E, <- EM. fold o. cbn [map].
    rewrite EM in *. unfold o. rewrite <- !(lognHits_out k g i). fold o.
    unfold lognHits, harm. apply (f_equal2 cons); [reflexivity|]. apply (f_equal2 cons); [|apply (f_equal2 cons); [|reflexivity]].
    { f_equal. field. apply Rgt_not_eq. fold o in EM, C1. rewrite EM. exact C1. }
    { f_equal. field. fold o in EM, C2. rewrite EM. split; apply Rgt_not_eq; lra. }
  - assert (EJ : runNucl (collLOGN m) m s = Ok (Fin (oJ o), outM k g m i [], outS k g s)).
    { unfold o, nucl, outM, outS. rewrite E. cbn [oJ]. eapply runNucl_val; eauto using hasAll_mechs, okAll_any. }
    destruct (call_part m s g k M0 M1 M2 i HM OM HC V RG HP st eig EJ) as (m' & A & B & C). exists m'. split; [exact A|]. split; [|exact C].
    rewrite B. clear B C A. rewrite (outM_isPAH k g m i [] HM), E. change (@nZ XR 0) with (Fin 0). change (@nadd XR) with xadd. cbn [xadd].
    unfold lognSources. rewrite E. cbn [map]. fold o.
    repeat (apply f_equal2; [f_equal; ring|]). reflexivity.
Qed.
