(** One whole call of the interpolative closure model on extended reals. *)
From Coq Require Import ZArith List Bool Reals Lra Lia.
From Verif Require Import Num Defs State Coag Nucl Growth Oxid Tar SootModel Momic Calls XR XRLemmas NumLaws SpecChem SpecCoag SpecValid SpecRates SpecGas SpecPah SpecPsd SpecSect SpecQmom SpecBinomial SpecLogn SpecMomic
  CoagProofs StateXR ValidProofs InterpProofs GasProofs RateProofs PsdProofs PahProofs PahMain MonoProofs ChemAll SectProofs SectMain QmomRun LognProofs LognMain LognFinal MomicProofs MomicMain MomicRun.
Import ListNotations.
Local Open Scope R_scope.

Lemma momCoag_out k g i M r : momCoag k (oGas (nucl k g i)) M r = momCoag k g M r.
Proof. unfold nucl. destruct (isP k); reflexivity. Qed.
Lemma momHits_out k g i x M r : momHits k (oGas (nucl k g i)) x M r = momHits k g x M r.
Proof. unfold nucl. destruct (isP k); reflexivity. Qed.
Lemma condFM_out k g i x M r : condFM k (oGas (nucl k g i)) x M r = condFM k g x M r.
Proof. unfold nucl. destruct (isP k); reflexivity. Qed.
Lemma condCo_out k g i x M : condCo (oGas (nucl k g i)) x M = condCo g x M.
Proof. unfold nucl. destruct (isP k); reflexivity. Qed.

(** a call once the tables are set; [coa] are the coagulation rates, [cnd] the condensation rates *)
Definition surfOf (d : interpData (N:=XR)) (kk : R) (r : nat) : R :=
  match r with O => 0 | _ => kk * areaCoef * INR r * match momMr (id_Nmom d) (id_diff0 d) (Fin (INR r - 1 / 3)) with Fin v => v | _ => 0 end end.
Lemma surf_val on v d r : (on = false -> v = 0) -> momicSurf (N:=XR) on (Fin v) d r = Fin (surfOf d v r).
Proof.
  intros H. unfold momicSurf, surfOf. destruct r as [|r]; [now rewrite andb_false_r|]. cbn [Nat.leb]. rewrite andb_true_r. destruct on.
  - rewrite nn_INR. assert (E : @nsub XR (Fin (INR (S r))) onethird = Fin (INR (S r) - 1 / 3)). { unfold onethird. xsimp. reflexivity. }
    rewrite E. destruct (momMr_fin (id_Nmom d) (id_diff0 d) (Fin (INR (S r) - 1 / 3))) as (z & Ez & _). rewrite Ez.
    rewrite Acoef_val. fin. reflexivity.
  - rewrite H by auto. cbn iota. rewrite !Rmult_0_l. reflexivity.
Qed.

Lemma sees_m (m : model (N:=XR)) (d : interpData (N:=XR)) M : sm_psd m = P_MOMIC -> (3 <= length M)%nat -> seesMoments (viewOf (with_priv m (PrivMomic d))) M (el M 0) (el M 1).
Proof. intros HP L. destruct M as [|a [|b t]]; cbn [length] in L; try lia. apply sees_moment. cbn [sm_psd with_priv]. rewrite HP. discriminate. Qed.
Section Call.
Context (m : model (N:=XR)) (s : state (N:=XR)) (g : gas) (k : mechs) (M : list R) (i : R) (eff : list xr).
Context (HM : hasAll m k) (OM : okAll k) (HC : momentCoag k) (V : valid s g M) (RG : regular k g (el M 0) (el M 1)) (HP : sm_psd m = P_MOMIC).
Context (L : (3 <= length M <= 7)%nat) (d : interpData (N:=XR)).
Context (EM : setMoments (N:=XR) npMOMIC nqMOMIC (momicData m) (sootVar s) = Ok d) (EN : id_Nmom d = length M).
Let m1 := with_priv m (PrivMomic d).
Let o := nucl k g i.
Let m2 := outM k g m1 i eff.
Let s2 := outS k g s.
Context (ECH : chemRates (collMOMIC m1) m1 s = Ok (Fin (oJ o), Fin (kgrow k g (el M 0) (el M 1)), Fin (koxid k g (el M 0) (el M 1)), m2, s2)).
Let HM1 : hasAll m1 k. Proof. exact HM. Qed.
Context (cnd : nat -> xr) (Ecnd : forall r, (r < length M)%nat -> momicCnd m2 s2 r = Ok (cnd r)).
Context (coa : list xr) (Ecoa : momCoagRates (sm_coag m2) s2 (length M) (id_Mp6 d) (id_Mq6 d) (Fin (el M 0)) = Ok coa).

Lemma call_part st eig :
  let kg := kgrow k g (el M 0) (el M 1) in let ko := koxid k g (el M 0) (el M 1) in
  exists m', setSourceTerms st eig m s = Ok (st, m', s2) /\
    soots m' = map (fun r => @nadd XR (@nadd XR (@nadd XR (@nadd XR (Fin (oJ o * nucMass (oGas o) ^ r)) (cnd r)) (Fin (surfOf d kg r))) (Fin (surfOf d (- ko) r))) (nth r coa (Fin 0))) (seq 0 (length M)) /\
    gasBudget m' k g o (surfOf d kg 1) (- surfOf d (- ko) 1) /\
    pahs m' = pahSourcesOf k g (pahs m) /\ hasAll m' k /\ sm_psd m' = P_MOMIC /\ sm_priv m' = sm_priv m2.
Proof.
  intros kg ko.
  set (L5 := combine5 (N:=XR) (length M) (fun r => Fin (oJ o * nucMass (oGas o) ^ r)) (fun r => nth r (map cnd (seq 0 (length M))) (Fin 0))
       (fun r => Fin (surfOf d kg r)) (fun r => Fin (surfOf d (- ko) r)) (fun r => nth r coa (Fin 0))).
  pose proof (finish_all m1 g k i eff HM1 OM L5
    (oN1 o) (surfOf d kg 1) (surfOf d (- ko) 1) eq_refl) as FA.
  destruct FA as (FL & FG & FP & FH & FS & _).
  exists (finish m2 L5 (Fin (oN1 o)) (Fin (surfOf d kg 1)) (Fin (surfOf d (- ko) 1))). split; [|split; [|split; [|split; [|split; [|split]]]]].
  - unfold setSourceTerms. rewrite HP. unfold setSourceTermsMOMIC. rewrite EM. cbn [bind]. fold m1.
    rewrite ECH. cbn [bind]. rewrite EN.
    rewrite (mapM_ok _ cnd) by (intros r Hr; apply in_seq in Hr; apply Ecnd; lia). cbn [bind].
    assert (V0 : vget (sootVar s) 0 = Ok (Fin (el M 0))). { rewrite (v_soot _ _ _ V). apply vget_fin. lia. }
    assert (CO : coagOn m2 = true). { unfold coagOn, m2. rewrite (coag2 m1 g k i eff HM1). destruct HC as [E|[E|E]]; rewrite E; reflexivity. }
    rewrite CO. change (@num XR) with xr in *. rewrite V0. cbn [bind]. rewrite Ecoa. cbn [bind]. do 3 f_equal.
    unfold s2. rewrite (mNuc_val s g k _ i V). fold o.
    assert (ENr : forall r, (if nuclOn m2 return @num XR then @nmul XR (@npow XR (Fin (nucMass (oGas o))) (nn r)) (Fin (oJ o)) else nZ 0) = Fin (oJ o * nucMass (oGas o) ^ r)).
    { intros r. destruct (nuclOn m2) eqn:E.
      - rewrite npow_nat. { fin. f_equal. ring. } unfold nucMass. pose proof (v_cMinpos _ _ _ (outS_valid k s g _ i V)) as PC. fold o in PC. apply Rlt_le. pose proof massC_pos. pose proof avo_pos. pos.
      - pose proof (on_nucl m1 g k i eff HM1 E) as Z. fold o in Z. rewrite Z. change (@nZ XR 0) with (Fin 0). f_equal. ring. }
    assert (ESg : forall r, momicSurf (growOn m2) (Fin kg) d r = Fin (surfOf d kg r)). { intros r. apply surf_val. intros E. exact (on_grow m1 g k i eff HM1 _ _ E). }
    assert (ESo : forall r, momicSurf (oxidOn m2) (@nopp XR (Fin ko)) d r = Fin (surfOf d (- ko) r)). { intros r. change (@nopp XR (Fin ko)) with (Fin (- ko)). apply surf_val. intros E. unfold ko. rewrite (on_oxid m1 g k i eff HM1 _ _ E). ring. }
    apply finish_eq.
    + unfold L5, combine5. apply map_ext. intros r. rewrite ENr. fold kg ko. rewrite ESg, ESo. reflexivity.
    + rewrite ENr. f_equal. unfold oN1. cbn [pow]. ring.
    + apply ESg.
    + apply ESo.
  - refine (eq_trans FL _). unfold L5, combine5. apply map_ext_in. intros r Hr. apply in_seq in Hr. fold kg ko.
    change (@nZ XR 0) with (Fin 0). f_equal. f_equal. f_equal. f_equal. exact (nth_table cnd (length M) r (Fin 0) ltac:(lia)).
  - fold o in FG. exact FG.
  - exact FP.
  - exact FH.
  - exact (eq_trans FS HP).
  - reflexivity.
Qed.
End Call.

Lemma momCoag_1 k g M : momCoag k g M 1 = 0.
Proof. unfold momCoag. destruct (mC k); reflexivity. Qed.
Lemma momicMom_pos M z : 0 < momicMom M z. Proof. apply exp_pos. Qed.

Lemma momic_run (m : model (N:=XR)) s g k M st eig :
  readyMomic m s g k M -> allPos M -> (isP k = true -> somePah g) ->
  let o := nucl k g (momHits k g (dimerMass g) (momicMom M) 1) in
  let kk := kgrow k g (el M 0) (el M 1) - koxid k g (el M 0) (el M 1) in
  exists m', setSourceTerms st eig m s = Ok (st, m', outS k g s) /\
    soots m' = map (fun r => Fin (momicSource k g M o r)) (seq 0 (length M)) /\
    gasBudget m' k g o (kgrow k g (el M 0) (el M 1) * areaCoef * momentAt M (2 / 3)) (koxid k g (el M 0) (el M 1) * areaCoef * momentAt M (2 / 3)) /\
    pahs m' = pahSourcesOf k g (pahs m) /\ hasAll m' k /\ sm_psd m' = P_MOMIC /\ momicArrays m' (length M).
Proof.
  intros (HP & (row & p & q & x0 & EP & LP & LQ) & HM & OM & HC & V & RG & L) AP HS o kk. pose proof OM as (_ & _ & _ & _ & _ & OF).
  set (i := if isP k then momHits k g (dimerMass g) (momicMom M) 1 else 0).
  assert (EO : o = nucl k g i). { unfold o, i, nucl. destruct (isP k); reflexivity. }
  destruct (moments_val M (mkInterp (length M) row p q x0) L AP eq_refl LP LQ) as (p6 & q6 & EM & L6 & L7 & H6 & H7).
  assert (ED : momicData m = mkInterp (length M) row p q x0) by (unfold momicData; now rewrite EP).
  rewrite <- ED in EM. rewrite <- (v_soot _ _ _ V) in EM.
  match type of EM with _ = Ok ?D => set (d := D) in * end.
  set (m1 := with_priv m (PrivMomic d)).
  pose proof (outS_valid k s g _ i V) as V2. rewrite <- EO in V2.
  assert (PF := momicMom_pos M).
  assert (Hx : isP k = true -> 0 < dimerMass g). { intros E. eapply dimerMass_pos; eauto. eapply pahTotal_some; eauto. }
  assert (Hi : 0 <= i).
  { unfold i. destruct (isP k) eqn:E; [|lra]. pose proof (Hx eq_refl). unfold momHits. apply Rlt_le. apply harm_pos; [apply (condFM_pos s g k M)|apply (condCo_pos s g M)]; auto. }
  assert (HM1 : hasAll m1 k) by exact HM.
  assert (EK : sm_coag m = with_f (mC k) (mF k)) by (destruct HM as (_ & _ & _ & E); exact E).
  assert (EI : isP k = true -> collMOMIC m1 (with_cMin s (Fin (pahCMin g))) (Fin (dimerMass g)) = Ok (Fin i, [Fin (dimerMass g)])).
  { intros E. specialize (Hx E). unfold outS in V2. rewrite E in V2.
    assert (IP : isPAH m1 = true). { destruct HM as (A & _). rewrite E in A. destruct A as (_ & A & _). unfold isPAH, m1. cbn [sm_nucl with_priv]. now rewrite A. }
    unfold collMOMIC. rewrite IP. cbn [negb]. unfold m1 at 1 2. unfold momicData. cbn [sm_priv with_priv id_Mp6 id_Mq6 d sm_coag].
    rewrite (kslip_val _ _ _ V2), (kc_val _ _ _ V2), (kfm_val _ _ _ V2 _ (mF k)) by (unfold m1; cbn [sm_coag with_priv]; rewrite EK; reflexivity).
    rewrite (bracket_val _ _ _ (length M) _ _ V2 L H6 _ Hx). cbn [bind].
    change 1%Z with (Z.of_nat 1). rewrite (ggrid_val (length M) q6 _ L PF H7 _ Hx 1) by lia. cbn [bind].
    pose proof (condFM_pos _ _ k _ (momicMom M) V2 OF (dimerMass g) 1) as C1. pose proof (condCo_pos _ _ _ _ V2 PF _ Hx) as C2. unfold condFM in C1.
    pose proof (kC_pos _ _ _ V2). fin. rewrite xdiv_fin by (apply Rgt_not_eq; replace (kC (oGas o) * _) with (condCo (oGas o) (dimerMass g) (momicMom M)) by (field; lra); lra).
    do 3 f_equal. unfold i. rewrite E. rewrite EO in *. rewrite <- (momHits_out k g i). unfold momHits, harm, condFM.
    replace (kC (oGas (nucl k g i)) * (condCo (oGas (nucl k g i)) (dimerMass g) (momicMom M) / kC (oGas (nucl k g i)))) with (condCo (oGas (nucl k g i)) (dimerMass g) (momicMom M)) by (field; lra). reflexivity. }
  assert (ECND : forall r, (r < length M)%nat -> momicCnd (outM k g m1 i [Fin (dimerMass g)]) (outS k g s) r = Ok (Fin (condPart k g (momicMom M) o r))).
  { intros r Hr. unfold momicCnd. rewrite (outM_isPAH k g m1 i _ HM1). unfold condPart. destruct (isP k) eqn:E; [|destruct r; reflexivity].
    destruct r as [|r]; [reflexivity|]. cbn [andb Nat.leb]. specialize (Hx eq_refl).
    assert (EP2 : sm_priv (outM k g m1 i [Fin (dimerMass g)]) = PrivMomic (mkInterp (length M) (id_diff0 d) p6 q6 (Some (Fin (dimerMass g))))).
    { unfold outM. rewrite E. reflexivity. }
    unfold momicData. rewrite EP2. cbn [id_mass id_Mp6 id_Mq6].
    destruct (outM_dimer k g m1 i [Fin (dimerMass g)] E) as (D1 & D2). rewrite D1, D2. rewrite <- EO. rewrite (coag2 m1 g k i [Fin (dimerMass g)] HM1).
    assert (EMs : oMass o = dimerMass g) by (unfold o, nucl; rewrite E; reflexivity).
    assert (PN : 0 < oConc o). { rewrite EO. unfold nucl. rewrite E. cbn [oConc]. apply (conc_steady s g M V (HS eq_refl) i Hi). }
    rewrite EMs.
    rewrite (kslip_val _ _ _ V2), (kc_val _ _ _ V2), (kfm_val _ _ _ V2 _ (mF k)) by (destruct (mC k); reflexivity).
    rewrite (bracket_val _ _ _ (length M) _ _ V2 L H6 _ Hx). cbn [bind].
    rewrite (ggrid_val (length M) q6 _ L PF H7 _ Hx (S r)) by lia. cbn [bind].
    pose proof (condFM_pos _ _ k _ (momicMom M) V2 OF (dimerMass g) (S r)) as C1. pose proof (condCo_pos _ _ _ _ V2 PF _ Hx) as C2.
    pose proof (kC_pos _ _ _ V2) as C3. rewrite nn_INR. assert (PI : 0 < INR (S r)) by (apply lt_0_INR; lia). fin.
    set (c := condCo (oGas o) (dimerMass g) (momicMom M)) in *. set (u := kC (oGas o)) in *.
    replace (INR (S r) * u * oConc o * dimerMass g * (c / u)) with (INR (S r) * oConc o * dimerMass g * c) by (field; lra).
    replace (INR (S r) * kFM (mF k) (oGas o) * oConc o * dimerMass g * gridHalf (powers (dimerMass g)) (momicMom M) 0 (S r - 1) (S r))
      with (INR (S r) * oConc o * dimerMass g * condFM k (oGas o) (dimerMass g) (momicMom M) (S r)) by (unfold condFM; ring).
    set (b := condFM k (oGas o) (dimerMass g) (momicMom M) (S r)) in *.
    assert (0 < INR (S r) * oConc o * dimerMass g) by pos. rewrite xdiv_fin by (apply Rgt_not_eq; nra).
    do 2 f_equal. assert (EH : momHits k g (dimerMass g) (momicMom M) (S r) = harm b c).
    { rewrite <- (momHits_out k g i), <- EO. reflexivity. }
    rewrite EH. unfold harm. field. split; [lra|]. nra. }
  pose proof (coagRates_val (outS k g s) (oGas o) k M (length M) p6 q6 (momicMom M) V2 OF L PF H6 H7 (el M 0)) as ECO.
  rewrite <- (coag2 m1 g k i [Fin (dimerMass g)] HM1) in ECO. specialize (ECO ltac:(apply AP; unfold el; apply nth_In; lia) HC).
  destruct (call_part m s g k M i [Fin (dimerMass g)] HM OM HC V HP L d EM eq_refl (chem_all m1 s g k M i _ (collMOMIC m1) V HM1 OM Hi EI _ _ (sees_m m d M HP ltac:(lia)) RG) _ ECND _ ECO st eig) as (m' & A & B & C & D & E & F & G).
  exists m'. split; [exact A|]. split; [|split; [|split; [exact D|split; [exact E|split; [exact F|]]]]].
  - rewrite B. apply map_ext_in. intros r Hr. apply in_seq in Hr. rewrite <- EO.
    assert (EC : nth r (map (fun r => Fin (momCoag k (oGas o) (momicMom M) r)) (seq 0 (length M))) (Fin 0) = Fin (momCoag k g (momicMom M) r)).
    { rewrite (nth_table (fun r => Fin (momCoag k (oGas o) (momicMom M) r)) (length M) r (Fin 0)) by lia. rewrite EO. now rewrite momCoag_out. }
    rewrite EC. change (@nadd XR) with xadd. cbn [xadd]. f_equal. unfold momicSource. fold kk.
    assert (SV : forall v, surfOf d v r = surfPart v M r).
    { intros v. unfold surfOf, surfPart. destruct r; [reflexivity|]. unfold d. cbn [id_Nmom id_diff0]. rewrite momMr_val by lia. reflexivity. }
    rewrite !SV. unfold kk, surfPart. destruct r; ring.
  - rewrite <- EO in C.
    assert (SV : forall v, surfOf d v 1 = v * areaCoef * momentAt M (2 / 3)).
    { intros v. unfold surfOf, d. cbn [id_Nmom id_diff0]. rewrite momMr_val by lia. cbn [INR]. replace (1 - 1 / 3) with (2 / 3) by field. ring. }
    rewrite !SV in C. apply (budget_eq _ _ _ _ _ _ _ _ C); ring.
  - unfold momicArrays. rewrite G. unfold outM. destruct (isP k).
    + exists (id_diff0 d), p6, q6, (Some (Fin (dimerMass g))). split; [reflexivity|]. split; assumption.
    + exists (id_diff0 d), p6, q6, (id_mass (momicData m)). split; [reflexivity|]. split; assumption.
Qed.
