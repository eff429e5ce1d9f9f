(** Lemmas for the statements about the sectional model. *)
From Coq Require Import ZArith List Bool Reals Lra Lia.
From Verif Require Import Num Defs State Coag Nucl Growth Oxid Tar SootModel Sect Calls XR XRLemmas NumLaws
  SpecChem SpecCoag SpecValid SpecRates SpecGas SpecPah SpecPsd SpecSect CoagProofs StateXR ValidProofs InterpProofs GasProofs RateProofs PsdProofs PahProofs MonoProofs MonoMain ChemAll SectProofs SectRun SectMain.
Import ListNotations.
Local Open Scope R_scope.

(** ** C28 *)
Lemma geo_len c F n : length (geometric c F n) = n.
Proof. unfold geometric. now rewrite map_length, seq_length. Qed.
Lemma geo_el c F n j : (j < n)%nat -> el (geometric c F n) j = IZR c * F ^ j * (massC / avogadro).
Proof. intros H. unfold geometric. now rewrite el_seq. Qed.
Lemma unit_pos : 0 < massC / avogadro.
Proof. pos. Qed.
Lemma geo_good c F n : (2 <= n)%nat -> (0 < c)%Z -> 1 < F -> goodBins (geometric c F n).
Proof.
  intros Hn Hc HF. apply IZR_lt in Hc. pose proof unit_pos as U. unfold goodBins. rewrite geo_len. split; [exact Hn|]. split.
  - rewrite geo_el by lia. cbn [pow]. apply Rmult_lt_0_compat; [lra|exact U].
  - intros j Hj. rewrite !geo_el by lia. apply Rmult_lt_compat_r; [exact U|]. apply Rmult_lt_compat_l; [exact Hc|].
    cbn [pow]. assert (0 < F ^ j) by (apply pow_lt; lra). nra.
Qed.
Lemma set_mBins_val n F c : 0 < F -> set_mBins (N:=XR) n (Fin F) c = map Fin (geometric c F n).
Proof.
  intros HF. unfold set_mBins, geometric. rewrite map_map. apply map_ext. intros j.
  assert (EP : @npow XR (Fin F) (nn j) = Fin (F ^ j)).
  { unfold nn. change (@nlit XR (Z.of_nat j) 0) with (Fin (IZR (Z.of_nat j))). change (@npow XR) with xpow. rewrite xpow_fin by auto.
    rewrite <- INR_IZR_INZ, Rpower_pow by auto. reflexivity. }
  unfold nZ. rewrite EP. xsimp. vals. f_equal. unfold rlit. field. nz.
Qed.
Lemma C28_build newed nsoot nu gr ox co Ntar ta F c (m : model (N:=XR)) : (0 < c)%Z -> 1 < F ->
  build newed P_SECT nsoot nu gr ox co Ntar ta (Fin F) c = Ok m ->
  isSect m (geometric c F nsoot) F /\ goodBins (geometric c F nsoot).
Proof.
  intros Hc HF H. unfold build in H.
  assert (D : derivedCheck P_SECT nsoot (co_mech co) (ta_mech ta) = Ok tt -> (2 <= nsoot)%nat).
  { unfold derivedCheck. destruct (Nat.ltb_spec nsoot 2); [discriminate|auto]. }
  destruct (derivedCheck P_SECT nsoot (co_mech co) (ta_mech ta)) as [[]| |]; cbn [bind] in H; try discriminate.
  apply (f_equal (fun r => match r with Ok x => x | _ => m end)) in H. rewrite <- H. clear H.
  pose proof (D eq_refl) as Hn. split; [|now apply geo_good].
  split; [reflexivity|]. split; [symmetry; exact (geo_len c F nsoot)|]. split; [apply set_mBins_val; lra|].
  eexists. split; [reflexivity|]. unfold isPAH. cbn [sm_nucl]. intros E. destruct (nu_mech nu); try discriminate.
  rewrite geo_len. unfold zeros. now rewrite repeat_length.
Qed.
Lemma C28_ptr nsoot nu gr ox co Ntar ta F c (m : model (N:=XR)) : (0 < c)%Z -> 1 < F ->
  constructPtr P_SECT nsoot nu gr ox co Ntar ta (Fin F) c = Ok m ->
  isSect m (geometric c F nsoot) F /\ goodBins (geometric c F nsoot).
Proof. apply C28_build. Qed.
Lemma enum_build p ns n gr ox co Ntar ta F c (m : model (N:=XR)) : constructEnum p ns n gr ox co Ntar ta F c = Ok m ->
  build true p ns (newNucl n) (newGrow gr) (newOxid ox) (newCoag co) Ntar (newTar ta) F c = Ok m.
Proof.
  unfold constructEnum. intros H.
  assert (EN : mkNuclEnum (N:=XR) n = Ok (newNucl n) \/ exists e, mkNuclEnum (N:=XR) n = Throw e) by (destruct n; cbn; eauto).
  destruct EN as [EN|(e & EN)]; rewrite EN in H; cbn [bind] in H; [|discriminate].
  assert (EG : mkGrowEnum (N:=XR) gr = Ok (newGrow gr) \/ exists e, mkGrowEnum (N:=XR) gr = Throw e) by (destruct gr; cbn; eauto).
  destruct EG as [EG|(e & EG)]; rewrite EG in H; cbn [bind] in H; [|discriminate].
  assert (EO : mkOxidEnum (N:=XR) ox = Ok (newOxid ox) \/ exists e, mkOxidEnum (N:=XR) ox = Throw e) by (destruct ox; cbn; eauto).
  destruct EO as [EO|(e & EO)]; rewrite EO in H; cbn [bind] in H; [|discriminate].
  assert (EC : mkCoagEnum (N:=XR) co = Ok (newCoag co) \/ exists e, mkCoagEnum (N:=XR) co = Throw e) by (destruct co; cbn; eauto).
  destruct EC as [EC|(e & EC)]; rewrite EC in H; cbn [bind] in H; [|discriminate].
  assert (ET : mkTarEnum ta = Ok (newTar ta) \/ exists e, mkTarEnum ta = Throw e) by (destruct ta; cbn; eauto).
  destruct ET as [ET|(e & ET)]; rewrite ET in H; cbn [bind] in H; [exact H|discriminate].
Qed.
Lemma C28_enum nsoot n gr ox co Ntar ta F c (m : model (N:=XR)) : (0 < c)%Z -> 1 < F ->
  constructEnum P_SECT nsoot n gr ox co Ntar ta (Fin F) c = Ok m ->
  isSect m (geometric c F nsoot) F /\ goodBins (geometric c F nsoot) /\ hasAll m (mkMechs n gr ox co 1).
Proof.
  intros Hc HF H. pose proof (built _ _ _ _ _ _ _ _ _ _ _ H) as (A & _). apply enum_build in H.
  destruct (C28_build _ _ _ _ _ _ _ _ _ _ _ Hc HF H). auto.
Qed.

(** ** C29, C30: balances *)
Section Bal.
Context (m m' : model (N:=XR)) (s s' : state (N:=XR)) (g : gas) (k : mechs) (b n : list R) (F c : R) (st st' : option xr) (eig : Qmom.eigSolver (N:=XR)).
Context (HS : isSect m b F) (G : goodBins b) (HM : hasAll m k) (OM : okAll k) (V : valid s g n) (Ln : length n = length b).
Context (RG : regular k g (number n) (mass b n)) (HC : located st F c) (HE : setSourceTerms st eig m s = Ok (st', m', s')).
Let o := nucl k g (dimerHits k g b n).
Let src := sectSource k g b n c o.
Lemma sect_result : soots m' = map Fin (map src (seq 0 (length b))) /\
  gasBudget m' k g o (kgrow k g (number n) (mass b n) * totalArea b n) (koxid k g (number n) (mass b n) * totalArea b n) /\
  pahs m' = pahSourcesOf k g (pahs m) /\ hasAll m' k /\ isSect m' b F /\ s' = outS k g s /\ st' = if coagOn m then Some (Fin c) else st.
Proof.
  destruct (sect_run m s g k b n F HS G HM OM V Ln RG st c HC eig (sect_fits m s g k b n F HS G HM OM V Ln RG st c HC eig _ HE)) as (m1 & E & A1 & A2 & A3 & A4 & A5).
  pose proof (eq_trans (eq_sym HE) E) as X. apply (f_equal (fun r => match r with Ok x => x | _ => (st', m', s') end)) in X.
  pose proof (f_equal (fun p => fst (fst p)) X) as X1. pose proof (f_equal (fun p => snd (fst p)) X) as X2. pose proof (f_equal snd X) as X3. cbn [fst snd] in X1, X2, X3.
  rewrite X2, X3, X1. split; [rewrite A1, map_map; reflexivity|]. auto 10.
Qed.
Lemma src_mass : Sum (length b) (fun j => el b j * src j) =
  oN1 o + (kgrow k g (number n) (mass b n) - koxid k g (number n) (mass b n)) * totalArea b n + Sum (length b) (condensed k g b n o).
Proof.
  pose proof OM as (_ & _ & _ & _ & OC & OF).
  unfold src, sectSource. cbv zeta.
  rewrite (Sum_ext _ _ (fun j => el b j * (if Nat.eqb j 0 then oN1 o / el b 0 else 0)
     + (el b j * moveUp b (fun l => kgrow k g (number n) (mass b n) * binArea b n l) j
     + (el b j * moveUp b (condensed k g b n o) j
     + (el b j * moveDown b (fun l => koxid k g (number n) (mass b n) * binArea b n l) j
     + el b j * coagAt k g b n c j))))) by (intros; ring).
  rewrite !Sum_add. rewrite !(up_mass b G), (down_mass b G), (coag_mass b n G k g s n c V OC OF), !Sum_scal.
  rewrite (Sum_one _ 0).
  - cbn [Nat.eqb]. unfold totalArea. field. apply Rgt_not_eq. apply (bins_pos b G). destruct G; lia.
  - destruct G; lia.
  - intros j _ E. apply Nat.eqb_neq in E. rewrite E. ring.
Qed.
Lemma src_number : Sum (length b) src =
  oN1 o / el b 0
  + (kgrow k g (number n) (mass b n) * binArea b n (lastBin b) + condensed k g b n o (lastBin b)) / el b (lastBin b)
  - koxid k g (number n) (mass b n) * binArea b n 0 / el b 0
  - 1 / 2 * Sum (length b) (fun i => Sum (length b) (fun j => kernel k g (el b i) (el b j) * el n i * el n j))
  + 1 / 2 * Sum (length b) (fun i => Sum (length b) (fun j => if Nat.leb (lastBin b) (binOf c b (el b i + el b j))
        then kernel k g (el b i) (el b j) * el n i * el n j * ((el b i + el b j) / el b (lastBin b) - 1) else 0)).
Proof.
  unfold src, sectSource. cbv zeta. rewrite !Sum_add. rewrite !(up_number b G), (down_number b G), (coag_number b n G k g c).
  rewrite Sum_at by (destruct G; lia). unfold Rdiv. ring.
Qed.
End Bal.
