(** One gas species more or less: what it does to the sources of a whole call. *)
From Coq Require Import ZArith List Bool Reals Lra Lia.
From Verif Require Import Num Defs State Coag Nucl Growth Oxid Tar SootModel Mono Qmom Momic Calls XR XRLemmas NumLaws SpecConfig SpecChem SpecCoag SpecValid SpecRates SpecGas SpecPah SpecPsd SpecSect SpecQmom SpecBinomial SpecLogn SpecMomic SpecFrame SpecFinite SpecScale SpecSigns SpecRich
  ConfigProofs CoagProofs StateXR ValidProofs InterpProofs GasProofs RateProofs PsdProofs PahProofs PahMain MonoProofs MonoMain ChemAll SectProofs SectMain SectBins SectCases SectFinal QmomProofs QmomRun QmomMain QmomFinal LognProofs LognMain LognFinal MomicProofs MomicMain MomicRun MomicFinal FrameMain FiniteMomic StateProofs FiniteMain SignsProofs ScaleMain RichProofs.
Import ListNotations.
Local Open Scope R_scope.

Definition withY (g : gas) (Y : gasSp -> R) : gas := mkGas (gT g) (gP g) (gRho g) (gMu g) (gCMin g) Y (gPah g).
Lemma richer_form sp g g' : richer sp g g' -> g' = withY g (gY g').
Proof. intros (A & B & C & D & E & F & _). destruct g'. cbn in *. subst. reflexivity. Qed.
Lemma same_form g : g = withY g (gY g). Proof. destruct g; reflexivity. Qed.

(** sources that depend on the gas composition through three rates only *)
Definition shape (n : nat) (NU S X C : nat -> R) (J kg ko : R) (m' : model (N:=XR)) : Prop :=
  soots m' = map (fun j => Fin (NU j * J + kg * S j - ko * X j + C j)) (seq 0 n).
Definition upward (p : psdMech) (b : list R) (n : nat) (NU S X : nat -> R) : Prop :=
  forall r, carries p n r -> 0 <= momentOf p b n NU r /\ 0 <= momentOf p b n S r /\ 0 <= momentOf p b n X r.

(** the share of nucleation that the PAH give *)
Definition pahPart (k : mechs) (g : gas) (i : R) (j : nat) : R := if isP k then pahNuclRate g i * nucMass (gasCMin g (pahCMin g)) ^ j else 0.
Definition gasPart (k : mechs) (g : gas) (j : nat) : R := if isP k then 0 else nucMass g ^ j.
Lemma nuc_split k g Y i j : oJ (nucl k (withY g Y) i) * nucMass (oGas (nucl k (withY g Y) i)) ^ j = gasPart k g j * Jnuc k (withY g Y) + pahPart k g i j.
Proof. unfold gasPart, pahPart, nucl. destruct (isP k); cbn [oJ oGas]; [|change (nucMass (withY g Y)) with (nucMass g); ring].
  change (pahNuclRate (withY g Y) i) with (pahNuclRate g i). change (nucMass (gasCMin (withY g Y) (pahCMin (withY g Y)))) with (nucMass (gasCMin g (pahCMin g))). ring. Qed.
Lemma nuc_split0 k g Y i : oJ (nucl k (withY g Y) i) = gasPart k g 0 * Jnuc k (withY g Y) + pahPart k g i 0.
Proof. rewrite <- nuc_split. cbn [pow]. ring. Qed.
Lemma nuc_split1 k g Y i : oN1 (nucl k (withY g Y) i) = gasPart k g 1 * Jnuc k (withY g Y) + pahPart k g i 1.
Proof. rewrite <- nuc_split. unfold oN1. cbn [pow]. ring. Qed.
Lemma mass_y k g Y i : oMass (nucl k (withY g Y) i) = oMass (nucl k g i). Proof. unfold nucl. destruct (isP k); reflexivity. Qed.
Lemma conc_y k g Y i : oConc (nucl k (withY g Y) i) = oConc (nucl k g i). Proof. unfold nucl. destruct (isP k); reflexivity. Qed.
Lemma gasPart_nn s0 k g soot j : valid s0 g soot -> 0 <= gasPart k g j.
Proof. intros V. unfold gasPart. destruct (isP k); [lra|]. apply pow_nn. exact (nucMass_nn s0 g soot V). Qed.

Section M.
Context (s0 : state (N:=XR)) (k : mechs) (g : gas) (soot : list R) (V0 : valid s0 g soot).
Lemma mono_shape M0 M1 : soot = [M0; M1] -> 0 < M0 -> exists NU S X C, upward P_MONO [] 2 NU S X /\
  forall Y m s w x st eig, let g' := withY g Y in sm_psd m = P_MONO -> hasAll m k -> okAll k -> noTar m -> valid s g' soot -> regular k g' M0 M1 ->
    wts s = [Fin w] -> absc s = [Fin x] -> exists st' m' s', setSourceTerms st eig m s = Ok (st', m', s') /\ shape 2 NU S X C (Jnuc k g') (kgrow k g' M0 M1) (koxid k g' M0 M1) m'.
Proof.
  intros -> P0. set (x := M1 / M0). set (i := M0 * kernel k g (dimerMass g) x). set (o := nucl k g i).
  exists (gasPart k g), (fun j => match j with O => 0 | _ => M0 * sphere x end), (fun j => match j with O => 0 | _ => M0 * sphere x end),
    (fun j => match j with O => pahPart k g i 0 - 1 / 2 * kernel k g x x * M0 ^ 2 | _ => pahPart k g i 1 + kernel k g (oMass o) x * M0 * oConc o * oMass o end).
  split.
  - intros r _. cbn [momentOf]. split; [eapply gasPart_nn; eauto|]. pose proof (sphere_nn x). assert (0 <= M0 * sphere x) by (apply Rmult_le_pos; lra). destruct r; lra.
  - intros Y m s w y st eig g' HP HM OM HT V RG EW EA.
    destruct (mono_full m s g' k M0 M1 st eig HP HM OM HT V P0 RG) as (m' & A & SO & _); [now rewrite EW|now rewrite EA|].
    do 3 eexists. split; [exact A|]. unfold shape. rewrite SO. cbn [seq map]. fold x.
    change (kernel k g') with (kernel k g). change (dimerMass g') with (dimerMass g). fold i.
    unfold g' at 1 2 3 4 5. rewrite nuc_split0, nuc_split1, mass_y, conc_y. fold g' o.
    apply (f_equal2 cons); [f_equal; ring|]. apply (f_equal2 cons); [f_equal; ring|reflexivity].
Qed.

Lemma logn_shape M0 M1 M2 : soot = [M0; M1; M2] -> exists NU S X C, upward P_LOGN [] 3 NU S X /\
  forall Y m s st eig, let g' := withY g Y in readyLogn m s g' k M0 M1 M2 -> (isP k = true -> somePah g' /\ 0 < M0 /\ 0 < M1) ->
    exists st' m' s', setSourceTerms st eig m s = Ok (st', m', s') /\ shape 3 NU S X C (Jnuc k g') (kgrow k g' M0 M1) (koxid k g' M0 M1) m'.
Proof.
  intros ->. set (M := mom M0 M1 M2). set (i := lognHits k g (dimerMass g) M 0). set (o := nucl k g i).
  set (cond := fun j => if isP k then oMass o * oConc o * lognHits k g (oMass o) M j else 0).
  set (S := fun j => match j with 1%nat => areaCoef * M 4%Z | 2%nat => 2 * areaCoef * M 10%Z | _ => 0 end).
  exists (gasPart k g), S, S,
    (fun j => match j with O => pahPart k g i 0 + lognC0 k g M | 1%nat => pahPart k g i 1 + cond 0%Z | _ => pahPart k g i 2 + 2 * cond 1%Z + lognC2 k g M end).
  split.
  - intros r _. cbn [momentOf]. split; [eapply gasPart_nn; eauto|].
    assert (HM : forall z, 0 <= M z) by (intros z; apply mom_nn; apply (v_sootpos _ _ _ V0); cbn; auto). pose proof area_nn as HC'.
    pose proof (Rmult_le_pos _ _ HC' (HM 4%Z)). pose proof (Rmult_le_pos _ _ HC' (HM 10%Z)). unfold S. destruct r as [|[|[|r]]]; lra.
  - intros Y m s st eig g' RD HS. destruct (logn_run m s g' k M0 M1 M2 st eig RD HS) as (m' & A & SO & _).
    do 3 eexists. split; [exact A|]. unfold shape. rewrite SO. unfold lognSources. cbv zeta. cbn [seq map]. fold M.
    change (lognHits k g') with (lognHits k g). change (dimerMass g') with (dimerMass g). change (lognC0 k g') with (lognC0 k g). change (lognC2 k g') with (lognC2 k g). fold i.
    assert (E2 : oN1 (nucl k g' i) * nucMass (oGas (nucl k g' i)) = gasPart k g 2 * Jnuc k g' + pahPart k g i 2).
    { transitivity (oJ (nucl k g' i) * nucMass (oGas (nucl k g' i)) ^ 2); [unfold oN1; ring|apply nuc_split]. }
    rewrite E2. unfold g'. rewrite nuc_split0, nuc_split1, mass_y, conc_y. fold g' o.
    change (if isP k then oMass o * oConc o * lognHits k g (oMass o) M 0 else 0) with (cond 0%Z). change (if isP k then oMass o * oConc o * lognHits k g (oMass o) M 1 else 0) with (cond 1%Z). unfold S.
    apply (f_equal2 cons); [f_equal; ring|]. apply (f_equal2 cons); [f_equal; ring|]. apply (f_equal2 cons); [f_equal; ring|reflexivity].
Qed.

Lemma momic_shape : SpecMomic.allPos soot -> exists NU S X C, upward P_MOMIC [] (length soot) NU S X /\
  forall Y m s st eig, let g' := withY g Y in readyMomic m s g' k soot -> (isP k = true -> somePah g') ->
    exists st' m' s', setSourceTerms st eig m s = Ok (st', m', s') /\ shape (length soot) NU S X C (Jnuc k g') (kgrow k g' (el soot 0) (el soot 1)) (koxid k g' (el soot 0) (el soot 1)) m'.
Proof.
  intros AP. set (i := momHits k g (dimerMass g) (momicMom soot) 1). set (o := nucl k g i).
  exists (gasPart k g), (surfPart 1 soot), (surfPart 1 soot), (fun r => pahPart k g i r + condPart k g (momicMom soot) o r + momCoag k g (momicMom soot) r).
  split.
  - intros r _. cbn [momentOf]. split; [eapply gasPart_nn; eauto|]. assert (0 <= surfPart 1 soot r); [|split; assumption].
    unfold surfPart. destruct r; [lra|]. apply four_nn; [lra|apply area_nn|apply pos_INR|]. unfold momentAt. apply Rlt_le, exp_pos.
  - intros Y m s st eig g' RD HS. destruct (momic_run m s g' k soot st eig RD AP HS) as (m' & A & SO & _).
    do 3 eexists. split; [exact A|]. unfold shape. rewrite SO. apply map_ext. intros r. f_equal. unfold momicSource. cbv zeta.
    change (momHits k g') with (momHits k g). change (dimerMass g') with (dimerMass g). change (momCoag k g') with (momCoag k g). fold i.
    unfold g' at 1 2. rewrite nuc_split. fold g'.
    assert (EC : condPart k g' (momicMom soot) (nucl k g' i) r = condPart k g (momicMom soot) o r).
    { unfold condPart. destruct r; [reflexivity|]. unfold g'. rewrite mass_y, conc_y. reflexivity. }
    rewrite EC. unfold surfPart. destruct r; ring.
Qed.

Lemma qmom_shape q eig : (forall y, In y soot -> 0 <= y) -> length soot = (2 * q)%nat -> (1 <= q)%nat -> exists NU S X C, upward P_QMOM [] (length soot) NU S X /\
  forall Y m s st, let g' := withY g Y in readyQmom m s g' k soot q -> mC k = C_NONE \/ (q <= 17)%nat ->
    exists st' m' s', setSourceTerms st eig m s = Ok (st', m', s') /\ shape (length soot) NU S X C (Jnuc k g') (kgrow k g' (el soot 0) (el soot 1)) (koxid k g' (el soot 0) (el soot 1)) m'.
Proof.
  intros NN L Q1.
  destruct (nodes_val eig soot q (map Fin (repeat 0 q)) (map Fin (repeat 0 q)) NN L Q1) as (w & x & EN & Lw & Lx & NW & NX & _); try (now rewrite map_length, repeat_length).
  set (i := nodeHits k g w x). set (o := nucl k g i). set (S := fun r => areaCoef * INR r * fracMoment w x (INR r - 1 / 3)).
  exists (gasPart k g), S, S, (fun r => pahPart k g i r + condense k g w x o r + smoluchowski k g w x r).
  split.
  - intros r _. cbn [momentOf]. split; [eapply gasPart_nn; eauto|]. assert (0 <= S r); [|split; assumption].
    unfold S. apply Rmult_le_pos; [apply Rmult_le_pos; [apply area_nn|apply pos_INR]|now apply SignsProofs.frac_nn].
  - intros Y m s st g' RD HC. pose proof RD as ((_ & _ & _ & Lw0 & La0) & _).
    assert (EN' : getWtsAbs (N:=XR) eig (map Fin soot) (wts s) (absc s) = Ok (map Fin w, map Fin x)).
    { rewrite (nodes_any eig _ _ _ (map Fin (repeat 0 q)) (map Fin (repeat 0 q))) by (now rewrite map_length, repeat_length). exact EN. }
    destruct (r_call m s g' k soot q eig st RD HC w x EN' Lw Lx NW NX) as (m' & s' & A & _ & SO & _).
    do 3 eexists. split; [exact A|]. unfold shape. rewrite SO, L. apply map_ext. intros r. f_equal. unfold qmomSource.
    change (nodeHits k g') with (nodeHits k g). change (smoluchowski k g') with (smoluchowski k g). fold i.
    unfold g' at 1 2. rewrite nuc_split. fold g'.
    assert (EC : condense k g' w x (nucl k g' i) r = condense k g w x o r). { unfold condense, g'. rewrite mass_y, conc_y. reflexivity. }
    rewrite EC. unfold S. ring.
Qed.

Lemma sect_shape b c F : goodBins b -> length soot = length b -> (mC k <> C_NONE -> fits c b) -> exists NU S X C, upward P_SECT b (length b) NU S X /\
  forall Y m s st eig, let g' := withY g Y in isSect m b F -> hasAll m k -> okAll k -> valid s g' soot -> regular k g' (number soot) (mass b soot) -> located st F c ->
    exists st' m' s', setSourceTerms st eig m s = Ok (st', m', s') /\ shape (length b) NU S X C (Jnuc k g') (kgrow k g' (number soot) (mass b soot)) (koxid k g' (number soot) (mass b soot)) m'.
Proof.
  intros GB0 Ln HF. set (i := dimerHits k g b soot). set (o := nucl k g i).
  exists (fun j => if Nat.eqb j 0 then gasPart k g 1 / el b 0 else 0), (moveUp b (binArea b soot)), (fun j => - moveDown b (binArea b soot) j),
    (fun j => (if Nat.eqb j 0 then pahPart k g i 1 / el b 0 else 0) + moveUp b (condensed k g b soot o) j + coagAt k g b soot c j).
  assert (BN : forall j, 0 <= binArea b soot j) by (intros j; unfold binArea; apply Rmult_le_pos; [exact (nel_nn s0 g soot V0 j)|apply sphere_nn]).
  split.
  - intros r _. cbn [momentOf]. split; [|split].
    + apply Sum_nneg. intros j Hj. pose proof (bins_pos b GB0 j Hj). apply Rmult_le_pos; [apply pow_nn; lra|]. destruct (Nat.eqb j 0); [|lra].
      destruct GB0 as (L & P0 & _). apply Rmult_le_pos; [eapply gasPart_nn; eauto|]. now apply Rlt_le, Rinv_0_lt_compat.
    + now apply (up_nneg b GB0).
    + pose proof (down_npos b GB0 r (binArea b soot) BN) as D.
      rewrite (Sum_ext _ _ (fun j => -1 * (el b j ^ r * moveDown b (binArea b soot) j))) by (intros; ring). rewrite Sum_scal. lra.
  - intros Y m s st eig g' IS HM OM V RG LOC.
    destruct (sect_run m s g' k b soot F IS GB0 HM OM V Ln RG st c LOC eig (fun On => HF (coag_on_k m k HM On))) as (m' & A & SO & _).
    do 3 eexists. split; [exact A|]. unfold shape. rewrite SO. apply map_ext. intros j. f_equal. unfold sectSource. cbv zeta.
    rewrite (up_lin b), (down_lin b). change (coagAt k g') with (coagAt k g).
    change (dimerHits k g' b soot) with (dimerHits k g b soot). fold i.
    assert (EU : moveUp b (condensed k g' b soot (nucl k g' i)) j = moveUp b (condensed k g b soot o) j).
    { apply up_ext. intros l. unfold condensed, g'. rewrite mass_y, conc_y. reflexivity. }
    rewrite EU. unfold g' at 1. rewrite nuc_split1. fold g'. destruct (Nat.eqb j 0); unfold Rdiv; ring.
Qed.
End M.

Lemma rich_hist p n nu gr ox co nt ta F c (m : model (N:=XR)) g soot tar eig :
  let k := mkMechs nu gr ox co 1 in let b := geometric c F n in
  goodConfig p n nu co ta F c -> constructEnum p n nu gr ox co nt ta (Fin F) c = Ok m ->
  goodStep p k b n nt (mkStep g soot tar eig) -> someSoot p soot ->
  exists NU S X C, upward p b n NU S X /\
  forall Y l, let g' := withY g Y in goodStep p k b n nt (mkStep g' soot tar eig) -> (forall x, In x l -> goodStep p k b n nt x) ->
    exists st' m' s', runActions (None, m, newState n nt) (actionsOf l ++ [setTo g' soot tar; ASrc eig]) = Ok (st', m', s') /\
      shape n NU S X C (Jnuc k g') (kgrow k g' (soot0 p soot) (soot1 p b soot)) (koxid k g' (soot0 p soot) (soot1 p b soot)) m'.
Proof.
  intros k b GC E GS SS. destruct (start _ _ _ _ _ _ _ _ _ _ _ GC E) as (CO & OM & HT & I). fold k in OM, I.
  assert (VV : exists s0 : state (N:=XR), valid s0 g soot).
  { pose proof I as (_ & _ & _ & S1 & S2 & S3 & _). pose proof GS as (PH & L1 & L2 & N1 & N2 & _). cbn [spGas spSoot spTar] in *.
    destruct (setTo_ok None m (newState n nt) g soot tar) as (s1 & _ & V & _); auto; try congruence. now exists s1. }
  destruct VV as (s0 & V0).
  assert (KEY : exists NU S X C, upward p b n NU S X /\ forall Y, let g' := withY g Y in goodStep p k b n nt (mkStep g' soot tar eig) ->
    forall st m s, hasAll m k -> sm_psd m = p -> extra p k n F c st m s -> valid s g' soot ->
     exists st' m' s', setSourceTerms st eig m s = Ok (st', m', s') /\ shape n NU S X C (Jnuc k g') (kgrow k g' (soot0 p soot) (soot1 p b soot)) (koxid k g' (soot0 p soot) (soot1 p b soot)) m').
  { pose proof I as (_ & _ & _ & _ & _ & _ & _ & _ & _ & X0). pose proof GS as (PH & L1 & _ & N1 & _ & RG & _). cbn [spGas spSoot] in *. unfold extra in X0. destruct p; try contradiction; cbn [soot0 soot1] in *.
    - destruct X0 as (-> & _). destruct soot as [|M0 [|M1 [|]]]; cbn [length] in L1; try lia. cbn [someSoot el nth] in SS.
      destruct (mono_shape s0 k g _ V0 M0 M1 eq_refl SS) as (NU & S & X & C & U & H). exists NU, S, X, C. split; [exact U|].
      intros Y (_ & _ & _ & _ & _ & RR & _) st m0 s HM HP (_ & NT & w & x & Ew & Ex) V. exact (H Y m0 s w x st eig HP HM OM NT V RR Ew Ex).
    - destruct X0 as (-> & HC). destruct soot as [|M0 [|M1 [|M2 [|]]]]; cbn [length] in L1; try lia.
      destruct (logn_shape s0 k g _ V0 M0 M1 M2 eq_refl) as (NU & S & X & C & U & H). exists NU, S, X, C. split; [exact U|].
      intros Y (_ & _ & _ & _ & _ & RR & SP) st m0 s HM HP _ V. cbn [spGas spSoot] in *. apply (H Y m0 s st eig).
      + repeat (split; [assumption|]). exact RR.
      + intros EP. apply isP_true in EP. exact (SP EP).
    - destruct X0 as (q & Nq & (_ & _ & Q1 & _) & HC). subst n.
      destruct (qmom_shape s0 k g soot V0 q eig N1 L1 Q1) as (NU & S & X & C & U & H). exists NU, S, X, C. split; [rewrite L1 in U; exact U|].
      intros Y (_ & _ & _ & _ & _ & RR & _) st m0 s HM HP (q' & Nq & HQ & _) V. assert (q' = q) by lia. subst q'. rewrite <- L1. apply (H Y m0 s st); [|exact HC].
      repeat (split; [assumption|]). exact RR.
    - destruct X0 as (HC & L & _). subst n.
      destruct (momic_shape s0 k g soot V0 SS) as (NU & S & X & C & U & H). exists NU, S, X, C. split; [exact U|].
      intros Y (_ & _ & _ & _ & _ & RR & SP & _) st m0 s HM HP (_ & _ & MA) V. cbn [spGas spSoot] in *. apply (H Y m0 s st eig).
      + unfold readyMomic. repeat (split; [assumption|]). exact L.
      + intros EP. apply isP_true in EP. now destruct (SP EP).
    - destruct X0 as (HF & Hc & Hs & _ & _). assert (EL : length b = n) by apply geo_len.
      destruct (sect_shape s0 k g soot V0 b (/ ln F) F (G_geo c F n Hc HF Hs) ltac:(congruence) (fun _ => geo_fits c F n Hc HF Hs)) as (NU & S & X & C & U & H). exists NU, S, X, C. split; [rewrite EL in U; exact U|].
      intros Y (_ & _ & _ & _ & _ & RR & _) st m0 s HM HP (_ & _ & _ & IS & HO) V. rewrite <- EL. exact (H Y m0 s st eig IS HM OM V RR (own_located st F HF HO)). }
  destruct KEY as (NU & S & X & C & U & H). exists NU, S, X, C. split; [exact U|]. intros Y l g' GS' HL.
  destruct (all_steps p k n nt F c OM l _ I HL) as (((st1 & m1) & s1) & R & IX).
  pose proof GS' as (PH & L1 & L2 & N1 & N2 & RG & SP). destruct IX as (HM & HP & PF & S1 & S2 & S3 & FS & FG & FP & XX). cbn [spGas spSoot spTar spEig] in *.
  destruct (setTo_ok st1 m1 s1 g' soot tar) as (s2 & E1 & V & _ & W & Ab & _ & T); auto; try congruence.
  assert (X1 : extra p k n F c st1 m1 s2). { unfold extra in *. destruct p; try contradiction; try assumption; [now rewrite W, Ab|]. unfold isQmom in *. now rewrite W, Ab. }
  destruct (H Y GS' st1 m1 s2 HM HP X1 V) as (st' & m' & s' & A & Q).
  exists st', m', s'. split; [|exact Q]. unfold runActions in *. rewrite foldM_app. etransitivity; [apply (f_equal (fun r => bind r _)); exact R|].
  cbn [bind foldM]. etransitivity; [apply (f_equal (fun r => bind r _)); exact E1|]. cbn [bind doAction]. etransitivity; [apply (f_equal (fun r => bind r _)); exact A|]. reflexivity.
Qed.

Lemma momentOf_lin p b n NU S X C J kg ko r :
  momentOf p b n (fun j => NU j * J + kg * S j - ko * X j + C j) r =
  momentOf p b n NU r * J + kg * momentOf p b n S r - ko * momentOf p b n X r + momentOf p b n C r.
Proof.
  destruct p; cbn [momentOf]; try ring. set (e := fun j => el b j ^ r).
  rewrite (Sum_ext _ _ (fun j => (J * (e j * NU j) + kg * (e j * S j)) + (- ko * (e j * X j) + e j * C j))) by (intros; unfold e; ring).
  rewrite !Sum_add, !Sum_scal. unfold e. ring.
Qed.

(** ** two gases *)
Definition worse (k : mechs) (g g' : gas) (M0 M1 : R) : Prop :=
  Jnuc k g <= Jnuc k g' /\ kgrow k g M0 M1 <= kgrow k g' M0 M1 /\ koxid k g' M0 M1 <= koxid k g M0 M1.
Lemma C70_rates p n nu gr ox co nt ta F c (m : model (N:=XR)) sp g g' soot tar eig :
  let k := mkMechs nu gr ox co 1 in let b := geometric c F n in
  goodConfig p n nu co ta F c -> constructEnum p n nu gr ox co nt ta (Fin F) c = Ok m -> someSoot p soot ->
  goodStep p k b n nt (mkStep g soot tar eig) -> goodStep p k b n nt (mkStep g' soot tar eig) -> richer sp g g' ->
  forall l l', (forall x, In x l -> goodStep p k b n nt x) -> (forall x, In x l' -> goodStep p k b n nt x) ->
  exists st1 m1 s1 q1 st2 m2 s2 q2,
    runActions (None, m, newState n nt) (actionsOf l ++ [setTo g soot tar; ASrc eig]) = Ok (st1, m1, s1) /\ sourcesAre n m1 q1 /\
    runActions (None, m, newState n nt) (actionsOf l' ++ [setTo g' soot tar; ASrc eig]) = Ok (st2, m2, s2) /\ sourcesAre n m2 q2 /\
    (worse k g g' (soot0 p soot) (soot1 p b soot) -> momentsLe p b n q1 q2) /\ (worse k g' g (soot0 p soot) (soot1 p b soot) -> momentsLe p b n q2 q1).
Proof.
  intros k b GC E SS GS GS' RI l l' HL HL'. destruct (rich_hist p n nu gr ox co nt ta F c m g soot tar eig GC E GS SS) as (NU & S & X & C & U & H). cbv zeta in H, U. fold k b in H, U.
  assert (G1 : goodStep p k b n nt (mkStep (withY g (gY g)) soot tar eig)) by (rewrite <- (same_form g); exact GS).
  assert (G2 : goodStep p k b n nt (mkStep (withY g (gY g')) soot tar eig)) by (rewrite <- (richer_form sp g g') by auto; exact GS').
  destruct (H (gY g) l G1 HL) as (st1 & m1 & s1 & R1 & Q1).
  destruct (H (gY g') l' G2 HL') as (st2 & m2 & s2 & R2 & Q2).
  rewrite <- (same_form g) in R1, Q1. rewrite <- (richer_form sp g g') in R2, Q2 by auto.
  exists st1, m1, s1, (fun j => NU j * Jnuc k g + kgrow k g (soot0 p soot) (soot1 p b soot) * S j - koxid k g (soot0 p soot) (soot1 p b soot) * X j + C j),
    st2, m2, s2, (fun j => NU j * Jnuc k g' + kgrow k g' (soot0 p soot) (soot1 p b soot) * S j - koxid k g' (soot0 p soot) (soot1 p b soot) * X j + C j).
  repeat (split; [assumption|]).
  assert (K : forall J J' a a' x x' r, carries p n r -> J <= J' -> a <= a' -> x' <= x -> momentOf p b n NU r * J + a * momentOf p b n S r - x * momentOf p b n X r + momentOf p b n C r <=
     momentOf p b n NU r * J' + a' * momentOf p b n S r - x' * momentOf p b n X r + momentOf p b n C r).
  { intros J J' a a' x x' r Hr A B D. destruct (U r Hr) as (U1 & U2 & U3). pose proof (Rmult_le_compat_l _ _ _ U1 A). pose proof (Rmult_le_compat_r _ _ _ U2 B). pose proof (Rmult_le_compat_r _ _ _ U3 D). lra. }
  split; intros (A & B & D) r Hr; rewrite !momentOf_lin; now apply K.
Qed.

Section Gas.
Context (s s' : state (N:=XR)) (g g' : gas) (soot soot' : list R) (V : valid s g soot) (V' : valid s' g' soot') (sp : gasSp) (RI : richer sp g g') (k : mechs) (M0 M1 : R).
Lemma worse_fuel : sp = C2H2 \/ sp = C6H6 -> worse k g g' M0 M1.
Proof.
  intros H. unfold worse, Jnuc, kgrow, koxid. split; [eapply nucl_up; eauto|]. split; [eapply grow_fuel; eauto|eapply oxid_fuel; eauto].
Qed.
Lemma nucl_same c : sp <> C2H2 -> sp <> C6H6 -> nuclFormula c g' = nuclFormula c g.
Proof.
  intros A B. pose proof (conc_eq g g' sp RI C2H2 ltac:(congruence)) as E1. pose proof (conc_eq g g' sp RI C6H6 ltac:(congruence)) as E2.
  destruct RI as (ET & _ & _ & _ & EC & _). unfold nuclFormula, perParticle. rewrite ET, EC, E1, E2. reflexivity.
Qed.
Lemma worse_o2 : sp = O2 -> worse k g' g M0 M1.
Proof.
  intros E. unfold worse, Jnuc, kgrow, koxid. rewrite nucl_same by (rewrite E; discriminate). split; [lra|]. split; [eapply grow_o2; eauto|eapply oxid_o2; eauto].
Qed.
Lemma worse_oh : mG k <> G_HACA -> sp = OH -> worse k g' g M0 M1.
Proof.
  intros N E. unfold worse, Jnuc, kgrow, koxid. rewrite nucl_same by (rewrite E; discriminate). split; [lra|]. split; [|eapply oxid_o2; eauto].
  rewrite (grow_same g g' sp RI) by (auto; rewrite E; discriminate). lra.
Qed.
End Gas.

Lemma valid_for g : physical g -> exists s : state (N:=XR), valid s g [0].
Proof.
  intros (A & B & C). destruct (argsOf_any (newState 1 0) g [0] [] eq_refl eq_refl eq_refl A B C) as (s & _ & V & _); [intros x [<-|[]]; lra|intros x []|]. now exists s.
Qed.
Lemma C70_fuel_ : forall p n nu gr ox co nt ta F c (m : model (N:=XR)) g g' soot tar eig sp l l',
  let k := mkMechs nu gr ox co 1 in let b := geometric c F n in
  goodConfig p n nu co ta F c -> constructEnum p n nu gr ox co nt ta (Fin F) c = Ok m -> someSoot p soot ->
  goodStep p k b n nt (mkStep g soot tar eig) -> goodStep p k b n nt (mkStep g' soot tar eig) ->
  (forall x, In x l -> goodStep p k b n nt x) -> (forall x, In x l' -> goodStep p k b n nt x) ->
  richer sp g g' -> sp = C2H2 \/ sp = C6H6 ->
  exists st1 m1 s1 q1 st2 m2 s2 q2,
    runActions (None, m, newState n nt) (actionsOf l ++ [setTo g soot tar; ASrc eig]) = Ok (st1, m1, s1) /\ sourcesAre n m1 q1 /\
    runActions (None, m, newState n nt) (actionsOf l' ++ [setTo g' soot tar; ASrc eig]) = Ok (st2, m2, s2) /\ sourcesAre n m2 q2 /\
    momentsLe p b n q1 q2.
Proof.
  intros p n nu gr ox co nt ta F c m g g' soot tar eig sp l l' k b GC E SS GS GS' HL HL' RI H.
  destruct (valid_for g (proj1 GS)) as (s & V). destruct (valid_for g' (proj1 GS')) as (s' & V').
  destruct (C70_rates p n nu gr ox co nt ta F c m sp g g' soot tar eig GC E SS GS GS' RI l l' HL HL') as (st1 & m1 & s1 & q1 & st2 & m2 & s2 & q2 & R1 & Q1 & R2 & Q2 & A & B).
  exists st1, m1, s1, q1, st2, m2, s2, q2. do 4 (split; [assumption|]). fold k b in A, B. apply A. eapply worse_fuel; eauto.
Qed.
Lemma C70_oxidiser_ : forall p n nu gr ox co nt ta F c (m : model (N:=XR)) g g' soot tar eig sp l l',
  let k := mkMechs nu gr ox co 1 in let b := geometric c F n in
  goodConfig p n nu co ta F c -> constructEnum p n nu gr ox co nt ta (Fin F) c = Ok m -> someSoot p soot ->
  goodStep p k b n nt (mkStep g soot tar eig) -> goodStep p k b n nt (mkStep g' soot tar eig) ->
  (forall x, In x l -> goodStep p k b n nt x) -> (forall x, In x l' -> goodStep p k b n nt x) ->
  richer sp g g' -> sp = O2 \/ sp = OH /\ gr <> G_HACA ->
  exists st1 m1 s1 q1 st2 m2 s2 q2,
    runActions (None, m, newState n nt) (actionsOf l ++ [setTo g soot tar; ASrc eig]) = Ok (st1, m1, s1) /\ sourcesAre n m1 q1 /\
    runActions (None, m, newState n nt) (actionsOf l' ++ [setTo g' soot tar; ASrc eig]) = Ok (st2, m2, s2) /\ sourcesAre n m2 q2 /\
    momentsLe p b n q2 q1.
Proof.
  intros p n nu gr ox co nt ta F c m g g' soot tar eig sp l l' k b GC E SS GS GS' HL HL' RI H.
  destruct (valid_for g (proj1 GS)) as (s & V). destruct (valid_for g' (proj1 GS')) as (s' & V').
  destruct (C70_rates p n nu gr ox co nt ta F c m sp g g' soot tar eig GC E SS GS GS' RI l l' HL HL') as (st1 & m1 & s1 & q1 & st2 & m2 & s2 & q2 & R1 & Q1 & R2 & Q2 & A & B).
  exists st1, m1, s1, q1, st2, m2, s2, q2. do 4 (split; [assumption|]). fold k b in A, B. apply B. destruct H as [H|(H & H2)]; [eapply worse_o2; eauto|eapply worse_oh; eauto].
Qed.
