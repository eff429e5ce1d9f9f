(** Every source stays finite, whatever the history of good steps. *)
From Coq Require Import ZArith List Bool Reals Lra Lia.
From Verif Require Import Num Defs State Coag Nucl Growth Oxid Tar SootModel Mono Qmom Momic Calls XR XRLemmas NumLaws SpecConfig SpecChem SpecCoag SpecValid SpecRates SpecGas SpecPah SpecPsd SpecSect SpecQmom SpecBinomial SpecLogn SpecMomic SpecFrame SpecFinite
  ConfigProofs CoagProofs StateXR ValidProofs InterpProofs GasProofs RateProofs PsdProofs PahProofs PahMain MonoProofs MonoMain ChemAll SectProofs SectMain SectBins SectCases SectFinal QmomRun QmomMain QmomFinal LognProofs LognMain LognFinal MomicProofs MomicMain MomicRun MomicFinal FrameMain FiniteMomic StateProofs.
Import ListNotations.
Local Open Scope R_scope.

Lemma fin_map l : allFinite (map Fin l).
Proof. intros x H. apply in_map_iff in H. destruct H as (r & <- & _). eauto. Qed.
Lemma fin_fun {A} (f : A -> R) l : allFinite (map (fun i => Fin (f i)) l).
Proof. intros x H. apply in_map_iff in H. destruct H as (r & <- & _). eauto. Qed.
Lemma fin_zero n : allFinite (zeros (N:=XR) n).
Proof. intros x H. apply repeat_spec in H. exists 0. exact H. Qed.
Lemma fin_gas v f : holdsGas v f -> allFinite v.
Proof.
  intros (L & H) x HI. destruct (In_nth_error v x HI) as (i & E). assert (i < 11)%nat as Hi by (rewrite <- L; apply nth_error_Some; rewrite E; discriminate).
  destruct (gasIdx_inv i Hi) as (sp & ES). rewrite <- ES in E || rewrite ES in E. rewrite H in E. injection E as <-. eauto.
Qed.
Lemma fin_pah k g old : allFinite old -> allFinite (pahSourcesOf k g old).
Proof. intros H. unfold pahSourcesOf. destruct (isP k); [|exact H]. exact (fin_fun (fun sp => - pahLoss g sp * pahMass sp) allPah). Qed.
Lemma isP_true k : isP k = true <-> mN k = N_PAH.
Proof. unfold isP. destruct (mN k); split; congruence. Qed.

(** ** interpolative closure without positivity *)
Section MomicAny.
Context (m : model (N:=XR)) (s : state (N:=XR)) (g : gas) (k : mechs) (M : list R) (st : option xr) (eig : eigSolver (N:=XR)).
Context (RD : readyMomic m s g k M) (NP : isP k = false).
Let F := tabMom (length M) (logRow M).
(** [Q] is what is known of the coagulation rates *)
Lemma any_call (Q : list xr -> Prop) :
  (forall p6 q6 coag, (forall i, (i < cntP (length M))%nat -> vget p6 i = Ok (Fin (F (2 * Z.of_nat i - 4)))) ->
     (forall i, (0 <= i < Z.of_nat (cntQ (length M)))%Z -> vgetZ q6 i = Ok (Fin (F (2 * i - 3)))) ->
     coag = with_f (mC k) (mF k) -> exists coa, momCoagRates (N:=XR) coag (outS k g s) (length M) p6 q6 (Fin (el M 0)) = Ok coa /\ Q coa) ->
  exists m' coa f, setSourceTerms st eig m s = Ok (st, m', outS k g s) /\ Q coa /\
    soots m' = map (fun r => xadd (Fin (f r)) (nth r coa (Fin 0))) (seq 0 (length M)) /\
    (exists u v, gasBudget m' k g (nucl k g 0) u v) /\
    pahs m' = pahSourcesOf k g (pahs m) /\ hasAll m' k /\ sm_psd m' = P_MOMIC /\ momicArrays m' (length M).
Proof.
  intros HQ. destruct RD as (HP & (row & p & q & x0 & EP & LP & LQ) & HM & OM & HC & V & RG & L).
  destruct (moments_any M (mkInterp (length M) row p q x0) L eq_refl LP LQ) as (p6 & q6 & EM & L6 & L7 & H6 & H7).
  assert (ED : momicData m = mkInterp (length M) row p q x0) by (unfold momicData; now rewrite EP).
  rewrite <- ED in EM. rewrite <- (v_soot _ _ _ V) in EM.
  match type of EM with _ = Ok ?D => set (d := D) in * end.
  set (m1 := with_priv m (PrivMomic d)).
  assert (HM1 : hasAll m1 k) by exact HM.
  assert (EI : isP k = true -> collMOMIC m1 (with_cMin s (Fin (pahCMin g))) (Fin (dimerMass g)) = Ok (Fin 0, [])) by congruence.
  assert (ECND : forall r, (r < length M)%nat -> momicCnd (outM k g m1 0 []) (outS k g s) r = Ok ((fun _ => Fin 0) r)).
  { intros r Hr. unfold momicCnd. rewrite (outM_isPAH k g m1 0 [] HM1), NP. reflexivity. }
  destruct (HQ p6 q6 (sm_coag (outM k g m1 0 [])) H6 H7 (coag2 m1 g k 0 [] HM1)) as (coa & ECO & QC).
  destruct (call_part m s g k M 0 [] HM OM HC V HP L d EM eq_refl (chem_all m1 s g k M 0 _ (collMOMIC m1) V HM1 OM (Rle_refl 0) EI _ _ (sees_m m d M HP ltac:(lia)) RG) _ ECND _ ECO st eig) as (m' & A & B & C & D & E & G & H).
  exists m', coa. eexists. split; [exact A|]. split; [exact QC|]. split; [rewrite B; reflexivity|].
  split; [do 2 eexists; exact C|]. split; [exact D|]. split; [exact E|]. split; [exact G|].
  unfold momicArrays. rewrite H. unfold outM. rewrite NP. exists (id_diff0 d), p6, q6, (id_mass (momicData m)). split; [reflexivity|]. split; assumption.
Qed.
End MomicAny.
Lemma nth_finite l r : exists v, nth r (map Fin l) (Fin 0) = Fin v.
Proof. exists (nth r l 0). exact (map_nth Fin l 0 r). Qed.

Lemma momic_flat m s g k M st eig : readyMomic m s g k M -> isP k = false -> mC k = C_CONTINUUM \/ el M 0 = 0 ->
  exists m', setSourceTerms st eig m s = Ok (st, m', outS k g s) /\ allFinite (soots m') /\ (exists u v, gasBudget m' k g (nucl k g 0) u v) /\
    pahs m' = pahSourcesOf k g (pahs m) /\ hasAll m' k /\ sm_psd m' = P_MOMIC /\ momicArrays m' (length M).
Proof.
  intros RD NP HC. pose proof RD as (_ & _ & _ & _ & _ & V & _ & L).
  pose proof (outS_valid k s g _ 0 V) as V2.
  destruct (any_call m s g k M st eig RD NP (fun coa => exists l, coa = map Fin l)) as (m' & coa & f & A & (l & ->) & B & C).
  - intros p6 q6 coag H6 H7 ->. assert (N0 : 0 <= el M 0) by (apply (v_sootpos _ _ _ V); unfold el; apply nth_In; lia).
    destruct (Rle_lt_or_eq_dec _ _ N0) as [P0|Z0].
    + destruct HC as [HC|HC]; [|lra].
      destruct (coag_cont (length M) p6 q6 _ L (outS k g s) _ k M V2 H6 (el M 0) HC P0) as (coa & E & _). eauto.
    + rewrite <- Z0. rewrite (coag_none (length M) p6 q6 (outS k g s) k 0 eq_refl). eauto.
  - exists m'. split; [exact A|]. split; [|exact C]. rewrite B. intros x Hx. apply in_map_iff in Hx. destruct Hx as (r & <- & _).
    destruct (nth_finite l r) as (v & ->). cbn [xadd]. eauto.
Qed.
Lemma momic_spoilt m s g k M st eig : readyMomic m s g k M -> isP k = false -> mC k = C_FM \/ mC k = C_HM -> 0 < el M 0 -> In 0 M ->
  exists m', setSourceTerms st eig m s = Ok (st, m', outS k g s) /\ nth_error (soots m') 0 = Some NaN.
Proof.
  intros RD NP HC P0 HI. pose proof RD as (_ & _ & _ & _ & _ & V & _ & L). pose proof (outS_valid k s g _ 0 V) as V2.
  destruct (first_zero M P0 (v_sootpos _ _ _ V) HI) as (j & Hj & Ej & Pj).
  destruct (any_call m s g k M st eig RD NP (fun coa => nth 0 coa (Fin 0) = NaN)) as (m' & coa & f & A & Z & B & _).
  - intros p6 q6 coag H6 H7 ->.
    apply (coag_bad (length M) p6 q6 _ L H7 (outS k g s) _ k M V2 H6 (el M 0) HC P0).
    intros z Hz. apply (tab_bad _ _ j); auto. apply logRow_bad; auto. lia.
  - exists m'. split; [exact A|]. rewrite B. rewrite (nth_error_seqmap (fun r => xadd (Fin (f r)) (nth r coa (Fin 0)))) by lia. rewrite Z. reflexivity.
Qed.

(** ** the invariant *)
Section Hist.
Context (p : psdMech) (k : mechs) (n nt : nat) (F : R) (c : Z) (OM : okAll k).
Let b := geometric c F n.
Definition extra (st : option xr) (m : model (N:=XR)) (s : state (N:=XR)) : Prop :=
  match p with
  | P_MONO => n = 2%nat /\ noTar m /\ exists w x, wts s = [Fin w] /\ absc s = [Fin x]
  | P_LOGN => n = 3%nat /\ momentCoag k
  | P_QMOM => exists q, n = (2 * q)%nat /\ isQmom m s q /\ (mC k = C_NONE \/ (q <= 17)%nat)
  | P_SECT => doubleAbove1 F /\ (0 < c)%Z /\ sane n /\ isSect m b F /\ ownConst st F
  | P_MOMIC => momentCoag k /\ (3 <= n <= 7)%nat /\ momicArrays m n
  | _ => False
  end.
Definition inv (a : option xr * model (N:=XR) * state (N:=XR)) : Prop :=
  let '(st, m, s) := a in
  hasAll m k /\ sm_psd m = p /\ privFits m /\ st_nsoot s = Z.of_nat n /\ st_Ntar s = Z.of_nat nt /\ length (yPah s) = 6%nat /\
  allFinite (soots m) /\ allFinite (gases m) /\ allFinite (pahs m) /\ extra st m s.

(** what one evaluation gives *)
Lemma one_call st m s g soot eig : hasAll m k -> sm_psd m = p -> extra st m s -> valid s g soot -> length soot = n ->
  goodStep p k b n nt (mkStep g soot (repeat 0 nt) eig) -> 
  exists st' m' s' o u v, setSourceTerms st eig m s = Ok (st', m', s') /\ hasAll m' k /\ sm_psd m' = p /\ allFinite (soots m') /\
    gasBudget m' k g o u v /\ pahs m' = pahSourcesOf k g (pahs m) /\ extra st' m' s'.
Proof.
  intros HM HP X V LS (_ & _ & _ & _ & _ & RG & GS). cbn [spGas spSoot spTar] in *. unfold extra in *. destruct p; try contradiction.
  - destruct X as (N2 & HT & w & x & Ew & Ex). destruct soot as [|M0 [|M1 [|]]]; cbn [length] in LS; try lia. cbn [soot0 soot1 el nth] in RG.
    destruct (mono_run m s g k M0 M1 w x st eig HP HM OM HT V RG Ew Ex) as (m' & A & B & C & D & E & G & H).
    do 6 eexists. split; [exact A|]. split; [exact E|]. split; [exact G|]. split; [|split; [exact C|split; [exact D|]]].
    + rewrite B. unfold monoSources. intros y [<-|[<-|[]]]; eauto.
    + split; [exact N2|]. split; [exact H|]. match goal with |- context [outS k g ?z] => destruct (outS_rest k g z) as (R1 & R2 & _) end.
      do 2 eexists. split; [exact R1|exact R2].
  - destruct X as (N3 & HC). destruct soot as [|M0 [|M1 [|M2 [|]]]]; cbn [length] in LS; try lia. cbn [soot0 soot1 el nth] in *.
    destruct (logn_run m s g k M0 M1 M2 st eig) as (m' & A & B & C & D & E & G).
    { repeat (split; [assumption|]). exact RG. } { intros EP. apply GS. now apply isP_true. }
    do 6 eexists. split; [exact A|]. split; [exact E|]. split; [exact G|]. split; [rewrite B; apply fin_map|]. split; [exact C|]. split; [exact D|]. auto.
  - destruct X as (q & Nq & HQ & HC). cbn [soot0 soot1] in RG.
    assert (RD : readyQmom m s g k soot q) by (repeat (split; [first [assumption|congruence]|]); exact RG).
    destruct (r_nodes m s g k soot q eig RD) as (w & x & EN & Lw & Lx & NW & NX & _).
    destruct (r_call m s g k soot q eig st RD HC w x EN Lw Lx NW NX) as (m' & s' & A & _ & B & C & D & E & G).
    do 6 eexists. split; [exact A|]. split; [exact E|]. split; [exact (proj1 G)|]. split; [rewrite B; apply fin_fun|]. split; [exact C|]. split; [exact D|]. eauto.
  - destruct X as (HC & L & MA). cbn [soot0 soot1] in RG. destruct GS as (GP & GC). subst n.
    assert (RD : readyMomic m s g k soot) by (repeat (split; [assumption|]); exact L).
    assert (CASE : allPos soot /\ (isP k = true -> somePah g) \/ isP k = false /\ (mC k = C_CONTINUUM \/ el soot 0 = 0)).
    { destruct (isP k) eqn:EP; [left; apply isP_true in EP; destruct (GP EP); auto|].
      destruct HC as [E|[E|E]]; [| right; auto |]; (destruct GC as [Z|Z]; [congruence|right; auto|left; split; [exact Z|congruence]]). }
    destruct CASE as [(AP & SP)|(NP & CC)].
    + destruct (momic_run m s g k soot st eig RD AP SP) as (m' & A & B & C & D & E & G & H).
      do 6 eexists. split; [exact A|]. split; [exact E|]. split; [exact G|]. split; [rewrite B; apply fin_fun|]. split; [exact C|]. split; [exact D|]. auto.
    + destruct (momic_flat m s g k soot st eig RD NP CC) as (m' & A & B & (u & v & C) & D & E & G & H).
      do 6 eexists. split; [exact A|]. split; [exact E|]. split; [exact G|]. split; [exact B|]. split; [exact C|]. split; [exact D|]. auto.
  - destruct X as (HF & Hc & Hs & IS & HO). cbn [soot0 soot1] in RG. assert (EL : length b = n) by apply geo_len.
    destruct (sect_run m s g k b soot F IS (G_geo c F n Hc HF Hs) HM OM V ltac:(congruence) RG st (/ ln F) (own_located st F HF HO) eig (fun _ => geo_fits c F n Hc HF Hs)) as (m1 & A & B & C & D & E & G).
    do 6 eexists. split; [exact A|]. split; [exact E|]. split; [exact (proj1 G)|]. split; [rewrite B; apply fin_fun|]. split; [exact C|]. split; [exact D|].
    repeat (split; [assumption|]). destruct (coagOn m); [right; reflexivity|exact HO].
Qed.
Lemma one_step a x : inv a -> goodStep p k b n nt x -> exists a', foldM doAction [setTo (spGas x) (spSoot x) (spTar x); ASrc (spEig x)] a = Ok a' /\ inv a'.
Proof.
  destruct a as ((st & m) & s), x as [g soot tar eig]. intros (HM & HP & PF & S1 & S2 & S3 & FS & FG & FP & X) GS. pose proof GS as (PH & L1 & L2 & N1 & N2 & RG & SP).
  cbn [spGas spSoot spTar spEig] in *.
  destruct (setTo_ok st m s g soot tar) as (s1 & E1 & V & _ & W & Ab & _ & T); auto; try congruence.
  assert (X1 : extra st m s1). { unfold extra in *. destruct p; try contradiction; try assumption; [now rewrite W, Ab|]. unfold isQmom in *. now rewrite W, Ab. }
  destruct (one_call st m s1 g soot eig HM HP X1 V L1) as (st' & m' & s' & o & u & v & A & B & C & D & E & G & H).
  { split; [exact PH|]. split; [exact L1|]. split; [apply repeat_length|]. split; [exact N1|]. split; [intros y Hy; apply repeat_spec in Hy; cbn [spTar] in *; lra|]. split; [exact RG|exact SP]. }
  destruct (frame_call (N:=XR) st eig m s1 st' m' s' PF A) as (_ & (K & _) & PF' & _).
  exists (st', m', s'). split.
  - cbn [foldM]. etransitivity; [apply (f_equal (fun r => bind r _)); exact E1|]. cbn [bind doAction]. etransitivity; [apply (f_equal (fun r => bind r _)); exact A|]. reflexivity.
  - unfold inv. split; [exact B|]. split; [exact C|]. split; [exact PF'|]. rewrite K. cbn [st_nsoot st_Ntar yPah with_cMin with_wa].
    split; [rewrite (v_nsoot _ _ _ V); congruence|]. split; [congruence|]. split; [destruct V as (_ & _ & _ & _ & _ & LP & _); exact LP|].
    split; [exact D|]. split; [exact (fin_gas _ _ E)|]. split; [rewrite G; now apply fin_pah|]. rewrite <- K. exact H.
Qed.
Lemma all_steps l : forall a, inv a -> (forall x, In x l -> goodStep p k b n nt x) -> exists a', runActions a (actionsOf l) = Ok a' /\ inv a'.
Proof.
  induction l as [|x l IH]; intros a I H; [exists a; split; [reflexivity|exact I]|].
  destruct (one_step a x I (H x (or_introl eq_refl))) as (a1 & E1 & I1). destruct (IH a1 I1 (fun y Hy => H y (or_intror Hy))) as (a2 & E2 & I2).
  exists a2. split; [|exact I2]. unfold runActions, actionsOf in *. cbn [flat_map]. rewrite foldM_app, E1. exact E2.
Qed.
End Hist.

Lemma start p n nu gr ox co nt ta F c (m : model (N:=XR)) :
  goodConfig p n nu co ta F c -> constructEnum p n nu gr ox co nt ta (Fin F) c = Ok m ->
  constructed m /\ okAll (mkMechs nu gr ox co 1) /\ noTar m /\ inv p (mkMechs nu gr ox co 1) n nt F c (None, m, newState n nt).
Proof.
  intros (GN & -> & GP) E. pose proof E as E0. apply construct_ok in E0. destruct E0 as ((R1 & R2 & R3 & R4 & R5) & DC & EM).
  destruct (built _ _ _ _ _ _ _ _ _ _ _ E) as (HM & HP & HN & HT & _ & HS & HV).
  set (k := mkMechs nu gr ox co 1) in *.
  assert (CO : constructed m) by (left; do 10 eexists; exact E).
  assert (OM : okAll k) by (unfold okAll, k; cbn [mN mG mO mC mF]; repeat (split; [assumption|]); lra).
  assert (I : inv p k n nt F c (None, m, newState n nt)).
  { unfold inv. split; [exact HM|]. split; [exact HP|]. split; [exact (proj1 (built_fits m CO))|]. do 3 (split; [reflexivity|]).
    unfold soots, gases, pahs. rewrite HS. cbn [newSources sootSources gasSources pahSources]. split; [apply fin_zero|]. split; [apply fin_zero|]. split; [apply fin_zero|].
    unfold extra. inversion DC; subst; try contradiction.
    - split; [reflexivity|]. split; [exact HT|]. exists 0, 0. split; reflexivity.
    - split; [reflexivity|]. unfold momentCoag, k. cbn [mC]. match goal with H : In _ _ |- _ => destruct H as [<-|[<-|[<-|[]]]] end; auto.
    - match goal with H : (1 <= ?q)%nat |- _ => exists q end. split; [reflexivity|]. split.
      + split; [reflexivity|]. split; [exact HN|]. split; [assumption|]. cbn [newState wts absc]. unfold zeros. rewrite !repeat_length, Nat.mul_comm, Nat.div_mul by lia. auto.
      + destruct GP as [GP|GP]; [now left|right; lia].
    - split; [unfold momentCoag, k; cbn [mC]; match goal with H : In _ _ |- _ => destruct H as [<-|[<-|[<-|[]]]] end; auto|]. split; [lia|].
      unfold momicArrays. rewrite HV. cbn [initPriv]. do 4 eexists. split; [reflexivity|]. split; reflexivity.
    - destruct GP as (G1 & G2 & G3). split; [exact G1|]. split; [exact G2|]. split; [exact G3|]. split; [|now left].
      exact (proj1 (C28_enum _ _ _ _ _ _ _ _ _ _ G2 (double_gt1 F G1) E)). }
  split; [exact CO|]. split; [exact OM|]. split; [exact HT|exact I].
Qed.
Lemma C63_history_ p n nu gr ox co nt ta F c (m : model (N:=XR)) l :
  goodConfig p n nu co ta F c -> constructEnum p n nu gr ox co nt ta (Fin F) c = Ok m ->
  (forall x, In x l -> goodStep p (mkMechs nu gr ox co 1) (geometric c F n) n nt x) ->
  exists st' m' s', runActions (None, m, newState n nt) (actionsOf l) = Ok (st', m', s') /\ finiteSources m'.
Proof.
  intros GC E HL. destruct (start _ _ _ _ _ _ _ _ _ _ _ GC E) as (CO & OM & HT & I). set (k := mkMechs nu gr ox co 1) in *.
  destruct (all_steps p k n nt F c OM l _ I HL) as (((st' & m') & s') & R & (_ & _ & _ & _ & _ & _ & A & B & C & _)).
  exists st', m', s'. split; [exact R|]. split; [exact A|]. split; [exact B|]. split; [exact C|].
  destruct (C60_unused_ _ _ _ _ _ _ _ CO R) as (Z1 & _ & Z2 & _). split.
  - intros x Hx. exists 0. apply Z2; auto. right. unfold noTar in HT. rewrite HT. reflexivity.
  - intros x Hx. exists 0. now apply Z1.
Qed.

(** interpolated coagulation with a vanished moment *)
Lemma C63_spoilt n nu gr ox co nt ta F c (m : model (N:=XR)) l g soot tar eig :
  let k := mkMechs nu gr ox co 1 in
  goodConfig P_MOMIC n nu co ta F c -> nu <> N_PAH -> co <> C_CONTINUUM -> constructEnum P_MOMIC n nu gr ox co nt ta (Fin F) c = Ok m ->
  (forall x, In x l -> goodStep P_MOMIC k (geometric c F n) n nt x) ->
  physical g -> length soot = n -> length tar = nt -> (forall y, In y soot -> 0 <= y) -> (forall y, In y tar -> 0 <= y) ->
  regular k g (el soot 0) (el soot 1) -> 0 < el soot 0 -> In 0 soot ->
  exists st' m' s', runActions (None, m, newState n nt) (actionsOf l ++ [setTo g soot tar; ASrc eig]) = Ok (st', m', s') /\ nth_error (soots m') 0 = Some NaN.
Proof.
  intros k GC NP NC E HL PH L1 L2 N1 N2 RG P0 HI. destruct (start _ _ _ _ _ _ _ _ _ _ _ GC E) as (CO & OM & HT & I). fold k in OM, I.
  destruct (all_steps P_MOMIC k n nt F c OM l _ I HL) as (((st & m1) & s0) & R & (HM & HP & PF & S1 & S2 & S3 & _ & _ & _ & (HC & L & MA))).
  destruct (setTo_ok st m1 s0 g soot tar) as (s1 & E1 & V & _); auto; try congruence. subst n.
  assert (EP : isP k = false) by (unfold isP, k; cbn [mN]; destruct nu; congruence).
  destruct (momic_spoilt m1 s1 g k soot st eig) as (m' & A & B); auto.
  { repeat (split; [assumption|]). exact L. }
  { unfold momentCoag, k in *. cbn [mC] in *. tauto. }
  do 3 eexists. split; [|exact B]. unfold runActions in *. rewrite foldM_app. etransitivity; [apply (f_equal (fun r => bind r _)); exact R|]. cbn [bind foldM].
  etransitivity; [apply (f_equal (fun r => bind r _)); exact E1|]. cbn [bind doAction]. etransitivity; [apply (f_equal (fun r => bind r _)); exact A|]. reflexivity.
Qed.
