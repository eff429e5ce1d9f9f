(** C48: without mechanisms there are no sources. *)
From Coq Require Import ZArith List Bool Lia.
From Coq.Floats Require Import SpecFloat.
From Verif Require Import Num Defs State Coag Nucl Growth Oxid Tar SootModel Mono Qmom Sect Calls XR F64 SpecSafe StateProofs SafeProofs SafeMain SurfProofs.
Import ListNotations.

Section S.
Context {N : Num} (HZ : zeroLaws N).
Let Z00 : nadd (nZ 0) (nZ 0) = nZ 0 := proj1 HZ.

Lemma gas_zero ratios : length ratios = 11 -> (forall i, i < 11 -> i <> gasIdx C_ -> nth i ratios (nZ 0) = nZ 0) -> nth (gasIdx C_) ratios (nZ 0) = nZ 1 ->
  addGasRates ratios (nZ 0) (zeros gasSize) = zeros gasSize.
Proof.
  intros L H0 HC. unfold addGasRates. rewrite HC. transitivity (map (fun _ : nat => @nZ N 0) (seq 0 gasSize)); [|reflexivity].
  apply map_ext_in. intros i Hi. apply in_seq in Hi. change gasSize with 11 in Hi. cbv zeta.
  assert (E : nth i (zeros gasSize) (@nZ N 0) = nZ 0). { unfold zeros. destruct (Nat.lt_ge_cases i gasSize); [|now apply nth_overflow; rewrite repeat_length]. now apply nth_repeat. }
  rewrite E. destruct (Nat.eqb_spec i (gasIdx C_)); [reflexivity|]. rewrite H0 by (auto; lia). rewrite (proj2 HZ i) by lia. exact Z00.
Qed.
Lemma gasSrc_none m : allNone m -> gasSrc m (nZ 0) (nZ 0) (nZ 0) = zeros gasSize.
Proof.
  intros (A & B & C & _). unfold gasSrc, getNucleationGasRates, getGrowthGasRates, getOxidationGasRates. rewrite A, B, C.
  cbn [newNucl nu_ratios newGrow gr_ratios newOxid ox_ratios].
  assert (H : forall i, i < 11 -> i <> gasIdx C_ -> nth i (nuclRatios N_NONE) (@nZ N 0) = nZ 0).
  { intros i Hi Hn. do 11 (destruct i as [|i]; [reflexivity || (exfalso; apply Hn; reflexivity)|]). lia. }
  rewrite (gas_zero (nuclRatios N_NONE) eq_refl H eq_refl). rewrite (gas_zero (growRatios G_NONE) eq_refl H eq_refl).
  assert (H2 : forall i, i < 11 -> i <> gasIdx C_ -> nth i (oxidRatios O_NONE) (@nZ N 0) = nZ 0).
  { intros i Hi Hn. do 11 (destruct i as [|i]; [reflexivity || (exfalso; apply Hn; reflexivity)|]). lia. }
  rewrite (gas_zero (oxidRatios O_NONE) eq_refl H2 eq_refl).
  transitivity (map (fun _ : nat => @nZ N 0) (seq 0 gasSize)); [|reflexivity]. apply map_ext. intros i.
  assert (E : nth i (zeros gasSize) (@nZ N 0) = nZ 0). { unfold zeros. destruct (Nat.lt_ge_cases i gasSize); [now apply nth_repeat|now apply nth_overflow; rewrite repeat_length]. }
  now rewrite E, !Z00.
Qed.
Definition quiet (n : nat) (m m' : model (N:=N)) : Prop :=
  sootSources (sm_sources m') = zeros n /\ gasSources (sm_sources m') = zeros gasSize /\ pahSources (sm_sources m') = pahSources (sm_sources m) /\
  tarSources (sm_sources m') = tarSources (sm_sources m) /\ allNone m' /\ sm_psd m' = sm_psd m /\ sm_nsoot m' = sm_nsoot m /\ sm_mBins m' = sm_mBins m /\ sm_priv m' = sm_priv m.
Lemma finish_none n m : allNone m -> quiet n m (finish m (zeros n) (nZ 0) (nZ 0) (nZ 0)).
Proof.
  intros A. pose proof (gasSrc_none m A) as G. destruct A as (A1 & A2 & A3 & A4 & A5). unfold quiet, finish. cbn [sm_sources with_sources sootSources gasSources pahSources tarSources].
  assert (IP : isPAH m = false) by (unfold isPAH; now rewrite A1). rewrite IP. repeat split; auto.
Qed.
Lemma chem_none coll m s : allNone m -> chemRates coll m s = Ok (nZ 0, nZ 0, nZ 0, m, s).
Proof.
  intros (A & B & C & _). unfold chemRates, runNucl, nuclRate. rewrite A. change (nu_class (newNucl N_NONE)) with N_NONE. cbn iota. cbn [bind].
  assert (EM : storeNucl m (newNucl N_NONE) None = m) by (unfold storeNucl; rewrite <- A; destruct m as [? ? ? ? ? ? ? ? ? ? ? pr]; destruct pr; reflexivity).
  rewrite EM. unfold growRate, oxidRate. rewrite B, C. reflexivity.
Qed.
Lemma zeros_map n (f : nat -> num) : (forall i, i < n -> f i = nZ 0) -> map f (seq 0 n) = @zeros N n.
Proof.
  intros H. transitivity (map (fun _ : nat => @nZ N 0) (seq 0 n)). { apply map_ext_in. intros i Hi. apply in_seq in Hi. apply H. lia. }
  clear. unfold zeros. generalize 0. induction n as [|n IH]; intros i; [reflexivity|]. cbn [seq map repeat]. now rewrite IH.
Qed.
Lemma nth_zeros n k : nth k (@zeros N n) (nZ 0) = nZ 0.
Proof. unfold zeros. destruct (Nat.lt_ge_cases k n); [now apply nth_repeat|now apply nth_overflow; rewrite repeat_length]. Qed.
Lemma mapM_zero {A} (f : A -> res num) l : (forall a, In a l -> f a = Ok (nZ 0)) -> mapM f l = Ok (@zeros N (length l)).
Proof.
  induction l as [|a l IH]; intros H; [reflexivity|]. cbn [mapM]. rewrite (H a) by now left. cbn [bind]. rewrite IH by (intros; apply H; now right). reflexivity.
Qed.

(** bins with a finite mass *)
Definition zeroBins (m : model (N:=N)) : Prop := sm_psd m = P_SECT -> forall b, In b (sm_mBins m) -> nadd (nZ 0) (nmul (nZ 0) b) = nZ 0.
Lemma msum_zero (mb : nat -> num) l : (forall k, In k l -> nadd (nZ 0) (nmul (nZ 0) (mb k)) = nZ 0) -> fold_left (fun acc k => nadd acc (nmul (nZ 0) (mb k))) l (nZ 0) = @nZ N 0.
Proof.
  induction l as [|k l IH]; intros H; [reflexivity|]. cbn [fold_left]. rewrite (H k) by now left. apply IH. intros; apply H; now right.
Qed.
Lemma none_call n nt g eig m s : allNone m -> sm_psd m = P_MONO \/ sm_psd m = P_QMOM \/ sm_psd m = P_SECT -> sm_nsoot m = n -> 2 <= n -> (sm_psd m = P_MONO -> n = 2) ->
  (sm_psd m = P_SECT -> length (sm_mBins m) = n) -> sizedState n nt s -> zeroBins m ->
  exists m' s', setSourceTerms g eig m s = Ok (g, m', s') /\ quiet n m m' /\ sizedState n nt s'.
Proof.
  intros HA HP Hn Hn2 HMo HB SS ZB. pose proof HA as (A1 & A2 & A3 & A4 & A5). pose proof SS as (S1 & S2 & S3 & S4 & S5 & S6 & S7 & S8).
  assert (NO : nuclOn m = false /\ growOn m = false /\ oxidOn m = false /\ coagOn m = false /\ isPAH m = false).
  { unfold nuclOn, growOn, oxidOn, coagOn, isPAH. rewrite A1, A2, A3, A4. auto. }
  destruct NO as (N1 & N2 & N3 & N4 & N5). unfold setSourceTerms. destruct HP as [HP|[HP|HP]]; rewrite HP.
  - specialize (HMo HP). revert SS S3 S4 S5 S6. rewrite HMo. intros SS S3 S4 S5 S6. unfold setSourceTermsMONO.
    destruct (sootVar s) as [|M0 [|M1 [|? ?]]] eqn:ES; try discriminate S4. cbn [vget nth_error bind].
    assert (SW : exists s1, monoSetWA M0 M1 s = Ok s1 /\ sizedState 2 nt s1).
    { unfold monoSetWA. destruct (nltb (nZ 0) M0); [|eauto]. destruct (wts s) as [|w [|? ?]] eqn:EW; try discriminate S5. destruct (absc s) as [|a [|? ?]] eqn:EA; try discriminate S6.
      eexists. split; [reflexivity|]. unfold sizedState, fitState. cbn [with_wa State.yGas State.yPah State.st_nsoot State.sootVar State.st_Ntar State.tarVar State.wts State.absc upd]. rewrite ES. repeat split; auto. }
    destruct SW as (s1 & -> & SS1). cbn [bind]. rewrite A5. unfold monoTermsOf. rewrite chem_none by auto. cbn [bind].
    pose proof SS1 as (_ & _ & _ & _ & _ & L6 & _). destruct (absc s1) as [|a [|? ?]] eqn:EA; try discriminate L6. cbn [vget nth_error bind]. rewrite N1, N2, N3, N4, N5. cbn [bind mt_N0 mt_N1 mt_Cnd1 mt_G1 mt_X1 mt_C0].
    eexists. exists s1. split; [reflexivity|]. split; [|exact SS1]. rewrite !Z00. exact (finish_none 2 m HA).
  - unfold setSourceTermsQMOM. pose proof (getWtsAbs_safe (t:=false) (b:=false) eig (sootVar s) (wts s) (absc s)) as W. rewrite S4 in W. specialize (W Hn2 S5 S6). unfold SafeProofs.wp in W.
    destruct (getWtsAbs eig (sootVar s) (wts s) (absc s)) as [(w & a)|ex|ub]; [|discriminate W|destruct ub; now try discriminate W]. destruct W as (W1 & W2). cbn [bind]. rewrite chem_none by auto. cbn [bind]. cbv zeta. rewrite Hn, N1, N2, N3, N4.
    rewrite (mapM_zero (qmomCnd m (with_wa s w a))) by (intros; unfold qmomCnd; now rewrite N5). cbn [bind].
    rewrite (mapM_zero (qmomSurf false (nZ 0) (with_wa s w a))) by reflexivity. cbn [bind]. rewrite (mapM_zero (qmomSurf false (nopp (nZ 0)) (with_wa s w a))) by reflexivity. cbn [bind].
    rewrite (mapM_zero (fun _ : nat => Ok (nZ 0))) by reflexivity. cbn [bind]. rewrite seq_length.
    rewrite (zeros_map n (fun _ => nZ 0)) by reflexivity. rewrite !nth_zeros.
    assert (EC : combine5 n (fun k => nth k (@zeros N n) (nZ 0)) (fun k => nth k (zeros n) (nZ 0)) (fun k => nth k (zeros n) (nZ 0)) (fun k => nth k (zeros n) (nZ 0)) (fun k => nth k (zeros n) (nZ 0)) = zeros n).
    { unfold combine5. apply zeros_map. intros i _. now rewrite nth_zeros, !Z00. }
    rewrite EC. eexists. eexists. split; [reflexivity|]. split; [exact (finish_none n m HA)|]. unfold sizedState, fitState. cbn [with_wa State.yGas State.yPah State.st_nsoot State.sootVar State.st_Ntar State.tarVar State.wts State.absc]. rewrite W1, W2. repeat split; auto.
  - unfold setSourceTermsSECT. rewrite chem_none by auto. cbn [bind]. cbv zeta. rewrite Hn.
    pose proof (readSoot_safe 11 n nt (t:=false) (b:=false) s SS) as W. unfold SafeProofs.wp in W. destruct (readSoot n s) as [nv|ex|ub]; [|discriminate W|destruct ub; now try discriminate W]. clear W. cbn [bind].
    rewrite N1, N2, N3, N4, N5. cbn [andb]. destruct (match sm_priv m with PrivSect F b => (F, b) | _ => (nZ 0, []) end) as (F & beta). cbn [bind].
    assert (EB : forall k, In k (seq 0 n) -> nadd (nZ 0) (nmul (nZ 0) (at_ (sm_mBins m) k)) = nZ 0).
    { intros k Hk. apply in_seq in Hk. apply (ZB HP). unfold at_. apply nth_In. rewrite (HB HP). lia. }
    rewrite (msum_zero (at_ (sm_mBins m)) (seq 0 n) EB).
    assert (EC : combine5 n (fun _ : nat => @nZ N 0) (fun _ => nZ 0) (fun _ => nZ 0) (fun _ => nZ 0) (at_ (zeros n)) = zeros n).
    { unfold combine5, at_. apply zeros_map. intros i _. now rewrite nth_zeros, !Z00. }
    rewrite EC. exists (finish m (zeros n) (nZ 0) (nZ 0) (nZ 0)), s. split; [reflexivity|]. split; [exact (finish_none n m HA)|exact SS].
Qed.

(** histories *)
Definition calm (n nt : nat) (p : psdMech) (m : model (N:=N)) : Prop :=
  allNone m /\ sm_psd m = p /\ sm_nsoot m = n /\ (p = P_SECT -> length (sm_mBins m) = n) /\ zeroBins m /\ pahSources (sm_sources m) = zeros 6 /\ tarSources (sm_sources m) = zeros nt.
Lemma calm_quiet n nt p m m' : calm n nt p m -> quiet n m m' -> calm n nt p m'.
Proof.
  intros (A & B & C & D & E & F & G) (Q1 & Q2 & Q3 & Q4 & Q5 & Q6 & Q7 & Q8 & Q9). unfold calm, zeroBins. rewrite Q3, Q4, Q6, Q7, Q8. auto 10.
Qed.
Lemma step_none n nt p g eig m s : p = P_MONO \/ p = P_QMOM \/ p = P_SECT -> 2 <= n -> (p = P_MONO -> n = 2) -> calm n nt p m -> sizedState n nt s ->
  exists m' s', setSourceTerms g eig m s = Ok (g, m', s') /\ quiet n m m' /\ calm n nt p m' /\ sizedState n nt s'.
Proof.
  intros HP H2 HM K SS. pose proof K as (A & B & C & D & E & _). destruct (none_call n nt g eig m s A) as (m' & s' & R & Q & S'); auto; try (rewrite B; auto).
  exists m', s'. split; [exact R|]. split; [exact Q|]. split; [exact (calm_quiet n nt p m m' K Q)|exact S'].
Qed.
Lemma run_none n nt p l : p = P_MONO \/ p = P_QMOM \/ p = P_SECT -> 2 <= n -> (p = P_MONO -> n = 2) -> Forall (sizedAction n nt) l -> forall g m s, calm n nt p m -> sizedState n nt s ->
  exists g' m' s', runActions (g, m, s) l = Ok (g', m', s') /\ calm n nt p m' /\ sizedState n nt s'.
Proof.
  intros HP H2 HM HL. unfold runActions. induction HL as [|a l Ha HL IH]; intros g m s K SS; [cbn; eauto 6|].
  cbn [foldM doAction]. destruct a as [T_ P_ rho mu yg yp sv ns tv nT c|eig].
  - pose proof (set_safe 11 n nt s T_ P_ rho mu yg yp sv ns tv nT c SS Ha) as W. destruct (setState s T_ P_ rho mu yg yp sv ns tv nT c) as [s'|e s'|]; [| |contradiction]; cbn [bind]; auto.
  - destruct (step_none n nt p g eig m s HP H2 HM K SS) as (m' & s' & R & _ & K' & S'). rewrite R. cbn [bind]. auto.
Qed.
Lemma none_history p n nt F k m l g eig : p = P_MONO \/ p = P_QMOM \/ p = P_SECT -> constructEnum (N:=N) p n N_NONE G_NONE O_NONE C_NONE nt T_NONE F k = Ok m ->
  zeroBins m -> Forall (sizedAction n nt) l ->
  exists g' m' s', runActions (g, m, newState n nt) (l ++ [ASrc eig]) = Ok (g', m', s') /\
    sootSources (sm_sources m') = zeros n /\ gasSources (sm_sources m') = zeros 11 /\ pahSources (sm_sources m') = zeros 6 /\ tarSources (sm_sources m') = zeros nt.
Proof.
  intros HP EB ZB HL.
  change (build (N:=N) true p n (newNucl N_NONE) (newGrow G_NONE) (newOxid O_NONE) (newCoag C_NONE) nt (newTar T_NONE) F k = Ok m) in EB.
  unfold build in EB. destruct (derivedCheck p n _ _) as [u|?|?] eqn:ED; try discriminate EB. cbn [bind] in EB. injection EB as Em.
  assert (H2 : 2 <= n /\ (p = P_MONO -> n = 2)).
  { destruct HP as [->|[->| ->]]; cbn [derivedCheck] in ED.
    - destruct (Nat.eqb_spec n 2); [lia|discriminate].
    - destruct (Nat.eqb_spec (n mod 2) 1); [discriminate|]. destruct (Nat.ltb_spec n 1); [discriminate|]. split; [|discriminate]. destruct n as [|[|?]]; [lia|exfalso; apply n0; reflexivity|lia].
    - destruct (Nat.ltb_spec n 2); [discriminate|]. split; [lia|discriminate]. }
  destruct H2 as (H2 & HM).
  assert (K : calm n nt p m). { rewrite <- Em in *. unfold calm. split; [repeat split|]. cbn [sm_psd sm_nsoot sm_mBins sm_sources]. repeat split; auto. intros ->. unfold initBins, set_mBins. now rewrite map_length, seq_length. }
  destruct (run_none n nt p l HP H2 HM HL g m (newState n nt) K (new_sized 11 n nt (le_n _))) as (g1 & m1 & s1 & R & K1 & S1).
  destruct (step_none n nt p g1 eig m1 s1 HP H2 HM K1 S1) as (m2 & s2 & R2 & Q & K2 & _).
  exists g1, m2, s2. unfold runActions in *. rewrite foldM_app, R. cbn [bind foldM doAction]. rewrite R2. cbn [bind]. split; [reflexivity|].
  destruct Q as (Q1 & Q2 & _). destruct K2 as (_ & _ & _ & _ & _ & K5 & K6). auto.
Qed.
End S.
Lemma zeroLaws_F64 lm : zeroLaws (F64 lm).
Proof. split; [reflexivity|]. intros i Hi. do 11 (destruct i as [|i]; [vm_compute; reflexivity|]). lia. Qed.
Lemma zeroBins_F64 lm (m : model (N:=F64 lm)) : (sm_psd m = P_SECT -> forall b, In b (sm_mBins m) -> nfin b = true) -> zeroBins m.
Proof. intros H P b Hb. specialize (H P b Hb). destruct b as [[|]|[|]| |[|] mm e]; try discriminate H; reflexivity. Qed.
Lemma none_history_F64 lm p n nt F k (m : model (N:=F64 lm)) l g eig : p = P_MONO \/ p = P_QMOM \/ p = P_SECT ->
  constructEnum p n N_NONE G_NONE O_NONE C_NONE nt T_NONE F k = Ok m -> (p = P_SECT -> forall b, In b (sm_mBins m) -> nfin b = true) -> Forall (sizedAction n nt) l ->
  exists g' m' s', runActions (g, m, newState n nt) (l ++ [ASrc eig]) = Ok (g', m', s') /\
    sootSources (sm_sources m') = zeros n /\ gasSources (sm_sources m') = zeros 11 /\ pahSources (sm_sources m') = zeros 6 /\ tarSources (sm_sources m') = zeros nt.
Proof.
  intros HP EB HB HL. apply (none_history (zeroLaws_F64 lm) p n nt F k); auto. apply zeroBins_F64.
  change (build (N:=F64 lm) true p n (newNucl N_NONE) (newGrow G_NONE) (newOxid O_NONE) (newCoag C_NONE) nt (newTar T_NONE) F k = Ok m) in EB.
  destruct (build_facts _ _ _ _ _ _ _ _ _ _ _ _ EB) as (-> & _). exact HB.
Qed.
