(** C67: which arguments of setState the sources depend on. *)
From Coq Require Import ZArith List Bool Lia.
From Verif Require Import Num Defs State Coag Nucl Growth Oxid Tar SootModel Calls SpecSafe SpecNeeds SpecFrame FrameMain HistMain ConfigProofs NeedsProofs.
Import ListNotations.

Section S.
Context {N : Num}.
Lemma set_gives (s : state (N:=N)) T_ P_ rho mu yg yp sv ns tv nT c r : setState s T_ P_ rho mu yg yp sv ns tv nT c = SetOk r ->
  exists v w, clipNeg (st_nsoot s) sv = Ok v /\ clipNeg (st_Ntar s) tv = Ok w /\ r = stores s T_ P_ rho mu yg yp ns nT c (v, w).
Proof.
  intros H. pose proof (set_shape s T_ P_ rho mu yg yp sv ns tv nT c) as X. destruct (decide _ _ _ _ _ _ _ _ _ _ _ _) as [vw|] eqn:E; [|now destruct (X r)].
  rewrite H in X. injection X as ->. unfold decide in E. do 5 (destruct (nleb _ (nZ 0)); [discriminate|]). destruct (clipNeg (st_nsoot s) sv) as [v| |]; try discriminate.
  destruct (existsb _ v); [discriminate|]. destruct (clipNeg (st_Ntar s) tv) as [w| |]; try discriminate. destruct (existsb _ w); [discriminate|]. destruct (existsb _ yg); [discriminate|]. destruct (negb _); [discriminate|].
  destruct (existsb _ yp); [discriminate|]. destruct (nltb _ _); [discriminate|]. injection E as <-. eauto.
Qed.
Lemma C67_args_ p n nt nu gr ox co ta F k (m0 : model (N:=N)) l s0 g0 g m s T_ P_ P' rho mu mu' yg yg' yp yp' sv ns tv tv' nT c s1 s2 eig :
  constructEnum p n nu gr ox co nt ta F k = Ok m0 -> runActions (g0, m0, s0) l = Ok (g, m, s) ->
  setState s T_ P_ rho mu yg yp sv ns tv nT c = SetOk s1 -> setState s T_ P' rho mu' yg' yp' sv ns tv' nT c = SetOk s2 ->
  (forall sp, nuclReads nu sp = true \/ growReads gr sp = true \/ oxidReads ox sp = true \/ tarReads ta sp = true -> nth_error yg' (gasIdx sp) = nth_error yg (gasIdx sp)) ->
  (nu = N_PAH -> yp' = yp) -> (readsTar nu ta -> tv' = tv) -> (byPressure ox ta \/ byTransport p nu co -> P' = P_) -> (byTransport p nu co -> mu' = mu) ->
  onlyRest s2 (setSourceTerms g eig m s1) (setSourceTerms g eig m s2).
Proof.
  intros EC ER S1 S2 HG HP HT HPr HM.
  assert (CM : constructed m0) by (left; do 10 eexists; exact EC). pose proof (C60_config_ l g0 m0 s0 g m s CM ER) as KM. apply construct_ok in EC. destruct EC as (_ & _ & ->).
  destruct KM as (K1 & K2 & K3 & K4 & K5 & K6 & K7 & K8 & K9 & K10 & K11 & K12 & _). cbn [sm_psd sm_grow sm_oxid sm_coag sm_tar sm_nucl newNucl newGrow newOxid newCoag newTar nu_class nu_mech] in K1, K4, K5, K6, K7, K11, K12.
  apply set_gives in S1. destruct S1 as (v & w & V1 & W1 & ->). apply set_gives in S2. destruct S2 as (v' & w' & V2 & W2 & ->). rewrite V1 in V2. injection V2 as <-.
  set (s1 := stores s T_ P_ rho mu yg yp ns nT c (v, w)). set (s2 := stores s T_ P' rho mu' yg' yp' ns nT c (v, w')).
  replace (setSourceTerms g eig m s2) with (setSourceTerms g eig m (mix s1 s2)) by reflexivity.
  apply call_mix.
  - constructor; rewrite ?K1, ?K4, ?K5, ?K6, ?K7, ?K11; cbn [newGrow newOxid newCoag newTar gr_class ox_class co_class ta_class]; unfold s1, s2, stores; cbn [yGas yPah tarVar mtar P MWGas muGas st_nsoot snd fst].
    + exact HG.
    + exact HP.
    + intros Q. rewrite (HT Q) in W2. rewrite W2 in W1. injection W1 as <-. reflexivity.
    + reflexivity.
    + intros Q. apply HPr. auto.
    + intros Q. rewrite HPr by exact Q. reflexivity.
    + exact HM.
    + reflexivity.
  - unfold tagged. rewrite K11, K12, K6, K7. cbn. auto.
Qed.
End S.
