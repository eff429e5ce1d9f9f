(** C61: gas vectors that are too short. *)
From Coq Require Import ZArith List Bool Lia.
From Verif Require Import Num Defs State Coag Nucl Growth Oxid Tar SootModel Mono Logn Qmom Momic Sect Hmom Calls SpecSafe StateProofs HmomProofs ConfigProofs FrameMain SafeMain CInterface MiscProofs.
Import ListNotations.

Notation never := (fun _ => False).
Lemma oob_stop {A B} (r : res A) (f : A -> res B) Q : oob r never -> oob (bind r f) Q.
Proof. intros H. eapply oob_seq; [exact H|]. intros ? []. Qed.
(** what is known of a value that was returned *)
Lemma oob_known {A B} (r : res A) (f : A -> res B) (R : A -> Prop) Q : oob r any -> post r R -> (forall a, R a -> oob (f a) Q) -> oob (bind r f) Q.
Proof. intros H K F. destruct r as [a| |u]; cbn in *; auto. Qed.
Section S.
Context {N : Num}.
Section Short.
Variables (s : state (N:=N)) (sp : gasSp).
Hypothesis short : length (yGas s) <= gasIdx sp.
Lemma gasC_out : oob (getGasSpC s sp) never.
Proof. unfold getGasSpC. apply oob_stop. unfold vget. rewrite (proj2 (nth_error_None _ _) short). exact I. Qed.
Lemma gasP_out : oob (getGasSpP s sp) never.
Proof. unfold getGasSpP. apply oob_stop. unfold vget. rewrite (proj2 (nth_error_None _ _) short). exact I. Qed.
End Short.
Ltac out H := apply oob_stop; first [apply gasC_out; exact H | apply gasP_out; exact H].
Ltac gc := eapply oob_seq; [first [apply oob_gasC | apply oob_gasP]|intros ? _].
Ltac walk H := repeat first [out H | gc].
Lemma sites_out s sp : length (yGas (N:=N) s) <= gasIdx sp -> hacaReads sp = true -> oob (hacaSites s) never.
Proof. intros H E. unfold hacaSites. destruct sp; try discriminate E; walk H. Qed.
Lemma nucl_out coll nu s sp : length (yGas (N:=N) s) <= gasIdx sp -> nuclReads (nu_class nu) sp = true -> oob (nuclRate coll nu s) never.
Proof.
  intros H E. unfold nuclRate. destruct (nu_class nu); destruct sp; try discriminate E; apply oob_stop; unfold nuclLL, nuclLIN, nuclLINA1, nuclMB, nuclFAIR; out H.
Qed.
Lemma grow_out g v s sp : length (yGas (N:=N) s) <= gasIdx sp -> growAlways (gr_class g) sp = true -> oob (growRate g v s) never.
Proof.
  intros H E. unfold growRate. destruct (gr_class g); try discriminate E.
  - destruct sp; try discriminate E. unfold growLIN. out H.
  - cbn [growAlways] in E. unfold growHACA. eapply oob_seq; [apply oob_hacaM01|]. intros (M0 & M1) _. apply oob_stop. now apply (sites_out s sp).
Qed.
Lemma neoh_out e s : length (yGas (N:=N) s) <= gasIdx OH -> oob (neohOH e s) never. Proof. intros H. unfold neohOH. out H. Qed.
Lemma oxid_out o v s sp : length (yGas (N:=N) s) <= gasIdx sp -> oxidReads (ox_class o) sp = true -> oob (oxidRate o v s) never.
Proof.
  intros H E. unfold oxidRate. destruct (ox_class o); try discriminate E;
    try (destruct sp; try discriminate E; unfold oxidLL, oxidLEE_NEOH, oxidMB, oxidFAIR, oxidNSC_NEOH, oxidAJ_RED, oxidBROWN, oxidOPTJ, oxidOPTG;
         try (eapply oob_seq; [apply oob_M01|intros ? _]); walk H; apply oob_stop; apply neoh_out, H).
  cbn [oxidReads] in E. unfold oxidHACA. eapply oob_seq; [apply oob_M01|]. intros (M0 & M1) _. apply oob_stop. now apply (sites_out s sp).
Qed.
Lemma tar_out M0 M1 n0 t m s sp : length (yGas (N:=N) s) <= gasIdx sp -> ta_mech (sm_tar m) = ta_class (sm_tar m) -> tarReads (ta_class (sm_tar m)) sp = true ->
  oob (monoTarTerms M0 M1 n0 t m s) never.
Proof.
  intros H ET E. unfold monoTarTerms, crackRate, surfRate. rewrite ET. destruct (ta_class (sm_tar m)); try discriminate E.
  - destruct sp; try discriminate E.
    + apply oob_stop. unfold crackAJ_RED. rd. out H.
    + eapply oob_seq; [unfold crackAJ_RED; rd; gc; instantiate (1 := any); exact I|]. intros c _. apply oob_stop. unfold surfAJ_RED. walk H.
    + eapply oob_seq; [unfold crackAJ_RED; rd; gc; instantiate (1 := any); exact I|]. intros c _. apply oob_stop. unfold surfAJ_RED. walk H.
  - destruct sp; try discriminate E. apply oob_stop. unfold crackBROWN. walk H.
Qed.
(** the three chemical rates *)
Lemma chem_out coll m s sp : (forall s' x, oob (coll s' x) any) -> length (yGas (N:=N) s) <= gasIdx sp ->
  nuclReads (nu_class (sm_nucl m)) sp = true \/ growAlways (gr_class (sm_grow m)) sp = true \/ oxidReads (ox_class (sm_oxid m)) sp = true ->
  oob (chemRates coll m s) never.
Proof.
  intros HC H E. unfold chemRates. destruct E as [E|E].
  - apply oob_stop. unfold runNucl. apply oob_stop. now apply (nucl_out coll _ s sp).
  - eapply oob_known; [|apply run_post|].
    + unfold runNucl. eapply oob_seq; [now apply oob_nucl|]. intros (((? & ?) & ?) & ?) _. exact I.
    + intros ((j & m') & s') (A & _ & _ & _ & _ & _ & B). assert (EY : yGas s' = yGas s) by (rewrite A; reflexivity).
      assert (EG : sm_grow m' = sm_grow m) by (rewrite B; reflexivity). assert (EO : sm_oxid m' = sm_oxid m) by (rewrite B; reflexivity).
      destruct E as [E|E].
      * apply oob_stop. apply (grow_out _ _ s' sp); congruence.
      * eapply oob_seq; [apply oob_grow|]. intros k _. apply oob_stop. apply (oxid_out _ _ s' sp); congruence.
Qed.
Lemma oob_collLOGN m s x : oob (collLOGN (N:=N) m s x) any.
Proof. unfold collLOGN. destruct (negb _); [exact I|]. do 3 rd. exact I. Qed.
Lemma oob_collMOMIC m s x : oob (collMOMIC (N:=N) m s x) any.
Proof. unfold collMOMIC. destruct (negb _); [exact I|]. eapply oob_seq; [apply bracket_oob|]. intros ? _. eapply oob_seq; [apply g_grid_oob|]. intros ? _. exact I. Qed.
Lemma oob_collSECT m s x : oob (collSECT (N:=N) m s x) any.
Proof.
  unfold collSECT. destruct (sm_priv m); try exact I. destruct (Nat.ltb _ _); [exact I|]. eapply oob_seq; [unfold readSoot; apply oob_mapM; intros; apply oob_vget|].
  intros nv _. exact I.
Qed.
Lemma oob_vset {A} (v : list A) i x : oob (vset v i x) any. Proof. unfold vset. destruct (Nat.ltb _ _); exact I. Qed.
Lemma oob_down eig M e : oob (downselect (N:=N) eig M e) any.
Proof.
  induction e as [|e IH]; [exact I|]. destruct e as [|e]; [cbn [downselect]; do 2 rd; exact I|].
  change (downselect eig M (S (S e))) with (let '(w, a) := wheeler eig M (S (S e)) in if badValues w a then downselect eig M (S e) else Ok (w, a)).
  destruct (wheeler eig M (S (S e))) as (w & a). destruct (badValues w a); [exact IH|exact I].
Qed.
Lemma oob_nodes eig M w a : oob (getWtsAbs (N:=N) eig M w a) any.
Proof.
  unfold getWtsAbs, assignNonneg. rd. destruct (nleb _ _); [exact I|]. eapply oob_seq; [apply oob_down|]. intros (wt & at_) _.
  eapply oob_seq; [apply oob_foldM; intros; apply oob_vset|]. intros ? _. eapply oob_seq; [apply oob_foldM; intros; apply oob_vset|]. intros ? _. exact I.
Qed.
(** every class *)
Lemma terms_oob M0 M1 m s : oob (monoTermsOf (N:=N) M0 M1 m s) any.
Proof.
  unfold monoTermsOf. eapply oob_seq; [apply oob_chem; intros; apply oob_collSum|]. intros ((((j & kg) & ko) & m') & s') _. rd.
  apply (oob_seq _ _ any); [destruct (isPAH m'); [rd|]; exact I|]. intros ? _. apply (oob_seq _ _ any); [destruct (coagOn m'); [rd|]; exact I|]. intros ? _. exact I.
Qed.
Lemma terms_post M0 M1 m s : post (monoTermsOf (N:=N) M0 M1 m s) (fun x => yGas (snd x) = yGas s /\ sm_tar (snd (fst x)) = sm_tar m).
Proof.
  unfold monoTermsOf. eapply post_bind; [apply chem_post|]. intros ((((j & kg) & ko) & m') & s') (A & _ & _ & _ & _ & _ & B).
  apply post_any. intros x0. apply post_any. intros c1. apply post_any. intros c0. cbn [post fst snd]. split; [rewrite A|rewrite B]; reflexivity.
Qed.
Lemma mono_out m s sp : length (yGas (N:=N) s) <= gasIdx sp ->
  (nuclReads (nu_class (sm_nucl m)) sp = true \/ growAlways (gr_class (sm_grow m)) sp = true \/ oxidReads (ox_class (sm_oxid m)) sp = true) \/
  (ta_mech (sm_tar m) = ta_class (sm_tar m) /\ tarReads (ta_class (sm_tar m)) sp = true) ->
  oob (setSourceTermsMONO m s) never.
Proof.
  intros H E. unfold setSourceTermsMONO. rd. rd. eapply oob_known.
  { unfold monoSetWA. destruct (nltb _ _); [|exact I]. eapply oob_seq; [apply oob_vset|intros ? _]. eapply oob_seq; [apply oob_vset|intros ? _]. exact I. }
  { instantiate (1 := fun s' => yGas s' = yGas s). unfold monoSetWA. destruct (nltb _ _); [|reflexivity]. apply post_any. intros w. apply post_any. intros b. reflexivity. }
  intros s1 E1. rewrite <- E1 in H. destruct E as [E|(ET & E)].
  - assert (K : forall A f, oob (bind (A:=monoTerms * model * state) (B:=A) (monoTermsOf a a0 m s1) f) never).
    { intros A f. apply oob_stop. unfold monoTermsOf. apply oob_stop. apply (chem_out _ _ _ sp); auto. intros. apply oob_collSum. }
    destruct (ta_mech (sm_tar m)); try rd; apply K.
  - destruct (ta_mech (sm_tar m)) eqn:EM; try (rewrite <- ET in E; discriminate E).
    all: rd; eapply oob_known; [apply terms_oob|apply terms_post|]; intros ((t & m') & s') (Y & TA); cbn [fst snd] in Y, TA; apply oob_stop; apply (tar_out _ _ _ _ _ _ sp); [rewrite Y; exact H|rewrite TA; congruence|rewrite TA; exact E].
Qed.
Lemma logn_out m s sp : length (yGas (N:=N) s) <= gasIdx sp ->
  nuclReads (nu_class (sm_nucl m)) sp = true \/ (growOn m = true /\ growAlways (gr_class (sm_grow m)) sp = true) \/ (oxidOn m = true /\ oxidReads (ox_class (sm_oxid m)) sp = true) ->
  oob (setSourceTermsLOGN m s) never.
Proof.
  intros H E. unfold setSourceTermsLOGN. do 3 rd. cbv zeta. destruct E as [E|E].
  - apply oob_stop. unfold runNucl. apply oob_stop. now apply (nucl_out _ _ s sp).
  - eapply oob_known; [|apply run_post|].
    + unfold runNucl. eapply oob_seq; [apply oob_nucl; intros; apply oob_collLOGN|]. intros (((? & ?) & ?) & ?) _. exact I.
    + intros ((j & m') & s') (A & _ & _ & _ & _ & _ & B). assert (EY : yGas s' = yGas s) by (rewrite A; reflexivity).
      assert (EG : sm_grow m' = sm_grow m) by (rewrite B; reflexivity). assert (EO : sm_oxid m' = sm_oxid m) by (rewrite B; reflexivity).
      destruct E as [(F & E)|(F & E)].
      * unfold growOn in *. rewrite EG, F. apply oob_stop. apply oob_stop. apply (grow_out _ _ s' sp); congruence.
      * apply (oob_seq _ _ any).
        { destruct (growOn m'); [|exact I]. eapply oob_seq; [apply oob_grow|]. intros k _. exact I. }
        intros (G1 & G2) _. unfold oxidOn in *. rewrite EO, F. apply oob_stop. apply oob_stop. rewrite <- EO. apply (oxid_out _ _ s' sp); congruence.
Qed.
Lemma rest_out g eig m s sp p n nt nu gr ox co ta F k : constructEnum (N:=N) p n nu gr ox co nt ta F k = Ok m -> length (yGas s) <= gasIdx sp ->
  nuclReads nu sp = true \/ growAlways gr sp = true \/ oxidReads ox sp = true \/ tarReads ta sp = true ->
  setSourceTerms g eig m s = UB OutOfBounds.
Proof.
  intros EC H E. pose proof EC as EC'. apply construct_ok in EC. destruct EC as (_ & D & ->).
  assert (OO : oxidReads ox sp = true -> ox <> O_NONE) by (intros Q ->; discriminate Q). assert (GO : growAlways gr sp = true -> gr <> G_NONE) by (intros Q ->; discriminate Q).
  destruct D as [c t|c D|j c D|j c D D'|j c D|j c D D'].
  - unfold setSourceTerms. cbn [sm_psd]. match goal with |- bind (setSourceTermsMONO ?m _) _ = _ => assert (K : oob (setSourceTermsMONO m s) never) end.
    { apply (mono_out _ s sp H). destruct E as [E|[E|[E|E]]]; [left; left; exact E|left; right; left; exact E|left; right; right; exact E|right; split; [reflexivity|exact E]]. }
    rewrite (oob_never _ K). reflexivity.
  - unfold setSourceTerms. cbn [sm_psd]. match goal with |- bind (setSourceTermsLOGN ?m _) _ = _ => assert (K : oob (setSourceTermsLOGN m s) never) end.
    { apply (logn_out _ s sp H). destruct E as [E|[E|[E|E]]]; [left; exact E|right; left; split; [destruct gr; try discriminate E; reflexivity|exact E]|right; right; split; [destruct ox; try discriminate E; reflexivity|exact E]|discriminate E]. }
    rewrite (oob_never _ K). reflexivity.
  - assert (R : nuclReads nu sp = true \/ growAlways gr sp = true \/ oxidReads ox sp = true) by (destruct E as [E|[E|[E|E]]]; [auto..|discriminate E]).
    unfold setSourceTerms. cbn [sm_psd]. match goal with |- bind (setSourceTermsQMOM _ ?m _) _ = _ => assert (K : oob (setSourceTermsQMOM eig m s) never) end.
    { unfold setSourceTermsQMOM. eapply oob_seq; [apply oob_nodes|]. intros (w & a) _. cbv zeta. apply oob_stop. apply (chem_out _ _ _ sp); auto. intros. apply oob_collSum. }
    rewrite (oob_never _ K). reflexivity.
  - assert (R : nuclReads nu sp = true \/ growAlways gr sp = true \/ oxidReads ox sp = true) by (destruct E as [E|[E|[E|E]]]; [auto..|discriminate E]).
    unfold setSourceTerms. cbn [sm_psd]. match goal with |- bind (setSourceTermsMOMIC ?m _) _ = _ => assert (K : oob (setSourceTermsMOMIC m s) never) end.
    { unfold setSourceTermsMOMIC. eapply oob_seq; [apply setMoments_oob|]. intros d _. cbv zeta. apply oob_stop. apply (chem_out _ _ _ sp); auto. intros. apply oob_collMOMIC. }
    rewrite (oob_never _ K). reflexivity.
  - assert (R : nuclReads nu sp = true \/ growAlways gr sp = true \/ oxidReads ox sp = true) by (destruct E as [E|[E|[E|E]]]; [auto..|discriminate E]).
    unfold setSourceTerms. cbn [sm_psd]. apply oob_never. unfold setSourceTermsSECT. apply oob_stop. apply (chem_out _ _ _ sp); auto. intros. apply oob_collSECT.
  - unfold constructEnum in EC'. destruct (mkNuclEnum nu); try discriminate EC'. destruct (mkGrowEnum gr); try discriminate EC'. destruct (mkOxidEnum ox); try discriminate EC'.
    destruct (mkCoagEnum c); try discriminate EC'. destruct (mkTarEnum T_NONE); try discriminate EC'. cbn [bind] in EC'. exact (C41_ _ _ _ _ _ _ _ _ _ _ _ g eig s EC').
Qed.
(** how many gases suffice *)
Lemma enough_ten nu gr ox ta : enoughGas 10 nu gr ox ta <-> ta <> T_AJ_RED.
Proof.
  split.
  - intros H ->. specialize (H CO2 ltac:(right; right; right; reflexivity)). cbn in H. lia.
  - intros H sp E. destruct sp; cbn; try lia. exfalso.
    destruct E as [E|[E|[E|E]]]; [destruct nu|destruct gr|destruct ox|destruct ta]; try discriminate E. now apply H.
Qed.
Lemma enough_eight nu gr ox ta : enoughGas 8 nu gr ox ta <-> nu <> N_LINA1 /\ ta <> T_AJ_RED.
Proof.
  split.
  - intros H. split; intros ->.
    + specialize (H C6H6 ltac:(left; reflexivity)). cbn in H. lia.
    + specialize (H CO2 ltac:(right; right; right; reflexivity)). cbn in H. lia.
  - intros (H1 & H2) sp E. destruct sp; cbn; try lia; exfalso;
    (destruct E as [E|[E|[E|E]]]; [destruct nu|destruct gr|destruct ox|destruct ta]; try discriminate E; congruence).
Qed.
(** what the C interface stores *)
Lemma copy_len (p : list num) n v : copyRange (N:=N) p n = Ok v -> length v = Z.to_nat n.
Proof.
  unfold copyRange. destruct (n <? 0)%Z; [discriminate|]. rewrite <- (seq_length (Z.to_nat n) 0) at 2. generalize (seq 0 (Z.to_nat n)). intros l. revert v.
  induction l as [|a l IH]; intros v; cbn [mapM]; [intros H; injection H as <-; reflexivity|]. destruct (vget p a); cbn [bind]; try discriminate.
  destruct (mapM (fun i => vget p i) l) as [w| |]; cbn [bind]; try discriminate. intros H. injection H as <-. cbn. now rewrite (IH w).
Qed.
Lemma setC_len s T_ P_ rho mu yg yp sv ns tv nT c s' : setState_C (N:=N) s T_ P_ rho mu yg yp sv ns tv nT c = SetOk s' -> length (yGas s') = 10.
Proof.
  unfold setState_C. destruct (copyRange yg 10) as [g| |] eqn:E1; try discriminate. destruct (copyRange yp 6) as [h| |]; try discriminate. destruct (copyRange sv ns) as [v| |]; try discriminate. destruct (copyRange tv nT) as [w| |]; try discriminate.
  apply copy_len in E1. intros H. change (Z.to_nat 10) with 10 in E1. rewrite <- E1. clear E1. revert H. unfold setState.
  repeat match goal with |- (if ?b then _ else _) = _ -> _ => destruct b; [discriminate|]; cbv zeta end.
  destruct (clipNeg _ v) as [v'| |]; try discriminate. cbv zeta. destruct (existsb _ v'); [discriminate|]. destruct (clipNeg _ w) as [w'| |]; try discriminate. cbv zeta. destruct (existsb _ w'); [discriminate|].
  destruct (existsb _ g); [discriminate|]. destruct (negb _); [discriminate|]. destruct (existsb _ h); [discriminate|]. destruct (nltb (nZ 1) (nsum h)); [discriminate|]. intros H. injection H as <-. reflexivity.
Qed.
Lemma C61_C n nt p nu gr ox co ta F k (m : model (N:=N)) s0 T_ P_ rho mu yg yp sv ns tv nT c s g eig :
  setState_C s0 T_ P_ rho mu yg yp sv ns tv nT c = SetOk s -> constructEnum p n nu gr ox co nt ta F k = Ok m -> ta = T_AJ_RED -> setSourceTerms g eig m s = UB OutOfBounds.
Proof.
  intros H EC ->. apply setC_len in H. apply (rest_out g eig m s CO2 p n nt nu gr ox co T_AJ_RED F k EC); [rewrite H; cbn; lia|]. right; right; right; reflexivity.
Qed.
End S.

From Coq Require Import Reals Lra.
From Verif Require Import XR XRLemmas SpecState StateXR ValidProofs NumLaws.
Local Open Scope R_scope.
Lemma setC_accepted : exists s, setState_C (N:=XR) (newState 2 1) (Fin 300) (Fin 1) (Fin 1) (Fin 1) eleven six (map Fin [1; 1]) 2 [Fin 1] 1 (Fin 50) = SetOk s.
Proof.
  rewrite C50_call by (cbn; lia).
  destruct (accept_ok XR_cmpLaws (newState 2 1) (someArgs (Fin 300) (Fin 1) (repeat (Fin 0) 10) (map Fin [1; 1]) 2 [Fin 1] 1)) as [s' [E _]]; eauto.
  - apply someArgs_accepted; try (apply xleb_false; lra); auto.
    + intros y Hy. apply repeat_spec in Hy. subst. apply xltb_false. lra.
    + apply negFrom_fin. cbn [In]; intros; lra.
    + apply (negFrom_fin _ [1]). cbn [In]; intros; lra.
  - cbn; lia.
  - cbn; lia.
Qed.
