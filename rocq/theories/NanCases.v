(** Proofs for C91 on constructed models, and its cases. *)
From Coq Require Import ZArith List Bool Reals Lra Lia.
From Verif Require Import Num Defs State Coag Nucl Growth Oxid Tar SootModel Qmom Calls XR F64 XRLemmas SpecState SpecChem SpecConfig SpecSafe SpecCoag SpecValid SpecRates SpecGas SpecPah SpecPsd SpecSect SpecQmom SpecNan ConfigProofs FrameMain ValidProofs QmomSame SafeMain NanProofs.
Import ListNotations.
Local Open Scope R_scope.

Lemma accepted_l N : ieee N -> forall (s0 s : state (N:=N)) t p rho mu yg yp l l' ns tv nt c, length l' = length l ->
  (forall x, In x l -> nltb x (nZ 0) = false) -> (forall x, In x l' -> nltb x (nZ 0) = false \/ notNumber x) ->
  call s0 (mkArgs t p rho mu yg yp l ns tv nt c) = SetOk s -> call s0 (mkArgs t p rho mu yg yp l' ns tv nt c) = SetOk (with_sootVar s l').
Proof.
  intros I s0 s t p rho mu yg yp l l' ns tv nt c L H H'. apply accept_put; auto. intros x Hx. destruct (H' x Hx) as [E|E]; [exact E|]. apply (nl_ltb N (ieee_nan N I)). now left.
Qed.
Lemma zero_not N : ieee N -> nltb (nZ 0) (nZ 0 : @num N) = false.
Proof. intros [->|(lm & ->)]; [cbn [nltb XR]; change (@nZ XR 0) with (Fin 0); cbn [xltb]; destruct (Rlt_dec 0 0); [lra|reflexivity]|reflexivity]. Qed.
Lemma zero_le N : ieee N -> nleb (nZ 0) (nZ 0 : @num N) = true.
Proof. intros [->|(lm & ->)]; [cbn [nleb XR]; change (@nZ XR 0) with (Fin 0); cbn [xleb]; destruct (Rle_dec 0 0); [reflexivity|lra]|reflexivity]. Qed.
Lemma mono_number_l N : ieee N -> forall nn gr ox co nt F c (m : model (N:=N)), constructEnum P_MONO 2 nn gr ox co nt T_NONE F c = Ok m ->
  forall st eig s x M1 M1', notNumber x ->
  sameBut [nZ 0; M1'] (setSourceTerms st eig m (with_sootVar s [x; M1])) (setSourceTerms st eig m (with_sootVar s [nZ 0; M1'])).
Proof.
  intros I nn gr ox co nt F c m E st eig s x M1 M1' HN. apply construct_ok in E. destruct E as (_ & _ & ->).
  assert (A : nltb (nZ 0) x = false) by (apply (nl_ltb N (ieee_nan N I)); now right).
  apply (mono_put x M1 (nZ 0) M1' [] []); auto using zero_not.
Qed.
Lemma qmom_number_l N : ieee N -> forall ns nn gr ox co nt F c (m : model (N:=N)), constructEnum P_QMOM ns nn gr ox co nt T_NONE F c = Ok m ->
  forall st eig s x M1 M1' r r', notNumber x -> (1 <= length (wts s))%nat -> (1 <= length (absc s))%nat ->
  sameBut (nZ 0 :: M1' :: r') (setSourceTerms st eig m (with_sootVar s (x :: M1 :: r))) (setSourceTerms st eig m (with_sootVar s (nZ 0 :: M1' :: r'))).
Proof.
  intros I ns nn gr ox co nt F c m E st eig s x M1 M1' r r' HN Lw La. apply construct_ok in E. destruct E as (_ & _ & ->).
  assert (A : nltb (nZ 0) x = false) by (apply (nl_ltb N (ieee_nan N I)); now right).
  apply (qmom_put x M1 (nZ 0) M1' r r'); auto using zero_not. rewrite wts_nan by auto using ieee_nan. rewrite wts_none by auto using zero_le. reflexivity.
Qed.
Lemma qmom_higher_l nn gr ox co nt F c (m : model (N:=XR)) : constructEnum P_QMOM 4 nn gr ox co nt T_NONE F c = Ok m ->
  forall st eig s a b y z, noticesNaN eig -> 0 < a -> y = NaN \/ z = NaN -> let l' := [Fin a; Fin b; Fin (b ^ 2 / a); Fin (b ^ 3 / a ^ 2)] in
  sameBut l' (setSourceTerms st eig m (with_sootVar s [Fin a; Fin b; y; z])) (setSourceTerms st eig m (with_sootVar s l')).
Proof. intros E st eig s a b y z HN Pa H. apply construct_ok in E. destruct E as (_ & _ & ->). now apply qmom_higher. Qed.
Lemma ok_of {A} (r : res A) Q x : post r Q -> r = Ok x -> Q x. Proof. intros H ->. exact H. Qed.
Lemma on_g (m : model (N:=XR)) g : sm_grow m = newGrow g -> g <> G_NONE -> growOn m = true. Proof. unfold growOn. intros ->. destruct g; cbn; congruence. Qed.
Lemma on_o (m : model (N:=XR)) g : sm_oxid m = newOxid g -> g <> O_NONE -> oxidOn m = true. Proof. unfold oxidOn. intros ->. destruct g; cbn; congruence. Qed.
Lemma on_c (m : model (N:=XR)) g : sm_coag m = newCoag g -> g <> C_NONE -> coagOn m = true. Proof. unfold coagOn. intros ->. destruct g; cbn; congruence. Qed.
Lemma mono_mass_l nn gr ox co nt F c (m : model (N:=XR)) : constructEnum P_MONO 2 nn gr ox co nt T_NONE F c = Ok m ->
  forall st eig s a st' m' s', 0 < a -> setSourceTerms st eig m (with_sootVar s [Fin a; NaN]) = Ok (st', m', s') ->
    (co <> C_NONE -> nth_error (soots m') 0 = Some NaN) /\ (gr <> G_NONE \/ ox <> O_NONE -> nth_error (soots m') 1 = Some NaN).
Proof.
  intros E st eig s a st' m' s' Pa EC. apply construct_ok in E. destruct E as ((_ & _ & _ & HC & _) & _ & Em).
  assert (P1 : sm_psd m = P_MONO) by now rewrite Em. assert (P2 : ta_mech (sm_tar m) = T_NONE) by now rewrite Em.
  assert (P3 : sm_coag m = newCoag co) by now rewrite Em. assert (P4 : sm_grow m = newGrow gr) by now rewrite Em. assert (P5 : sm_oxid m = newOxid ox) by now rewrite Em.
  destruct (ok_of _ _ _ (mono_nan st eig m s a P1 P2 Pa) EC) as (A & B). split.
  - intros H. apply A; [now apply (on_c m co)| |]; rewrite P3; cbn [co_class newCoag]; auto.
  - intros [H|H]; apply B; [left; now apply (on_g m gr)|right; now apply (on_o m ox)].
Qed.
Lemma logn_l nn gr ox co nt F c (m : model (N:=XR)) : constructEnum P_LOGN 3 nn gr ox co nt T_NONE F c = Ok m ->
  forall st eig s M0 M1 M2 st' m' s', posOrNaN M0 -> posOrNaN M1 -> posOrNaN M2 -> M0 = NaN \/ M1 = NaN \/ M2 = NaN ->
  setSourceTerms st eig m (with_sootVar s [M0; M1; M2]) = Ok (st', m', s') ->
    (co = C_FM \/ co = C_CONTINUUM -> nth_error (soots m') 0 = Some NaN) /\ (gr <> G_NONE \/ ox <> O_NONE -> nth_error (soots m') 1 = Some NaN).
Proof.
  intros E st eig s M0 M1 M2 st' m' s' Q0 Q1 Q2 ON EC. apply construct_ok in E. destruct E as (_ & _ & Em).
  assert (P1 : sm_psd m = P_LOGN) by now rewrite Em.
  assert (P3 : sm_coag m = newCoag co) by now rewrite Em. assert (P4 : sm_grow m = newGrow gr) by now rewrite Em. assert (P5 : sm_oxid m = newOxid ox) by now rewrite Em.
  destruct (ok_of _ _ _ (logn_nan M0 M1 M2 Q0 Q1 Q2 ON st eig m s P1) EC) as (A & B). split.
  - intros H. apply A. rewrite P3. exact H.
  - intros [H|H]; apply B; [left; now apply (on_g m gr)|right; now apply (on_o m ox)].
Qed.
Lemma logn_harmonic_l nt F c (m : model (N:=XR)) : constructEnum P_LOGN 3 N_NONE G_NONE O_NONE C_HM nt T_NONE F c = Ok m ->
  forall st eig s M0 M1 M2 st' m' s', posOrNaN M0 -> posOrNaN M1 -> posOrNaN M2 -> M0 = NaN \/ M1 = NaN \/ M2 = NaN ->
  setSourceTerms st eig m (with_sootVar s [M0; M1; M2]) = Ok (st', m', s') -> soots m' = [Fin 0; Fin 0; Fin 0].
Proof.
  intros E st eig s M0 M1 M2 st' m' s' Q0 Q1 Q2 ON EC. apply construct_ok in E. destruct E as (_ & _ & Em).
  exact (ok_of _ _ _ (logn_hidden st eig m s M0 M1 M2 ltac:(now rewrite Em) Q0 Q1 Q2 ON ltac:(now rewrite Em) ltac:(now rewrite Em) ltac:(now rewrite Em) ltac:(now rewrite Em) ltac:(now rewrite Em)) EC).
Qed.
Lemma sect_l ns nn gr ox co nt F c (m : model (N:=XR)) : constructEnum P_SECT ns nn gr ox co nt T_NONE F c = Ok m ->
  forall st eig s q st' m' s', (q < ns)%nat -> nth_error (sootVar s) q = Some NaN -> gr <> G_NONE \/ ox <> O_NONE \/ co <> C_NONE ->
  setSourceTerms st eig m s = Ok (st', m', s') -> nth_error (soots m') q = Some NaN.
Proof.
  intros E st eig s q st' m' s' Hq HN ON EC. apply construct_ok in E. destruct E as (_ & _ & Em).
  assert (P1 : sm_psd m = P_SECT) by now rewrite Em. assert (P2 : sm_nsoot m = ns) by now rewrite Em.
  assert (P3 : sm_coag m = newCoag co) by now rewrite Em. assert (P4 : sm_grow m = newGrow gr) by now rewrite Em. assert (P5 : sm_oxid m = newOxid ox) by now rewrite Em.
  refine (ok_of _ _ _ (sect_nan st eig m s q P1 _ HN _) EC); [now rewrite P2|].
  destruct ON as [H|[H|H]]; [left; now apply (on_g m gr)|right; left; now apply (on_o m ox)|right; right; now apply (on_c m co)].
Qed.

(** ** cases *)
Definition nanArgs (g : gas) (soot : list xr) : args XR :=
  mkArgs (Fin (gT g) : @num XR) (Fin (gP g)) (Fin (gRho g)) (Fin (gMu g)) (map Fin (gasVec (gY g))) (map Fin (pahVec (gPah g))) soot (Z.of_nat (length soot)) [] 0 (Fin (gCMin g)).
Lemma stored_nan n soot (l : list xr) : length l = n -> length soot = n -> (forall x, In x soot -> 0 <= x) -> (forall x, In x l -> posOrNaN x) ->
  exists s, call (newState n 0) (argsOf demoGas soot []) = SetOk s /\ call (newState n 0) (nanArgs demoGas l) = SetOk (with_sootVar s l) /\ wts s = wts (newState (N:=XR) n 0) /\ absc s = absc (newState (N:=XR) n 0).
Proof.
  intros L L' H H'. destruct (demo_any (newState n 0) soot []) as (s & E & _ & _ & W & A & _); auto.
  - cbn. now rewrite L'.
  - intros x [].
  - exists s. split; [exact E|]. split; [|auto]. unfold nanArgs. rewrite L. unfold argsOf in E. rewrite L' in E.
    refine (accepted_l XR (or_introl eq_refl) _ _ _ _ _ _ _ _ _ _ _ _ _ _ _ _ _ E).
    + rewrite map_length, L'. exact L.
    + intros x Hx. apply in_map_iff in Hx. destruct Hx as (y & <- & Hy). change (xltb (Fin y) (Fin 0) = false). apply xltb_false. now apply H.
    + intros x Hx. destruct (H' x Hx) as [->|(y & Hy & ->)]; [right; reflexivity|left]. change (xltb (Fin y) (Fin 0) = false). apply xltb_false. lra.
Qed.
Lemma runs p n nu gr ox co (m : model (N:=XR)) l s1 eig : constructEnum p n nu gr ox co 0 T_NONE (Fin 2) 100 = Ok m -> p <> P_HMOM -> p <> P_MOMIC -> p <> P_QMOM -> (p = P_SECT -> co = C_NONE) ->
  ~ readsTar nu T_NONE -> length l = n -> call (newState n 0) (nanArgs demoGas l) = SetOk s1 -> exists st' m' s', setSourceTerms None eig m s1 = Ok (st', m', s').
Proof.
  intros E H1 H2 H3 H4 H5 L EC.
  pose proof (@C47_enum XR n 0 p nu gr ox co T_NONE (Fin 2) 100 m
    [ASet (Fin (gT demoGas) : @num XR) (Fin (gP demoGas)) (Fin (gRho demoGas)) (Fin (gMu demoGas)) (map Fin (gasVec (gY demoGas))) (map Fin (pahVec (gPah demoGas))) l (Z.of_nat (length l)) [] 0 (Fin (gCMin demoGas)); ASrc eig] None E H1 ltac:(intros; contradiction) ltac:(intros; contradiction)) as K.
  unfold runActions in K. cbn [foldM doAction] in K.
  assert (FA : Forall (sizedAction (N:=XR) n 0) [ASet (Fin (gT demoGas) : @num XR) (Fin (gP demoGas)) (Fin (gRho demoGas)) (Fin (gMu demoGas)) (map Fin (gasVec (gY demoGas))) (map Fin (pahVec (gPah demoGas))) l (Z.of_nat (length l)) [] 0 (Fin (gCMin demoGas)); ASrc eig]).
  { constructor; [|constructor; [exact I|constructor]]. unfold sizedAction, fitAction. repeat split; auto with arith. }
  specialize (K FA).
  match type of K with context [setState ?a ?b ?c ?d ?e ?f ?g ?h ?i ?j ?k ?o] => change (setState a b c d e f g h i j k o) with (call (newState (N:=XR) n 0) (nanArgs demoGas l)) in K end.
  rewrite EC in K. cbn [bind doAction] in K. destruct (setSourceTerms None eig m s1) as [[[st' m'] s']|e|u]; cbn [bind] in K; [eauto|exfalso; exact (H3 (proj1 K))|exfalso; destruct K as (_ & Q & C); exact (C (H4 Q))].
Qed.
Lemma one_pos : posOrNaN (Fin 1). Proof. right. exists 1. split; [lra|reflexivity]. Qed.
Lemma nan_ok : posOrNaN NaN. Proof. now left. Qed.
Lemma noT nu : nu = N_LL \/ nu = N_NONE -> ~ readsTar nu T_NONE.
Proof. unfold readsTar. intros [->| ->]; intuition discriminate. Qed.
Lemma case_mono : exists (m : model (N:=XR)) s s1 st' m' s', constructEnum P_MONO 2 N_LL G_LL O_LL C_FUCHS 0 T_NONE (Fin 2) 100 = Ok m /\
  call (newState 2 0) (argsOf demoGas [1; 1] []) = SetOk s /\ call (newState 2 0) (nanArgs demoGas [Fin 1; NaN]) = SetOk s1 /\ s1 = with_sootVar s [Fin 1; NaN] /\
  notNumber (N:=XR) NaN /\ setSourceTerms None eig2 m s1 = Ok (st', m', s').
Proof.
  destruct (stored_nan 2 [1; 1] [Fin 1; NaN] eq_refl eq_refl) as (s & A & B & _).
  { intros x [<-|[<-|[]]]; lra. } { intros x [<-|[<-|[]]]; auto using one_pos, nan_ok. }
  assert (E : exists m, constructEnum (N:=XR) P_MONO 2 N_LL G_LL O_LL C_FUCHS 0 T_NONE (Fin 2) 100 = Ok m) by (eexists; reflexivity). destruct E as (m & E).
  destruct (runs _ _ _ _ _ _ m [Fin 1; NaN] _ eig2 E ltac:(discriminate) ltac:(discriminate) ltac:(discriminate) ltac:(discriminate) (noT _ (or_introl eq_refl)) eq_refl B) as (st' & m' & s' & R).
  exists m, s, (with_sootVar s [Fin 1; NaN]), st', m', s'. split; [exact E|]. split; [exact A|]. split; [exact B|]. split; [reflexivity|]. split; [reflexivity|exact R].
Qed.
Lemma case_qmom : exists (m : model (N:=XR)) s s1, constructEnum P_QMOM 4 N_LL G_LL O_LL C_FM 0 T_NONE (Fin 2) 100 = Ok m /\
  call (newState 4 0) (argsOf demoGas [1; 2; 5; 14] []) = SetOk s /\ call (newState 4 0) (nanArgs demoGas [Fin 1; Fin 2; NaN; Fin 14]) = SetOk s1 /\ s1 = with_sootVar s [Fin 1; Fin 2; NaN; Fin 14] /\
  noticesNaN eig2 /\ (1 <= length (wts s))%nat /\ (1 <= length (absc s))%nat.
Proof.
  destruct (stored_nan 4 [1; 2; 5; 14] [Fin 1; Fin 2; NaN; Fin 14] eq_refl eq_refl) as (s & A & B & W & X).
  { intros x [<-|[<-|[<-|[<-|[]]]]]; lra. } { intros x [<-|[<-|[<-|[<-|[]]]]]; unfold posOrNaN; eauto with real; right; eexists; (split; [|reflexivity]); lra. }
  assert (E : exists m, constructEnum (N:=XR) P_QMOM 4 N_LL G_LL O_LL C_FM 0 T_NONE (Fin 2) 100 = Ok m) by (eexists; reflexivity). destruct E as (m & E).
  exists m, s, (with_sootVar s [Fin 1; Fin 2; NaN; Fin 14]). split; [exact E|]. split; [exact A|]. split; [exact B|]. split; [reflexivity|]. split; [exact eig2_notices|].
  rewrite W, X. cbn. auto with arith.
Qed.
Lemma case_logn : exists (m m1 : model (N:=XR)) s s1, constructEnum P_LOGN 3 N_LL G_LL O_LL C_FM 0 T_NONE (Fin 2) 100 = Ok m /\ constructEnum P_LOGN 3 N_NONE G_NONE O_NONE C_HM 0 T_NONE (Fin 2) 100 = Ok m1 /\
  call (newState 3 0) (argsOf demoGas [1; 1; 1] []) = SetOk s /\ call (newState 3 0) (nanArgs demoGas [Fin 1; NaN; Fin 1]) = SetOk s1 /\ s1 = with_sootVar s [Fin 1; NaN; Fin 1] /\
  posOrNaN (Fin 1) /\ posOrNaN NaN /\ (exists x, setSourceTerms None eig2 m s1 = Ok x) /\ (exists x, setSourceTerms None eig2 m1 s1 = Ok x).
Proof.
  destruct (stored_nan 3 [1; 1; 1] [Fin 1; NaN; Fin 1] eq_refl eq_refl) as (s & A & B & W & X).
  { intros x [<-|[<-|[<-|[]]]]; lra. } { intros x [<-|[<-|[<-|[]]]]; auto using one_pos, nan_ok. }
  assert (E : exists m, constructEnum (N:=XR) P_LOGN 3 N_LL G_LL O_LL C_FM 0 T_NONE (Fin 2) 100 = Ok m) by (eexists; reflexivity). destruct E as (m & E).
  assert (E1 : exists m, constructEnum (N:=XR) P_LOGN 3 N_NONE G_NONE O_NONE C_HM 0 T_NONE (Fin 2) 100 = Ok m) by (eexists; reflexivity). destruct E1 as (m1 & E1).
  destruct (runs _ _ _ _ _ _ m [Fin 1; NaN; Fin 1] _ eig2 E ltac:(discriminate) ltac:(discriminate) ltac:(discriminate) ltac:(discriminate) (noT _ (or_introl eq_refl)) eq_refl B) as (? & ? & ? & R).
  destruct (runs _ _ _ _ _ _ m1 [Fin 1; NaN; Fin 1] _ eig2 E1 ltac:(discriminate) ltac:(discriminate) ltac:(discriminate) ltac:(discriminate) (noT _ (or_intror eq_refl)) eq_refl B) as (? & ? & ? & R1).
  exists m, m1, s, (with_sootVar s [Fin 1; NaN; Fin 1]). split; [exact E|]. split; [exact E1|]. split; [exact A|]. split; [exact B|]. split; [reflexivity|]. split; [exact one_pos|]. split; [exact nan_ok|]. split; eauto.
Qed.
Lemma case_sect : exists (m : model (N:=XR)) s s1, constructEnum P_SECT 3 N_LL G_LL O_LL C_NONE 0 T_NONE (Fin 2) 100 = Ok m /\
  call (newState 3 0) (argsOf demoGas [1; 1; 1] []) = SetOk s /\ call (newState 3 0) (nanArgs demoGas [Fin 1; NaN; Fin 1]) = SetOk s1 /\ s1 = with_sootVar s [Fin 1; NaN; Fin 1] /\
  nth_error (sootVar s1) 1 = Some NaN /\ (exists x, setSourceTerms None eig2 m s1 = Ok x).
Proof.
  destruct (stored_nan 3 [1; 1; 1] [Fin 1; NaN; Fin 1] eq_refl eq_refl) as (s & A & B & W & X).
  { intros x [<-|[<-|[<-|[]]]]; lra. } { intros x [<-|[<-|[<-|[]]]]; auto using one_pos, nan_ok. }
  assert (E : exists m, constructEnum (N:=XR) P_SECT 3 N_LL G_LL O_LL C_NONE 0 T_NONE (Fin 2) 100 = Ok m) by (eexists; reflexivity). destruct E as (m & E).
  destruct (runs _ _ _ _ _ _ m [Fin 1; NaN; Fin 1] _ eig2 E ltac:(discriminate) ltac:(discriminate) ltac:(discriminate) ltac:(auto) (noT _ (or_introl eq_refl)) eq_refl B) as (? & ? & ? & R).
  exists m, s, (with_sootVar s [Fin 1; NaN; Fin 1]). split; [exact E|]. split; [exact A|]. split; [exact B|]. split; [reflexivity|]. split; [reflexivity|]. eauto.
Qed.
