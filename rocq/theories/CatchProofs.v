(** C87: programs that catch the exceptions of setSourceTerms. *)
From Coq Require Import ZArith List Bool Lia.
From Verif Require Import Num Defs State Coag Nucl Growth Oxid Tar SootModel Mono Qmom Calls Catch SpecSafe SafeProofs SafeMain SpecFrame FrameMain BinomialProofs.
Import ListNotations.

Section C.
Context {N : Num}.

Lemma C87_same_ l : forall (c r : option num * model (N:=N) * state), runActions c l = Ok r -> runCatching c l = Ok r.
Proof.
  unfold runActions, runCatching. induction l as [|a l IH]; intros c r; cbn [foldM]; [auto|].
  destruct (doAction c a) as [c'|?|?] eqn:E; cbn [bind]; try discriminate. intros H.
  assert (T : tryAction c a = Ok c').
  { destruct c as ((g & m) & s). destruct a; cbn [tryAction]; [exact E|]. cbn [doAction] in E. unfold tryCall. rewrite E. reflexivity. }
  rewrite T. cbn [bind]. auto.
Qed.

Lemma mapM_get {A B} (f : A -> res B) l : forall y a, mapM f l = Ok y -> In a l -> exists z, f a = Ok z.
Proof.
  induction l as [|b l IH]; intros y a; [contradiction|]. cbn [mapM]. destruct (f b) as [z|?|?] eqn:E; cbn [bind]; try discriminate.
  destruct (mapM f l) as [z'|?|?] eqn:E'; cbn [bind]; try discriminate. intros _ [<-|H]; [eauto|]. eapply IH; eauto.
Qed.
Lemma sii_35 : qmomSii (N:=N) 35 = Throw ERunBinomial.
Proof.
  unfold qmomSii. change (seq 1 (35 - 1)) with (1 :: seq 2 33). cbn [foldM].
  destruct (C07_throw N (Z.of_nat 35) (Z.of_nat 1)) as ((_ & H) & _); [lia|lia|]. rewrite H by lia. reflexivity.
Qed.
Lemma coag_35 c (s : state (N:=N)) z : qmomCoag c s 35 <> Ok z.
Proof. unfold qmomCoag. cbn [Nat.eqb]. cbv zeta. match goal with |- bind ?r _ <> _ => destruct r as [off|?|?] end; cbn [bind]; try discriminate. Qed.

Lemma C87_never_ g eig (m : model (N:=N)) s r : sm_psd m = P_QMOM -> coagOn m = true -> 36 <= sm_nsoot m -> setSourceTerms g eig m s <> Ok r.
Proof.
  intros EP On H E. unfold setSourceTerms in E. rewrite EP in E. unfold setSourceTermsQMOM in E.
  destruct (getWtsAbs eig (sootVar s) (wts s) (absc s)) as [(w & a)|?|?]; cbn [bind] in E; try discriminate E.
  pose proof (chem_post (collSum (sm_coag m)) m (with_wa s w a)) as K.
  destruct (chemRates (collSum (sm_coag m)) m (with_wa s w a)) as [((((j & kg) & ko) & m1) & s1)|?|?]; cbn [bind] in E; try discriminate E.
  cbn [post] in K. destruct K as (_ & _ & _ & _ & _ & _ & EM). cbv zeta in E.
  assert (C1 : coagOn m1 = true) by (rewrite EM; exact On). assert (N1 : 36 <= sm_nsoot m1) by (rewrite EM; exact H).
  destruct (mapM (qmomCnd m1 s1) _) as [?|?|?]; cbn [bind] in E; try discriminate E.
  destruct (mapM (qmomSurf (growOn m1) kg s1) _) as [?|?|?]; cbn [bind] in E; try discriminate E.
  destruct (mapM (qmomSurf (oxidOn m1) _ s1) _) as [?|?|?]; cbn [bind] in E; try discriminate E.
  match type of E with bind (bind (mapM ?f ?l) _) _ = _ => destruct (mapM f l) as [?|?|?] eqn:EQ end; cbn [bind] in E; try discriminate E.
  destruct (mapM_get _ _ _ 35 EQ) as (z & Z); [apply in_seq; lia|]. cbv beta in Z. rewrite C1 in Z. now apply coag_35 in Z.
Qed.

(** what a caught call leaves *)
Lemma left_post eig (m : model (N:=N)) s : post (leftQMOM eig m s) (fun x => let '(m', s') := x in
  sm_sources m' = sm_sources m /\ sm_psd m' = sm_psd m /\ sm_nsoot m' = sm_nsoot m /\ sm_coag m' = sm_coag m /\
  s' = with_cMin (with_wa s (wts s') (absc s')) (cMin s') /\ (nu_class (sm_nucl m) <> N_PAH -> cMin s' = cMin s /\ sm_nucl m' = sm_nucl m)).
Proof.
  unfold leftQMOM. apply post_any. intros (w & a). eapply post_bind; [apply chem_post|]. intros ((((j & kg) & ko) & m') & s') (A & B & _ & _ & _ & _ & E). cbn [post].
  split; [now rewrite E|]. split; [now rewrite E|]. split; [now rewrite E|]. split; [now rewrite E|]. split; [rewrite A; reflexivity|]. intros H. destruct (B H) as (-> & ->). auto.
Qed.
Lemma C87_frozen_ l : forall g (m : model (N:=N)) s g' m' s', sm_psd m = P_QMOM -> coagOn m = true -> 36 <= sm_nsoot m ->
  runCatching (g, m, s) l = Ok (g', m', s') -> g' = g /\ sm_sources m' = sm_sources m.
Proof.
  unfold runCatching. induction l as [|a l IH]; intros g m s g' m' s' EP On H; cbn [foldM]; [intros Q; injection Q as -> -> ->; auto|].
  destruct (tryAction (g, m, s) a) as [((g1 & m1) & s1)|?|?] eqn:E; cbn [bind]; try discriminate. intros Q.
  assert (K : g1 = g /\ sm_sources m1 = sm_sources m /\ sm_psd m1 = sm_psd m /\ sm_nsoot m1 = sm_nsoot m /\ sm_coag m1 = sm_coag m).
  { destruct a as [t p rho mu yg yp sv ns tv nT cm|eig]; cbn [tryAction] in E.
    - cbn [doAction] in E. destruct (setState s t p rho mu yg yp sv ns tv nT cm); try discriminate; injection E as -> -> _; auto.
    - unfold tryCall in E. destruct (setSourceTerms g eig m s) as [r|e|u] eqn:EC.
      + exfalso. exact (C87_never_ g eig m s r EP On H EC).
      + rewrite EP in E. pose proof (left_post eig m s) as LP. destruct (leftQMOM eig m s) as [(m2 & s2)|?|?]; cbn [bind] in E; try discriminate E.
        injection E as <- <- <-. cbn [post] in LP. tauto.
      + destruct (sm_psd m); discriminate E. }
  destruct K as (-> & K1 & K2 & K3 & K4). destruct (IH g m1 s1 g' m' s') as (-> & K5); auto; try congruence; [unfold coagOn in *; now rewrite K4|]. split; congruence.
Qed.
Lemma C87_state_ g eig (m : model (N:=N)) s g' m' s' : sm_psd m = P_QMOM -> coagOn m = true -> 36 <= sm_nsoot m ->
  tryCall g eig m s = Ok (g', m', s') -> s' = with_cMin (with_wa s (wts s') (absc s')) (cMin s') /\ (nu_class (sm_nucl m) <> N_PAH -> cMin s' = cMin s /\ sm_nucl m' = sm_nucl m).
Proof.
  intros EP On H E. unfold tryCall in E. destruct (setSourceTerms g eig m s) as [r|e|u] eqn:EC; [exfalso; exact (C87_never_ g eig m s r EP On H EC)| |destruct (sm_psd m); discriminate E].
  rewrite EP in E. pose proof (left_post eig m s) as LP. destruct (leftQMOM eig m s) as [(m2 & s2)|?|?]; cbn [bind] in E; try discriminate E. injection E as <- <- <-. cbn [post] in LP. tauto.
Qed.

(** *** safety *)
Lemma left_safe t b G n nt eig (m : model (N:=N)) s : sizedModel G n nt m -> fitState G n nt s -> sm_psd m = P_QMOM -> wp t b (leftQMOM eig m s) (kept G n nt m).
Proof.
  intros SM SS EP. pose proof SS as (Ly & Lp & Ln & Ls & Lw & La & _ & Lt). pose proof (sized_two G n nt m SM) as H2.
  unfold leftQMOM. eapply wp_seq; [apply getWtsAbs_safe; rewrite Ls; auto|]. intros (w & a) (E1 & E2).
  assert (S1 : fitState G n nt (with_wa s w a)) by (apply sized_wa; auto; congruence). set (s1 := with_wa s w a) in *.
  assert (HC : nu_class (sm_nucl m) = N_PAH -> forall c mD, wp t b (collSum (sm_coag m) (with_cMin s1 c) mD) (fun p => effOk n m (snd p))).
  { intros _ c mD. eapply wp_mono; [apply (collSum_safe G n nt (with_cMin s1 c)); exact S1|]. intros p _. unfold effOk. now rewrite EP. }
  eapply wp_seq; [exact (chem_safe G n nt _ m s1 SM S1 HC)|].
  intros ((((j & kg) & ko) & m') & s') (A & B & _ & C & _ & C' & _). apply wp_ok. unfold kept. cbn [fst snd]. auto.
Qed.
Lemma catch_safe G n nt (b : bool) l : Forall (fitAction G n nt) l -> forall g (m : model (N:=N)) s, sizedModel G n nt m -> fitState G n nt s ->
  (coagOn m = true -> sm_psd m = P_SECT -> b = true) ->
  wp false b (runCatching (g, m, s) l) (fun '(_, m', s') => kept G n nt m (m', s')).
Proof.
  intros HL. unfold runCatching. induction HL as [|a l HA HL IH]; intros g m s SM SS HB.
  { apply wp_ok. unfold kept. auto. }
  cbn [foldM]. destruct a as [t_ p rho mu yg yp sv ns tv nT c|eig].
  - cbn [tryAction doAction]. pose proof (set_safe G n nt s t_ p rho mu yg yp sv ns tv nT c SS HA) as K. destruct (setState s t_ p rho mu yg yp sv ns tv nT c); cbn [bind]; auto.
  - cbn [tryAction]. eapply (wp_seq (t:=false) (b:=b) _ _ (fun '(_, m', s') => kept G n nt m (m', s'))).
    + unfold tryCall. set (t := match sm_psd m with P_QMOM => true | _ => false end).
      pose proof (call_safe (t:=t) (b:=b) G n nt g eig m s SM SS ltac:(intros _ Q; unfold t; rewrite Q; reflexivity) HB) as K. unfold wp in K |- *.
      destruct (setSourceTerms g eig m s) as [((g1 & m1) & s1)|e|u].
      * destruct (sm_psd m); exact K.
      * unfold t in K. destruct (sm_psd m) eqn:EP; try discriminate K.
        pose proof (left_safe false b G n nt eig m s SM SS EP) as L. unfold wp in L. destruct (leftQMOM eig m s) as [(m1 & s1)|?|?]; cbn [bind]; exact L.
      * destruct (sm_psd m); exact K.
    + intros ((g' & m') & s') (A & B & C & D). cbn [fst snd] in *.
      eapply wp_mono; [apply IH; auto|].
      * unfold coagOn. rewrite C, D. exact HB.
      * intros ((g2 & m2) & s2) (A2 & B2 & C2 & D2). cbn [fst snd] in *. unfold kept. cbn [fst snd]. split; [exact A2|]. split; [exact B2|]. split; congruence.
Qed.
Lemma C87_histories_ n nt newed p (nu : nuclObj (N:=N)) gr ox co ta F k (m : model) l g : build newed p n nu gr ox co nt ta F k = Ok m ->
  p <> P_HMOM -> (p = P_MOMIC -> n <= 7) -> nu_class nu = nu_mech nu -> length (nu_pah nu) = 6 -> (readsTar (nu_class nu) (ta_mech ta) -> 1 <= nt) ->
  Forall (sizedAction n nt) l ->
  match runCatching (g, m, newState n nt) l with
  | Ok (_, m', s') => sizedState n nt s' /\ sizedSources n nt (sm_sources m')
  | Throw _ => False
  | UB u => u = BadCast /\ p = P_SECT /\ co_mech co <> C_NONE
  end.
Proof.
  intros EB HP HM EN LP HT HL. pose proof (build_sized 11 n nt newed p nu gr ox co ta F k m EB HP HM EN LP HT (enough_11 _ _ _ _)) as SM. destruct (build_facts _ _ _ _ _ _ _ _ _ _ _ _ EB) as (E1 & E2 & _ & _).
  set (b := match p with P_SECT => true | _ => false end). set (on := match co_mech co with C_NONE => false | _ => true end).
  assert (EO : coagOn m = on) by (unfold coagOn; now rewrite E2).
  pose proof (catch_safe 11 n nt (b && on) l HL g m (newState n nt) SM (new_sized 11 n nt (le_n _))) as K. unfold wp in K.
  assert (HB : coagOn m = true -> sm_psd m = P_SECT -> b && on = true) by (rewrite EO, E1; intros -> ->; reflexivity). specialize (K HB).
  destruct (runCatching (g, m, newState n nt) l) as [((g' & m') & s')|e|u].
  - destruct K as ((_ & _ & A & _) & B & _). auto.
  - discriminate K.
  - destruct u; try contradiction. apply andb_prop in K. destruct K as (K1 & K2). unfold b in K1. unfold on in K2. destruct p; try discriminate K1. split; [reflexivity|]. split; [reflexivity|]. intros Q. rewrite Q in K2. discriminate.
Qed.
End C.
