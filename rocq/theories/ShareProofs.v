(** Lemmas for C76: several models on one state object. *)
From Coq Require Import ZArith List Bool Lia Reals Lra.
From Verif Require Import Num Defs State Binomial Coag Nucl Growth Oxid Tar SootModel Mono Logn Qmom Momic Sect Calls SpecSafe SpecFrame SpecHist StateProofs SafeProofs SafeMain SurfProofs FrameMain HistProofs HistMain PahHist.
Import ListNotations.

Section S.
Context {N : Num}.

Definition sizesKept (s s' : state (N:=N)) : Prop := length (wts s') = length (wts s) /\ length (absc s') = length (absc s).
Lemma mono_sizes (m : model (N:=N)) s : post (setSourceTermsMONO m s) (fun x => sizesKept s (snd x)).
Proof.
  unfold setSourceTermsMONO. apply post_any. intros M0. apply post_any. intros M1.
  eapply post_bind with (R := fun s1 => sizesKept s s1).
  { destruct (monoSetWA M0 M1 s) eqn:E; cbn [post]; auto. destruct (setWA_shape _ _ _ _ E) as (w & v & -> & A & B). split; auto. }
  intros s1 K. assert (T : post (monoTermsOf M0 M1 m s1) (fun x => sizesKept s (snd x))).
  { pose proof (terms_post M0 M1 m s1) as T. destruct (monoTermsOf M0 M1 m s1) as [((t & m') & s')| |]; cbn [post snd] in *; auto. destruct T as (T & _). rewrite T. exact K. }
  assert (T' : post (Ntar0 <- vget (tarVar s1) 0 ;; ' (t, m, s) <- monoTermsOf M0 M1 m s1 ;; ' (T0, T1, T2) <- monoTarTerms M0 M1 Ntar0 t m s ;;
      ts <- vset (tarSources (sm_sources m)) 0 T0 ;; Ok (finish (setTarSources m ts) [ T1; T2 ] (mt_N1 t) (mt_G1 t) (mt_X1 t), s)) (fun x => sizesKept s (snd x))).
  { apply post_any. intros nt. eapply post_bind; [exact T|]. intros ((t & m') & s') H. cbn [snd] in H. apply post_any. intros ((a & b) & c). apply post_any. intros v. cbn [post snd]. exact H. }
  destruct (ta_mech (sm_tar m)); try exact T'. eapply post_bind; [exact T|]. intros ((t & m') & s') H. exact H.
Qed.
Lemma qmom_sizes eig (m : model (N:=N)) s : post (setSourceTermsQMOM eig m s) (fun x => sizesKept s (snd x)).
Proof.
  unfold setSourceTermsQMOM. destruct (getWtsAbs eig (sootVar s) (wts s) (absc s)) as [(w & a)| |] eqn:E; cbn [bind post]; auto. destruct (wts_sizes _ _ _ _ _ _ E) as (A & B).
  eapply post_bind; [apply chem_post|]. intros ((((j & kg) & ko) & m') & s') (H & _). do 4 (apply post_any; intros ?). cbn [post snd]. rewrite H. split; auto.
Qed.
Lemma in_use_fits (m : model (N:=N)) : inUse m -> privFits m.
Proof. intros (m0 & g & s & l & g' & s' & C & R). destruct (built_fits m0 C) as (F & _). exact (proj2 (frame_hist l g m0 s g' m s' F R)). Qed.
Lemma call_inputs g eig (m : model (N:=N)) s g1 m1 s1 : inUse m -> nu_class (sm_nucl m) <> N_PAH -> setSourceTerms g eig m s = Ok (g1, m1, s1) -> sameInputs s s1.
Proof.
  intros HU NP H. destruct (frame_call g eig m s g1 m1 s1 (in_use_fits m HU) H) as (_ & (A & B & C) & _).
  assert (E : s1 = with_wa s (wts s1) (absc s1)).
  { rewrite A at 1. rewrite (B NP). destruct s. reflexivity. }
  destruct (sm_psd m) eqn:EP; try (destruct C as (C1 & C2); [congruence|congruence|]; rewrite C1, C2 in E; split; [rewrite C1, C2; exact E|split; congruence]).
  - unfold setSourceTerms in H. rewrite EP in H. pose proof (mono_sizes m s) as K. destruct (setSourceTermsMONO m s) as [(x & y)| |]; try discriminate H. cbn [bind] in H. injection H as <- <- <-. destruct K. split; [exact E|auto].
  - unfold setSourceTerms in H. rewrite EP in H. pose proof (qmom_sizes eig m s) as K. destruct (setSourceTermsQMOM eig m s) as [(x & y)| |]; try discriminate H. cbn [bind] in H. injection H as <- <- <-. destruct K. split; [exact E|auto].
Qed.
Lemma static_kept g eig (m : model (N:=N)) s g1 m1 s1 : setSourceTerms g eig m s = Ok (g1, m1, s1) -> forall x, g = Some x -> g1 = Some x.
Proof.
  intros H x ->. unfold setSourceTerms in H. assert (K : forall r : res (model * state), (' (m', s') <- r ;; Ok (Some x, m', s')) = Ok (g1, m1, s1) -> g1 = Some x).
  { intros r HR. destruct r as [(a & b)| |]; try discriminate HR. cbn [bind] in HR. congruence. }
  destruct (sm_psd m); try discriminate H; try exact (K _ H). unfold setSourceTermsSECT in H.
  apply bind_ok in H. destruct H as (((((j & kg) & ko) & m') & s') & _ & H). apply bind_ok in H. destruct H as (nv & _ & H). cbv zeta in H.
  destruct (match sm_priv m' with PrivSect F b => (F, b) | _ => (nZ 0, []) end) as (F & beta). apply bind_ok in H. destruct H as ((g2 & coa) & E & H). injection H as <- _ _.
  destruct (coagOn m'); [apply bind_ok in E; destruct E as (v & _ & E)|]; injection E as <- _; reflexivity.
Qed.
Lemma evals_inputs x y : evaluated (N:=N) x y -> sameInputs (snd x) (snd y) /\ forall c, fst x = Some c -> fst y = Some c.
Proof.
  induction 1 as [x|g s m eig g1 m1 s1 x HU NP H HR (IH1 & IH2)]; [split; [apply same_refl|auto]|]. cbn [fst snd] in *. split.
  - pose proof (call_inputs _ _ _ _ _ _ _ HU NP H) as K. destruct K as (K & L1 & L2), IH1 as (I & L3 & L4). split; [rewrite I, K; reflexivity|split; congruence].
  - intros c E. apply IH2. exact (static_kept _ _ _ _ _ _ _ H c E).
Qed.
(** the answer does not involve the static unless sections coagulate *)
Lemma static_free g g' eig (m : model (N:=N)) s : sm_psd m <> P_SECT \/ coagOn m = false -> sameAnswer (setSourceTerms g' eig m s) (setSourceTerms g eig m s).
Proof.
  intros HD. assert (K : forall r : res (model * state), sameAnswer (' (m', s') <- r ;; Ok (g', m', s')) (' (m', s') <- r ;; Ok (g, m', s'))) by (intros [(a & b)| |]; cbn [bind sameAnswer]; auto).
  unfold setSourceTerms. destruct (sm_psd m) eqn:EP; try apply K; try reflexivity. destruct HD as [HD|HD]; [congruence|].
  unfold setSourceTermsSECT. pose proof (chem_post (collSECT m) m s) as CP. destruct (chemRates (collSECT m) m s) as [((((j & kg) & ko) & m') & s')| |]; cbn [bind sameAnswer post] in *; auto.
  assert (EC : coagOn m' = false). { destruct CP as (_ & _ & _ & _ & _ & _ & CP). unfold coagOn in *. rewrite CP. exact HD. }
  destruct (readSoot _ _) as [nv| |]; cbn [bind sameAnswer]; auto. rewrite EC. destruct (sm_priv m'); cbn [bind sameAnswer]; auto.
Qed.
Lemma call_mech g eig (m : model (N:=N)) s g1 m1 s1 : okModel m -> setSourceTerms g eig m s = Ok (g1, m1, s1) -> nu_mech (sm_nucl m1) = nu_mech (sm_nucl m).
Proof. intros HF H. destruct (call_moved _ _ _ _ _ _ _ HF H) as ((_ & _ & (_ & E & _) & _) & _). auto. Qed.
Lemma hist_ok l : forall g (m : model (N:=N)) s g1 m1 s1, okModel m -> runActions (g, m, s) l = Ok (g1, m1, s1) -> preModel m m1.
Proof.
  unfold runActions. induction l as [|a l IH]; intros g m s g1 m1 s1 HF H; cbn [foldM] in H.
  { injection H as <- <- <-. apply preModel_refl. }
  apply bind_ok in H. destruct H as (((g2 & m2) & s2) & H1 & H). destruct a as [T_ P_ rho mu yg yp sv ns tv nT c|eig]; cbn [doAction] in H1.
  - destruct (setState s T_ P_ rho mu yg yp sv ns tv nT c) as [r|e r|]; [| |discriminate H1]; injection H1 as <- <- <-; exact (IH _ _ _ _ _ _ HF H).
  - destruct (call_moved _ _ _ _ _ _ _ HF H1) as (SM & _). eapply preModel_trans; [exact SM|]. exact (IH g2 m2 s2 g1 m1 s1 (ok_pre _ _ SM HF) H).
Qed.
Lemma C76_ newed p n nu gr ox co nt ta F k (m0 m : model) ga sa l ga' sa' g s g' s' eig :
  build (N:=N) newed p n nu gr ox co nt ta F k = Ok m0 -> nu_class nu = nu_mech nu -> runActions (ga, m0, sa) l = Ok (ga', m, sa') ->
  comparable p (sootVar s) -> length (wts s) = Nat.div n 2 -> length (absc s) = Nat.div n 2 ->
  evaluated (g, s) (g', s') -> p <> P_SECT \/ co_mech co = C_NONE \/ g <> None ->
  sameAnswer (setSourceTerms g eig m s) (setSourceTerms g' eig m s').
Proof.
  intros EB EN HR HC LW LA EV HG. destruct (build_ok _ _ _ _ _ _ _ _ _ _ _ _ _ EB EN HC) as (HF & EP).
  pose proof (hist_ok _ _ _ _ _ _ _ HF HR) as PM. pose proof (ok_pre _ _ PM HF) as HM. pose proof PM as (E1 & _ & _ & _ & _ & E6 & _).
  destruct (evals_inputs _ _ EV) as (SI & ST). cbn [fst snd] in SI, ST.
  assert (MR : monoReady m s s').
  { intros X. right. rewrite <- E1, EP in X. rewrite X in HC, EB. cbn [comparable] in HC.
    destruct (build_facts _ _ _ _ _ _ _ _ _ _ _ _ EB) as (_ & _ & _ & ED). assert (n = 2) by (unfold derivedCheck in ED; destruct n as [|[|[|]]]; try discriminate ED; auto). subst n. auto. }
  pose proof (call_pair g eig m m s s' HM (preModel_refl m) SI MR) as K. unfold both in K.
  assert (Q : sameAnswer (setSourceTerms g eig m s) (setSourceTerms g eig m s')).
  { unfold sameAnswer. destruct (setSourceTerms g eig m s) as [((a1 & a2) & a3)| |], (setSourceTerms g eig m s') as [((b1 & b2) & b3)| |]; auto. cbn [fst snd] in K. destruct K as (_ & K1 & K2 & K3 & K4 & K5 & _). auto 10. }
  assert (D : (sm_psd m <> P_SECT \/ coagOn m = false) \/ g' = g).
  { destruct HG as [HG|[HG|HG]]; [left; left; congruence|left; right; unfold coagOn; rewrite <- E6; assert (EC : sm_coag m0 = co) by (destruct (build_facts _ _ _ _ _ _ _ _ _ _ _ _ EB) as (_ & EC & _); exact EC); rewrite EC, HG; reflexivity|right].
    destruct g as [c|]; [|congruence]. exact (ST c eq_refl). }
  destruct D as [D| ->]; [|exact Q]. pose proof (static_free g' g eig m s' D) as Q2.
  destruct (setSourceTerms g eig m s) as [((a1 & a2) & a3)| |] eqn:R1, (setSourceTerms g eig m s') as [((b1 & b2) & b3)| |] eqn:R2, (setSourceTerms g' eig m s') as [((c1 & c2) & c3)| |]; cbn [sameAnswer] in *; try contradiction; try congruence.
  destruct Q as (Q1' & Q2' & Q3' & Q4' & Q5'), Q2 as (Z1 & Z2 & Z3 & Z4 & Z5). split; [congruence|]. split; [congruence|]. split; [|split; congruence].
  intros H. rewrite (Q3' H). apply Z3. rewrite (call_mech _ _ _ _ _ _ _ HM R2), <- (call_mech _ _ _ _ _ _ _ HM R1). exact H.
Qed.
End S.
