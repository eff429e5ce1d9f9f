(** C46: repeated calls and histories. *)
From Coq Require Import ZArith List Bool Lia.
From Verif Require Import Num Defs State Binomial Coag Nucl Growth Oxid Tar SootModel Mono Logn Qmom Momic Sect Calls SpecSafe StateProofs SafeProofs SafeMain SurfProofs HistProofs.
Import ListNotations.

Section S.
Context {N : Num}.

Definition fits (m : model) : Prop :=
  match sm_psd m with
  | P_LOGN | P_QMOM => True
  | P_MOMIC => exists d, sm_priv m = PrivMomic (N:=N) d
  | P_SECT => exists F b, sm_priv m = PrivSect F b
  | _ => False
  end.
Definition growthF (m : model) : num := match sm_priv m with PrivSect F _ => F | _ => nZ 0 end.
Lemma call_both g g' eig (m m' : model) s s' : fits m -> sameModel m m' -> sameInputs s s' -> nu_class (sm_nucl m) <> N_PAH -> nu_mech (sm_nucl m) <> N_PAH ->
  (sm_psd m = P_SECT -> coagOn m = true -> ilnFof g (growthF m) = ilnFof g' (growthF m)) ->
  both (setSourceTerms g eig m s) (setSourceTerms g' eig m' s') (fun x x' =>
     agreeing m s (snd (fst x), snd x) (snd (fst x'), snd x') /\
     (g = g' -> fst (fst x) = fst (fst x')) /\
     (sm_psd m = P_SECT -> coagOn m = true -> ilnFof (fst (fst x)) (growthF m) = ilnFof g (growthF m) /\ fst (fst x') = fst (fst x)) /\
     (sm_psd m <> P_SECT \/ coagOn m = false -> fst (fst x) = g /\ fst (fst x') = g')).
Proof.
  intros HF SM (-> & L1 & L2) NC NM HG. assert (IP : isPAH m = false) by (unfold isPAH; destruct (nu_mech (sm_nucl m)); congruence).
  pose proof SM as (EP & _). unfold setSourceTerms. rewrite <- EP. unfold fits in HF. destruct (sm_psd m) eqn:E; try contradiction.
  - eapply both_seq; [apply logn_both; auto|]. intros (a & b) (a' & b') _ _ H. cbn [both fst snd]. split; [exact H|]. split; [auto|]. split; [discriminate|auto].
  - eapply both_seq; [apply qmom_both; auto|]. intros (a & b) (a' & b') _ _ H. cbn [both fst snd]. split; [exact H|]. split; [auto|]. split; [discriminate|auto].
  - destruct HF as (d & Hd). eapply both_seq; [eapply momic_both; eauto|]. intros (a & b) (a' & b') _ _ H. cbn [both fst snd]. split; [exact H|]. split; [auto|]. split; [discriminate|auto].
  - destruct HF as (F & b & Hd). assert (EF : growthF m = F) by (unfold growthF; now rewrite Hd). rewrite EF in *.
    pose proof (sect_both g g' m m' s (wts s') (absc s') F b SM Hd NC IP (HG eq_refl)) as K. unfold both in *.
    destruct (setSourceTermsSECT g m s) as [((a1 & a2) & a3)| |], (setSourceTermsSECT g' m' (with_wa s (wts s') (absc s'))) as [((b1 & b2) & b3)| |]; auto.
    cbn [fst snd] in *. destruct K as (K1 & K2 & K3). split; [exact K1|]. rewrite K2, K3. split; [intros ->; reflexivity|].
    split; [intros _ ->; cbn [ilnFof]; auto|]. intros [X|X]; [congruence|rewrite X; auto].
Qed.
Lemma C46_same g eig (m m' : model) s s' : fits m -> sameModel m m' -> sameInputs s s' -> nu_class (sm_nucl m) <> N_PAH -> nu_mech (sm_nucl m) <> N_PAH ->
  sameOutcome (setSourceTerms g eig m s) (setSourceTerms g eig m' s').
Proof.
  intros HF SM SI NC NM. pose proof (call_both g g eig m m' s s' HF SM SI NC NM ltac:(auto)) as K. unfold both in K. unfold sameOutcome.
  destruct (setSourceTerms g eig m s) as [((a1 & a2) & a3)| |], (setSourceTerms g eig m' s') as [((b1 & b2) & b3)| |]; auto. cbn [fst snd] in K. destruct K as ((A & B & _) & C & _). auto.
Qed.
Lemma sameModel_sym m m' : sameModel (N:=N) m m' -> sameModel m' m.
Proof.
  intros (E1 & E2 & E3 & E4 & E5 & E6 & E7 & E8 & EP). unfold sameModel. repeat (split; [congruence|]). unfold samePriv in *. destruct (sm_priv m), (sm_priv m'); try congruence; try discriminate. intuition.
Qed.
Lemma sameModel_trans m1 m2 m3 : sameModel (N:=N) m1 m2 -> sameModel m2 m3 -> sameModel m1 m3.
Proof.
  intros (E1 & E2 & E3 & E4 & E5 & E6 & E7 & E8 & EP) (F1 & F2 & F3 & F4 & F5 & F6 & F7 & F8 & FP). unfold sameModel. repeat (split; [congruence|]). unfold samePriv in *.
  destruct (sm_priv m1), (sm_priv m2), (sm_priv m3); try congruence; try discriminate. destruct EP as (? & ? & ?), FP as (? & ? & ?). repeat split; congruence.
Qed.
Lemma fits_same m m' : sameModel m m' -> fits m -> fits m'.
Proof.
  intros (E1 & _ & _ & _ & _ & _ & _ & _ & EP). unfold fits. rewrite <- E1. destruct (sm_psd m); auto; unfold samePriv in EP.
  - intros (d & H). rewrite H in EP. destruct (sm_priv m'); try discriminate. eauto.
  - intros (F & b & H). rewrite H in EP. destruct (sm_priv m'); try discriminate. eauto.
Qed.
Lemma call_kept g eig (m : model) s g1 m1 s1 : fits m -> nu_class (sm_nucl m) <> N_PAH -> nu_mech (sm_nucl m) <> N_PAH -> setSourceTerms g eig m s = Ok (g1, m1, s1) -> sameModel m m1 /\ sameInputs s s1.
Proof.
  intros HF NC NM H. pose proof (call_both g g eig m m s s HF (sameModel_refl m) (same_refl s) NC NM ltac:(auto)) as K. unfold both in K. rewrite H in K. destruct K as ((_ & _ & A & B) & _). auto.
Qed.
Lemma C46_repeat_ g eig (m : model) s g1 m1 s1 : fits m -> nu_class (sm_nucl m) <> N_PAH -> nu_mech (sm_nucl m) <> N_PAH ->
  setSourceTerms g eig m s = Ok (g1, m1, s1) ->
  exists m2 s2, setSourceTerms g1 eig m1 s1 = Ok (g1, m2, s2) /\ sootSources (sm_sources m2) = sootSources (sm_sources m1) /\ gasSources (sm_sources m2) = gasSources (sm_sources m1).
Proof.
  intros HF NC NM H. destruct (call_kept g eig m s g1 m1 s1 HF NC NM H) as (SM & SI).
  pose proof (call_both g g eig m m s s HF (sameModel_refl m) (same_refl s) NC NM ltac:(auto)) as K0. unfold both in K0. rewrite H in K0. cbn [fst snd] in K0. destruct K0 as (_ & _ & G1 & G2).
  pose proof (call_both g g1 eig m m1 s s1 HF SM SI NC NM) as K. unfold both in K. rewrite H in K.
  destruct (setSourceTerms g1 eig m1 s1) as [((g2 & m2) & s2)|?|?]; [|exfalso; apply K; intros X Y; destruct (G1 X Y); congruence|exfalso; apply K; intros X Y; destruct (G1 X Y); congruence].
  cbn [fst snd] in K. destruct K as ((A & B & _) & _ & C1 & C2); [intros X Y; destruct (G1 X Y); congruence|].
  exists m2, s2. split; [|auto]. f_equal. f_equal. f_equal.
  assert (DS : sm_psd m = P_SECT \/ sm_psd m <> P_SECT) by (destruct (sm_psd m); auto; right; discriminate). destruct DS as [DS|DS]; [|destruct (C2 (or_introl DS)); congruence].
  destruct (coagOn m) eqn:EC; [destruct (C1 DS eq_refl); congruence|destruct (C2 (or_intror eq_refl)); congruence].
Qed.
Lemma build_fits newed p n nu gr ox co nt ta F k (m : model) : build (N:=N) newed p n nu gr ox co nt ta F k = Ok m -> p = P_LOGN \/ p = P_QMOM \/ p = P_MOMIC \/ p = P_SECT -> fits m /\ sm_nucl m = nu.
Proof.
  intros EB HP. destruct (build_facts _ _ _ _ _ _ _ _ _ _ _ _ EB) as (E1 & _ & E3 & _). split.
  - unfold fits. rewrite E1, E3. destruct HP as [->|[->|[->| ->]]]; cbn [initPriv]; eauto.
  - unfold build in EB. destruct (derivedCheck _ _ _ _); try discriminate EB. cbn [bind] in EB. injection EB as <-. reflexivity.
Qed.

(** ** Histories *)
(** setState with accepted arguments fixes everything but weights, abscissas and the
    fields it does not set *)
Definition rest (s : state) : list num * list num * num * num * num * num * num := (sootScales s, yBio s, mtar s, ytar s, OC s, HC s, V s).
Lemma state_ext (a b : state (N:=N)) : State.T a = State.T b -> State.P a = State.P b -> State.rhoGas a = State.rhoGas b -> State.MWGas a = State.MWGas b -> State.muGas a = State.muGas b -> State.yGas a = State.yGas b -> State.yPah a = State.yPah b -> State.st_nsoot a = State.st_nsoot b -> State.sootVar a = State.sootVar b -> State.absc a = State.absc b -> State.wts a = State.wts b -> State.sootScales a = State.sootScales b -> State.cMin a = State.cMin b -> State.st_Ntar a = State.st_Ntar b -> State.tarVar a = State.tarVar b -> State.yBio a = State.yBio b -> State.mtar a = State.mtar b -> State.ytar a = State.ytar b -> State.OC a = State.OC b -> State.HC a = State.HC b -> State.V a = State.V b -> a = b.
Proof. destruct a, b. cbn [State.T State.P State.rhoGas State.MWGas State.muGas State.yGas State.yPah State.st_nsoot State.sootVar State.absc State.wts State.sootScales State.cMin State.st_Ntar State.tarVar State.yBio State.mtar State.ytar State.OC State.HC State.V]. intros. subst. reflexivity. Qed.
(** the tests of setState, and what it stores *)
Definition decide (zs zt : Z) (lp : nat) (T_ P_ rho mu : num) (yg yp sv : list num) (tv : list num) (c : num) : option (list num * list num) :=
  if nleb T_ (nZ 0) then None else if nleb P_ (nZ 0) then None else if nleb rho (nZ 0) then None else if nleb mu (nZ 0) then None else if nleb c (nZ 0) then None else
  match clipNeg zs sv with UB _ => None | Throw _ => None | Ok sv =>
  if existsb (fun x => nltb x (nZ 0)) sv then None else
  match clipNeg zt tv with UB _ => None | Throw _ => None | Ok tv =>
  if existsb (fun x => nltb x (nZ 0)) tv then None else
  if existsb (fun y => ngtb (if nltb y (nZ 0) then nZ 0 else y) (nZ 1)) yg then None else
  if negb (Nat.eqb (length yp) lp) then None else
  if existsb (fun y => orb (nltb y (nZ 0)) (ngtb y (nZ 1))) yp then None else
  if ngtb (nsum yp) (nZ 1) then None else Some (sv, tv) end end.
Definition stores (s : state (N:=N)) (T_ P_ rho mu : num) (yg yp : list num) (ns nT : Z) (c : num) (v : list num * list num) : state :=
  mkState T_ P_ rho (rho * Rg * T_ / P_) mu yg yp ns (fst v) (absc s) (wts s) (sootScales s) c nT (snd v) (yBio s) (mtar s) (ytar s) (OC s) (HC s) (State.V s).
Lemma set_shape (s : state (N:=N)) T_ P_ rho mu yg yp sv ns tv nT c :
  match decide (st_nsoot s) (st_Ntar s) (length (yPah s)) T_ P_ rho mu yg yp sv tv c with
  | Some v => setState s T_ P_ rho mu yg yp sv ns tv nT c = SetOk (stores s T_ P_ rho mu yg yp ns nT c v)
  | None => forall r, setState s T_ P_ rho mu yg yp sv ns tv nT c <> SetOk r
  end.
Proof.
  unfold decide, setState. cbv zeta.
  destruct (nleb T_ (nZ 0)); [discriminate|]. destruct (nleb P_ (nZ 0)); [discriminate|]. destruct (nleb rho (nZ 0)); [discriminate|]. destruct (nleb mu (nZ 0)); [discriminate|]. destruct (nleb c (nZ 0)); [discriminate|].
  repeat match goal with |- context [clipNeg (st_nsoot ?x) _] => progress change (st_nsoot x) with (st_nsoot s) end.
  destruct (clipNeg (st_nsoot s) sv) as [sv'| |]; [|discriminate|discriminate]. destruct (existsb _ sv'); [discriminate|].
  repeat match goal with |- context [clipNeg (st_Ntar ?x) _] => progress change (st_Ntar x) with (st_Ntar s) end.
  destruct (clipNeg (st_Ntar s) tv) as [tv'| |]; [|discriminate|discriminate]. destruct (existsb _ tv'); [discriminate|].
  destruct (existsb _ yg); [discriminate|].
  repeat match goal with |- context [length (yPah ?x)] => progress change (yPah x) with (yPah s) end.
  destruct (negb _); [discriminate|]. destruct (existsb _ yp); [discriminate|].
  match goal with |- context [if ?b then None else _] => destruct b end; [discriminate|].
  apply (f_equal SetOk). apply state_ext; reflexivity.
Qed.
Lemma set_same n nt (s s' : state) T_ P_ rho mu yg yp sv ns tv nT c r : sizedState n nt s -> sizedState n nt s' -> rest s = rest s' ->
  sizedAction n nt (ASet T_ P_ rho mu yg yp sv ns tv nT c) -> setState s T_ P_ rho mu yg yp sv ns tv nT c = SetOk r ->
  exists r', setState s' T_ P_ rho mu yg yp sv ns tv nT c = SetOk r' /\ sameInputs r r'.
Proof.
  intros (A & B & C & D & E & F & G & H) (A' & B' & C' & D' & E' & F' & G' & H') R _ K.
  pose proof (set_shape s T_ P_ rho mu yg yp sv ns tv nT c) as X. pose proof (set_shape s' T_ P_ rho mu yg yp sv ns tv nT c) as X'.
  assert (Q : decide (st_nsoot s) (st_Ntar s) (length (yPah s)) T_ P_ rho mu yg yp sv tv c = decide (st_nsoot s') (st_Ntar s') (length (yPah s')) T_ P_ rho mu yg yp sv tv c) by congruence.
  rewrite <- Q in X'. destruct (decide _ _ _ _ _ _ _ _ _ _ _ _) as [v|]; [|exfalso; exact (X _ K)].
  rewrite K in X. injection X as ->. exists (stores s' T_ P_ rho mu yg yp ns nT c v). split; [exact X'|].
  unfold rest in R. injection R as R1 R2 R3 R4 R5 R6 R7.
  split; [unfold stores, with_wa; cbn [State.T State.P State.rhoGas State.MWGas State.muGas State.yGas State.yPah State.st_nsoot State.sootVar State.absc State.wts State.sootScales State.cMin State.st_Ntar State.tarVar State.yBio State.mtar State.ytar State.OC State.HC State.V]; congruence|].
  unfold stores. cbn [State.wts State.absc]. split; congruence.
Qed.
Lemma set_rest s T_ P_ rho mu yg yp sv ns tv nT c : match setState (N:=N) s T_ P_ rho mu yg yp sv ns tv nT c with SetOk r | SetThrow _ r => rest r = rest s | SetUB => True end.
Proof.
  unfold setState. cbv zeta. repeat match goal with
  | |- context [if ?b then SetThrow _ _ else _] => destruct b; [reflexivity|]
  | |- context [match ?b with Ok _ => _ | Throw _ => _ | UB _ => _ end] => destruct b; [|reflexivity|exact I]
  end. reflexivity.
Qed.
Lemma inputs_both (a b c : state (N:=N)) : sameInputs a b -> sameInputs a c -> sameInputs b c.
Proof.
  intros (Q1 & X1 & X2) (Q2 & Y1 & Y2). split; [|split; congruence]. rewrite Q2 at 1. rewrite Q1. reflexivity.
Qed.
Lemma sized_same n nt s s' : sizedState (N:=N) n nt s -> sameInputs s s' -> sizedState n nt s' /\ rest s' = rest s.
Proof. intros (A & B & C & D & E & F & G & H) (Q & L1 & L2). unfold sizedState, fitState, rest. rewrite L1, L2, Q. cbn [with_wa State.yGas State.yPah State.st_nsoot State.sootVar State.st_Ntar State.tarVar State.sootScales State.yBio State.mtar State.ytar State.OC State.HC State.V]. auto 10. Qed.
Lemma hist n nt l : Forall (sizedAction n nt) l -> forall g (m : model) s g1 m1 s1, fits m -> nu_class (sm_nucl m) <> N_PAH -> nu_mech (sm_nucl m) <> N_PAH -> sizedState n nt s ->
  runActions (g, m, s) l = Ok (g1, m1, s1) -> sameModel m m1 /\ sizedState n nt s1 /\ rest s1 = rest s.
Proof.
  intros HL. unfold runActions. induction HL as [|a l HA HL IH]; intros g m s g1 m1 s1 HF NC NM SS H; cbn [foldM] in H.
  { injection H as <- <- <-. auto using sameModel_refl. }
  apply bind_ok in H. destruct H as (((g2 & m2) & s2) & H1 & H). destruct a as [T_ P_ rho mu yg yp sv ns tv nT c|eig]; cbn [doAction] in H1.
  - pose proof (set_safe 11 n nt s T_ P_ rho mu yg yp sv ns tv nT c SS HA) as K. pose proof (set_rest s T_ P_ rho mu yg yp sv ns tv nT c) as Q.
    destruct (setState s T_ P_ rho mu yg yp sv ns tv nT c) as [r|e r|]; [| |discriminate H1]; injection H1 as <- <- <-; destruct (IH _ _ _ _ _ _ HF NC NM K H) as (X & Y & Z); rewrite Z; auto.
  - destruct (call_kept _ _ _ _ _ _ _ HF NC NM H1) as (SM & SI). destruct (sized_same n nt s s2 SS SI) as (SS2 & RR).
    pose proof SM as (_ & _ & EN & _). destruct (IH g2 m2 s2 g1 m1 s1) as (X & Y & Z); auto; try (rewrite <- EN; assumption).
    + eapply fits_same; eauto.
    + split; [eapply sameModel_trans; eauto|]. rewrite Z. auto.
Qed.
Lemma C46_history_ n nt newed p nu gr ox co ta F k (m : model) T_ P_ rho mu yg yp sv ns tv nT c l1 l2 ga gb g1 m1 s1 g2 m2 s2 g eig :
  build (N:=N) newed p n nu gr ox co nt ta F k = Ok m -> p = P_LOGN \/ p = P_QMOM \/ p = P_MOMIC \/ p = P_SECT ->
  nu_class nu <> N_PAH -> nu_mech nu <> N_PAH ->
  let a := ASet T_ P_ rho mu yg yp sv ns tv nT c in
  Forall (sizedAction n nt) l1 -> Forall (sizedAction n nt) l2 -> sizedAction n nt a ->
  (exists s, setState (newState n nt) T_ P_ rho mu yg yp sv ns tv nT c = SetOk s) ->
  runActions (ga, m, newState n nt) (l1 ++ [a]) = Ok (g1, m1, s1) -> runActions (gb, m, newState n nt) (l2 ++ [a]) = Ok (g2, m2, s2) ->
  sameOutcome (setSourceTerms g eig m1 s1) (setSourceTerms g eig m2 s2).
Proof.
  intros EB HP NC NM a F1 F2 SA (s0 & S0) R1 R2. destruct (build_fits _ _ _ _ _ _ _ _ _ _ _ _ EB HP) as (HF & EN). rewrite <- EN in NC, NM.
  assert (G : forall g0 l ge me se, Forall (sizedAction n nt) l -> runActions (g0, m, newState n nt) (l ++ [a]) = Ok (ge, me, se) -> sameModel m me /\ sameInputs s0 se).
  { intros g0 l ge me se HL R. unfold runActions in R. rewrite foldM_app in R. apply bind_ok in R. destruct R as (((gx & mx) & sx) & Rx & R).
    destruct (hist n nt l HL g0 m (newState n nt) gx mx sx HF NC NM (new_sized 11 n nt (le_n _)) Rx) as (SM & SS & RR). cbn [foldM a doAction] in R.
    destruct (set_same n nt (newState n nt) sx T_ P_ rho mu yg yp sv ns tv nT c s0 (new_sized 11 n nt (le_n _)) SS (eq_sym RR) SA S0) as (r & Er & SI). rewrite Er in R. cbn [bind] in R. injection R as <- <- <-. auto. }
  destruct (G _ _ _ _ _ F1 R1) as (A1 & B1). destruct (G _ _ _ _ _ F2 R2) as (A2 & B2).
  assert (SM : sameModel m1 m2) by (eapply sameModel_trans; [apply sameModel_sym; exact A1|exact A2]). pose proof A1 as (_ & _ & EN1 & _).
  apply C46_same; auto; try (rewrite <- EN1; assumption).
  - eapply fits_same; eauto.
  - exact (inputs_both _ _ _ B1 B2).
Qed.
End S.

Section T.
Context {N : Num}.
Lemma C46_inputs_ n nt newed p nu gr ox co ta F k (m0 m m' : model) s s' g eig :
  build (N:=N) newed p n nu gr ox co nt ta F k = Ok m0 -> p = P_LOGN \/ p = P_QMOM \/ p = P_MOMIC \/ p = P_SECT -> nu_class nu <> N_PAH -> nu_mech nu <> N_PAH ->
  sameModel m0 m -> sameModel m0 m' -> sameInputs s s' -> sameOutcome (setSourceTerms g eig m s) (setSourceTerms g eig m' s').
Proof.
  intros EB HP NC NM SM SM' SI. destruct (build_fits _ _ _ _ _ _ _ _ _ _ _ _ EB HP) as (HF & EN). rewrite <- EN in NC, NM. pose proof SM as (_ & _ & EN1 & _). rewrite EN1 in NC, NM.
  apply C46_same; auto. - eapply fits_same; eauto. - eapply sameModel_trans; [apply sameModel_sym; exact SM|exact SM'].
Qed.
Lemma C46_again n nt newed p nu gr ox co ta F k (m0 m : model) s g eig g1 m1 s1 :
  build (N:=N) newed p n nu gr ox co nt ta F k = Ok m0 -> p = P_LOGN \/ p = P_QMOM \/ p = P_MOMIC \/ p = P_SECT -> nu_class nu <> N_PAH -> nu_mech nu <> N_PAH ->
  sameModel m0 m -> setSourceTerms g eig m s = Ok (g1, m1, s1) ->
  exists m2 s2, setSourceTerms g1 eig m1 s1 = Ok (g1, m2, s2) /\ sootSources (sm_sources m2) = sootSources (sm_sources m1) /\ gasSources (sm_sources m2) = gasSources (sm_sources m1).
Proof.
  intros EB HP NC NM SM H. destruct (build_fits _ _ _ _ _ _ _ _ _ _ _ _ EB HP) as (HF & EN). rewrite <- EN in NC, NM. pose proof SM as (_ & _ & EN1 & _). rewrite EN1 in NC, NM.
  exact (C46_repeat_ g eig m s g1 m1 s1 (fits_same m0 m SM HF) NC NM H).
Qed.
(** an accepted setState, for the examples *)
Lemma run_one n nt (m : model (N:=N)) g T_ P_ rho mu yg yp sv ns tv nT c s : setState (newState n nt) T_ P_ rho mu yg yp sv ns tv nT c = SetOk s ->
  runActions (g, m, newState n nt) [ASet T_ P_ rho mu yg yp sv ns tv nT c] = Ok (g, m, s).
Proof. intros H. unfold runActions. cbn [foldM doAction]. rewrite H. reflexivity. Qed.
End T.
