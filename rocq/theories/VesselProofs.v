(** Proofs for C89: closed vessels. *)
From Coq Require Import ZArith List Bool Reals Lra Lia.
From Verif Require Import Num Defs State Coag Nucl Growth Oxid Tar SootModel Mono Qmom Momic Calls XR XRLemmas NumLaws SpecConfig SpecChem SpecCoag SpecValid SpecRates SpecGas SpecPah SpecPsd SpecSect SpecQmom SpecBinomial SpecLogn SpecMomic SpecFrame SpecFinite SpecBalance SpecSafe SpecVessel
  ConfigProofs CoagProofs StateXR ValidProofs InterpProofs GasProofs RateProofs PsdProofs PahProofs PahMain MonoProofs MonoMain ChemAll SectProofs SectMain SectBins SectCases SectFinal QmomRun QmomMain QmomFinal LognProofs LognMain LognFinal MomicProofs MomicMain MomicRun MomicFinal FrameMain FiniteMomic StateProofs FiniteMain BalanceMain SafeMain.
Import ListNotations.
Local Open Scope R_scope.

(** ** linearity *)
Lemma total_lin f c h : total (fun sp => f sp + c * h sp) = total f + c * total h.
Proof. unfold total. ring. Qed.
Lemma element_lin a f c h : element a (fun sp => f sp + c * h sp) = element a f + c * element a h.
Proof. unfold element. rewrite <- total_lin. unfold total, Rdiv. ring. Qed.
Lemma el_table (f : nat -> R) n i : el (map f (seq 0 n)) i = if Nat.ltb i n then f i else 0.
Proof.
  unfold el. destruct (Nat.ltb_spec i n) as [H|H].
  - rewrite nth_indep with (d' := f 0%nat) by (rewrite map_length, seq_length; auto). rewrite map_nth, seq_nth by auto. reflexivity.
  - apply nth_overflow. now rewrite map_length, seq_length.
Qed.
Lemma dot_lin (f h : nat -> R) c l : forall b, dot (map (fun i => f i + c * h i) l) b = dot (map f l) b + c * dot (map h l) b.
Proof.
  unfold dot. induction l as [|i l IH]; intros [|x b]; cbn [map combine SpecRates.sumR fold_right fst snd]; try (unfold SpecRates.sumR; cbn; ring).
  specialize (IH b). unfold SpecRates.sumR in *. cbn [map combine fold_right fst snd]. rewrite IH. ring.
Qed.
Lemma mass_lin p b n v c r : sootMass p b n (moved v c r) = sootMass p b n v + c * soot1 p b (map (rSoot r) (seq 0 n)).
Proof.
  unfold sootMass, soot, soot1. cbn [vSoot moved]. destruct p; try (rewrite !el_table; destruct (Nat.ltb 1 n); ring).
  unfold mass. apply dot_lin.
Qed.

Lemma same_move p b n v c r : total (rGas r) + soot1 p b (map (rSoot r) (seq 0 n)) = 0 ->
  element atomsC (rGas r) + soot1 p b (map (rSoot r) (seq 0 n)) / massC = 0 -> element atomsH (rGas r) = 0 -> element atomsO (rGas r) = 0 ->
  sameContent p b n v (moved v c r).
Proof.
  intros A B C D. unfold sameContent, density. rewrite mass_lin. cbn [vGas vRest moved]. rewrite !element_lin, total_lin, C, D.
  set (y := soot1 p b _) in *. split; [|split; [|split; ring]].
  - replace (total (rGas r)) with (- y) by lra. ring.
  - unfold Rdiv in *. rewrite Rmult_plus_distr_r. replace (c * y * / massC) with (c * (y * / massC)) by ring.
    replace (element atomsC (rGas r)) with (- (y * / massC)) by lra. ring.
Qed.
Lemma same_trans p b n u v w : sameContent p b n u v -> sameContent p b n v w -> sameContent p b n u w.
Proof. unfold sameContent. intros (A & B & C & D) (E & F & G & H). repeat split; congruence. Qed.

(** ** one evaluation *)
Section Call.
Context (p : psdMech) (k : mechs) (n nt : nat) (F : R) (c : Z) (OM : okAll k) (NP : isP k = false).
Let b := geometric c F n.
Lemma balanced st m s g so eig st' m' s' q : hasAll m k -> sm_psd m = p -> extra p k n F c st m s -> valid s g so -> length so = n ->
  regular k g (soot0 p so) (soot1 p b so) ->
  setSourceTerms st eig m s = Ok (st', m', s') -> soots m' = map Fin q -> length q = n -> massBalanced m' (soot1 p b q).
Proof.
  intros HM HP X V LS RG E EQ LQ. unfold extra in X.
  assert (FROM : forall y, sourceIs m' 1 y -> y = el q 1).
  { intros y Hy. unfold sourceIs in Hy. rewrite EQ in Hy. rewrite nth_error_map in Hy. unfold el. destruct (nth_error q 1) as [z|] eqn:Ez; [|discriminate Hy].
    cbn [option_map] in Hy. assert (z = y) by (apply (f_equal (fun o => match o with Some (Fin t) => t | _ => 0 end)) in Hy; exact Hy). subst z. symmetry. now apply nth_error_nth. }
  assert (USE : forall st2 m2 s2 y, setSourceTerms st eig m s = Ok (st2, m2, s2) -> sourceIs m2 1 y -> massBalanced m2 y -> massBalanced m' (el q 1)).
  { intros st2 m2 s2 y E2 A B. rewrite E in E2. assert (m' = m2) by (apply (f_equal (fun r => match r with Ok (_, z, _) => z | _ => m' end)) in E2; exact E2). subst m2.
    rewrite <- (FROM y A). exact B. }
  destruct p; try contradiction; cbn [soot0 soot1] in *.
  - destruct X as (N2 & HT & w & x & Ew & Ex). destruct so as [|M0 [|M1 [|]]]; cbn [length] in LS; try lia.
    destruct (mono_bal m s g k M0 M1 st eig HP HM OM NP HT V RG) as (m2 & s2 & y & E2 & A & B).
    { now rewrite Ew. } { now rewrite Ex. } { intros _. eauto. } eapply USE; eauto.
  - destruct X as (N3 & HC). destruct so as [|M0 [|M1 [|M2 [|]]]]; cbn [length] in LS; try lia.
    destruct (logn_bal m s g k M0 M1 M2 st eig) as (m2 & s2 & y & E2 & A & B). { repeat (split; [assumption|]). exact RG. } { exact NP. } eapply USE; eauto.
  - destruct X as (h & Nq & HQ & HC).
    destruct (qmom_bal m s g k so h eig st st' m' s') as (y & A & B). { repeat (split; [first [assumption|congruence]|]); exact RG. } { exact NP. } { exact E. }
    rewrite <- (FROM y A). exact B.
  - destruct X as (HC & L & MA). subst n.
    destruct (momic_bal m s g k so st eig) as (m2 & s2 & y & E2 & A & B). { repeat (split; [assumption|]). exact L. } { exact NP. } eapply USE; eauto.
  - destruct X as (HF & Hc & Hs & IS & HO). assert (EL : length b = n) by apply geo_len.
    destruct (sect_bal m m' s s' g k b so F (/ ln F) st st' eig IS (G_geo c F n Hc HF Hs) HM OM NP V ltac:(congruence) RG (own_located st F HF HO) E) as (q' & A & _ & B).
    assert (q' = q). { rewrite A in EQ. apply (f_equal (map (fun z => match z with Fin t => t | _ => 0 end))) in EQ. rewrite !map_map, !map_id in EQ. exact EQ. }
    subst q'. exact B.
Qed.
End Call.

(** ** histories *)
Section Histories.
Context (p : psdMech) (n nt : nat) (nu : nucleationMech) (gr : growthMech) (ox : oxidationMech) (co : coagulationMech) (ta : tarMech) (F : R) (c : Z) (m0 : model (N:=XR)).
Context (GC : goodConfig p n nu co ta F c) (NU : gasOnly nu) (E0 : constructEnum p n nu gr ox co nt ta (Fin F) c = Ok m0).
Let k := mkMechs nu gr ox co 1.
Let b := geometric c F n.
Let ok := goodStep p k b n nt.

Lemma notP : isP k = false.
Proof. unfold isP, k. cbn [mN]. destruct NU as (A & _). destruct nu; congruence. Qed.
Lemma sized x : ok x -> Forall (sizedAction n nt) [setTo (spGas x) (spSoot x) (spTar x); ASrc (spEig x)].
Proof.
  intros (_ & A & B & _). constructor; [|constructor; [exact I|constructor]]. unfold setTo, sizedAction, fitAction.
  split; [apply Nat.le_refl|]. split; [now rewrite map_length|]. split; [now rewrite A|]. split; [now rewrite map_length|now rewrite B].
Qed.
Lemma sized_all l : (forall x, In x l -> ok x) -> Forall (sizedAction n nt) (actionsOf l).
Proof. induction l as [|x l IH]; intros H; [constructor|]. unfold actionsOf. cbn [flat_map]. apply Forall_app. split; [apply sized, H; now left|apply IH; intros; apply H; now right]. Qed.
Lemma lengths l st' m' s' : (forall x, In x l -> ok x) -> runActions (None, m0, newState n nt) (actionsOf l) = Ok (st', m', s') -> length (soots m') = n.
Proof.
  intros H E. pose proof (C47_enum n nt p nu gr ox co ta (Fin F) c m0 (actionsOf l) None E0) as K. rewrite E in K. apply K.
  - intros ->. now destruct GC as (_ & _ & G).
  - intros ->. now destruct GC as (_ & _ & G).
  - intros [R|[R|R]]; destruct NU as (_ & A & B); try congruence. destruct GC as (_ & T & _). congruence.
  - now apply sized_all.
Qed.
Lemma actions_app l x : actionsOf (l ++ [x]) = actionsOf l ++ [setTo (spGas x) (spSoot x) (spTar x); ASrc (spEig x)].
Proof. unfold actionsOf. rewrite flat_map_app. reflexivity. Qed.

Lemma last_call l x st' m' s' q : (forall y, In y (l ++ [x]) -> ok y) -> runActions (None, m0, newState n nt) (actionsOf (l ++ [x])) = Ok (st', m', s') ->
  soots m' = map Fin q -> massBalanced m' (soot1 p b q).
Proof.
  intros H E EQ. assert (LQ : length q = n). { rewrite <- (map_length Fin q). transitivity (length (soots m')); [now rewrite EQ|]. eapply lengths; eauto. }
  destruct (start _ _ _ _ _ _ _ _ _ _ _ GC E0) as (_ & OM & _ & I0). fold k in OM, I0.
  destruct (all_steps p k n nt F c OM l _ I0) as (((st1 & m1) & s1) & R1 & I1). { intros y Hy. apply H. apply in_or_app. now left. }
  rewrite actions_app in E. unfold runActions in *. rewrite foldM_app in E.
  match type of E with bind ?X _ = _ => replace X with (Ok (st1, m1, s1)) in E by (symmetry; exact R1) end. cbn [bind] in E.
  assert (GS : ok x) by (apply H; apply in_or_app; right; now left). destruct x as [g so tar eig]. pose proof GS as (PH & L1 & L2 & N1 & N2 & RG & _). cbn [spGas spSoot spTar spEig] in *.
  destruct I1 as (HM & HP & PF & S1 & S2 & S3 & _ & _ & _ & X).
  destruct (setTo_ok st1 m1 s1 g so tar) as (s2 & E1 & V & _ & W & Ab & _ & T); auto; try congruence.
  assert (X1 : extra p k n F c st1 m1 s2). { unfold extra in *. destruct p; try contradiction; try assumption; [now rewrite W, Ab|]. unfold isQmom in *. now rewrite W, Ab. }
  cbn [foldM] in E. match type of E with bind ?X _ = _ => replace X with (Ok (st1, m1, s2)) in E by (symmetry; exact E1) end. cbn [bind doAction] in E.
  destruct (setSourceTerms st1 eig m1 s2) as [((st3 & m3) & s3)| |] eqn:E3; try discriminate E. cbn [bind] in E.
  apply (f_equal (fun r => match r with Ok z => z | _ => (st3, m3, s3) end)) in E. assert (m3 = m') by congruence. subst m3.
  eapply (balanced p k n F c OM notP); eauto.
Qed.

Lemma visited_ok v hist rs : visited ok n nt m0 v hist rs -> (forall x, In x hist -> ok x) /\ Forall (fun r => total (rGas r) + soot1 p b (map (rSoot r) (seq 0 n)) = 0 /\
  element atomsC (rGas r) + soot1 p b (map (rSoot r) (seq 0 n)) / massC = 0 /\ element atomsH (rGas r) = 0 /\ element atomsO (rGas r) = 0) rs.
Proof.
  induction 1 as [|hist rs cs ct st' m' s' r V (IH1 & IH2) GS E (HG & HS)]; [split; [intros ? []|constructor]|].
  assert (A : forall y, In y (hist ++ [evaluation n nt ct (combined v cs rs)]) -> ok y) by (intros y Hy; apply in_app_or in Hy; destruct Hy as [Hy|[<-|[]]]; auto).
  split; [exact A|]. constructor; [|exact IH2].
  destruct (last_call _ _ _ _ _ (map (rSoot r) (seq 0 n)) A E) as (f & (_ & Hf) & B). { rewrite map_map. exact HS. }
  assert (EF : forall sp, f sp = rGas r sp). { intros sp. destruct HG as (_ & HG). specialize (HG sp). rewrite Hf in HG. apply (f_equal (fun o => match o with Some (Fin t) => t | _ => 0 end)) in HG. exact HG. }
  assert (ET : forall u w : gasSp -> R, (forall sp, u sp = w sp) -> total u = total w) by (intros u w H; unfold total; now rewrite !H).
  assert (EE : forall a, element a f = element a (rGas r)) by (intros a; unfold element; apply ET; intros sp; now rewrite EF).
  rewrite <- (ET f (rGas r) EF), <- !EE. exact B.
Qed.
Lemma conserved v hist rs cs : visited ok n nt m0 v hist rs -> sameContent p b n v (combined v cs rs).
Proof.
  intros V. destruct (visited_ok _ _ _ V) as (_ & A). clear V. revert cs. induction A as [|r rs (B1 & B2 & B3 & B4) _ IH]; intros [|x cs]; cbn [combined]; try (repeat split; reflexivity).
  eapply same_trans; [apply IH|]. now apply same_move.
Qed.
Lemma goes_on v hist rs cs ct : visited ok n nt m0 v hist rs -> ok (evaluation n nt ct (combined v cs rs)) ->
  exists r, visited ok n nt m0 v (hist ++ [evaluation n nt ct (combined v cs rs)]) (r :: rs).
Proof.
  intros V GS. destruct (visited_ok _ _ _ V) as (A & _). set (x := evaluation n nt ct (combined v cs rs)) in *.
  assert (H : forall y, In y (hist ++ [x]) -> ok y) by (intros y Hy; apply in_app_or in Hy; destruct Hy as [Hy|[<-|[]]]; auto).
  destruct (start _ _ _ _ _ _ _ _ _ _ _ GC E0) as (_ & OM & _ & I0). fold k in OM, I0.
  destruct (all_steps p k n nt F c OM _ _ I0 H) as (((st1 & m1) & s1) & R1 & (_ & _ & _ & _ & _ & _ & FS & _)).
  assert (FQ : exists q, soots m1 = map Fin q /\ length q = n).
  { pose proof (lengths _ _ _ _ H R1) as L. revert L FS. generalize (soots m1) n. clear. intros l. induction l as [|y l IH]; intros j L FS.
    - exists []. auto.
    - destruct (FS y (or_introl eq_refl)) as (t & ->). cbn [length] in L. destruct (IH (length l) eq_refl) as (q & Eq & Lq). { intros z Hz. apply FS. now right. }
      exists (t :: q). cbn [map length]. rewrite <- Eq. split; [reflexivity|lia]. }
  destruct FQ as (q & EQ & LQ). destruct (last_call _ _ _ _ _ q H R1 EQ) as (f & HG & _).
  exists (mkRates f (el q)). apply (next ok n nt m0 v hist rs cs ct st1 m1 s1); auto. split; [exact HG|]. cbn [rSoot]. rewrite EQ. clear -LQ. subst n.
  rewrite <- (map_map (el q) Fin). f_equal. unfold el. clear. induction q as [|y q IH]; [reflexivity|]. cbn [length seq map nth]. f_equal. rewrite <- seq_shift, map_map. exact IH.
Qed.
Lemma carbon_limit v hist rs cs : visited ok n nt m0 v hist rs -> (forall sp, 0 <= vGas (combined v cs rs) sp) ->
  sootMass p b n (combined v cs rs) <= massC * element atomsC (vGas v) + sootMass p b n v.
Proof.
  intros V P. destruct (conserved v hist rs cs V) as (_ & E & _). set (w := combined v cs rs) in *.
  assert (0 <= element atomsC (vGas w)).
  { unfold element, total. assert (Q : forall sp, 0 <= vGas w sp / molarMass sp * IZR (atomsC sp)).
    { intros sp. apply Rmult_le_pos; [|destruct sp; cbn [atomsC]; lra]. apply Rmult_le_pos; [apply P|]. apply Rlt_le, Rinv_0_lt_compat.
      destruct sp; unfold molarMass, massC, massH, massO; cbn [atomsC atomsH atomsO]; lra. }
    pose proof (Q O2). pose proof (Q O_). pose proof (Q H2). pose proof (Q H_). pose proof (Q OH). pose proof (Q H2O). pose proof (Q CO). pose proof (Q C2H2). pose proof (Q C6H6). pose proof (Q C_). pose proof (Q CO2). lra. }
  assert (0 < massC) by (unfold massC; lra).
  apply Rmult_le_reg_l with (/ massC); [now apply Rinv_0_lt_compat|]. rewrite Rmult_plus_distr_l, <- Rmult_assoc, Rinv_l by lra. unfold Rdiv in E. lra.
Qed.
End Histories.
