(** Proofs for C97: nucleation and coagulation in a time loop. *)
From Coq Require Import ZArith List Bool Reals Lra Lia.
From Verif Require Import Num Defs State Coag Nucl Growth Oxid Tar SootModel Mono Qmom Momic Calls XR XRLemmas NumLaws SpecState SpecConfig SpecChem SpecCoag SpecValid SpecRates SpecGas SpecPah SpecPsd SpecSect SpecQmom SpecBinomial SpecLogn SpecMomic SpecFrame SpecBalance SpecStep SpecFinite SpecNuclLoop
  ConfigProofs CoagProofs StateXR ValidProofs InterpProofs GasProofs RateProofs PsdProofs PahProofs PahMain MonoProofs MonoMain ChemAll SectProofs SectMain SectBins SectCases SectFinal QmomRun QmomMain QmomFinal LognProofs LognMain LognFinal MomicProofs MomicMain MomicRun MomicFinal FrameMain FiniteMomic StateProofs FiniteMain VesselProofs StepProofs MarchMain BurnProofs.
Import ListNotations.
Local Open Scope R_scope.

Section Call.
Context (p : psdMech) (k : mechs) (n nt : nat) (F : R) (c : Z) (OM : okAll k).
Let b := geometric c F n.
Lemma one_call_o st m s g soot eig : hasAll m k -> sm_psd m = p -> extra p k n F c st m s -> valid s g soot -> length soot = n ->
  goodStep p k b n nt (mkStep g soot (repeat 0 nt) eig) -> 
  exists st' m' s' i u v, setSourceTerms st eig m s = Ok (st', m', s') /\ hasAll m' k /\ sm_psd m' = p /\ allFinite (soots m') /\
    gasBudget m' k g (nucl k g i) u v /\ pahs m' = pahSourcesOf k g (pahs m) /\ extra p k n F c st' m' s'.
Proof.
  intros HM HP X V LS (_ & _ & _ & _ & _ & RG & GS). cbn [spGas spSoot spTar] in *. unfold extra in *. destruct p; try contradiction.
  - destruct X as (N2 & HT & w & x & Ew & Ex). destruct soot as [|M0 [|M1 [|]]]; cbn [length] in LS; try lia. cbn [soot0 soot1 el nth] in RG.
    destruct (mono_run m s g k M0 M1 w x st eig HP HM OM HT V RG Ew Ex) as (m' & A & B & C & D & E & G & H).
    do 6 eexists. split; [exact A|]. split; [exact E|]. split; [exact G|]. split; [|split; [exact C|split; [exact D|]]].
    + rewrite B. unfold monoSources. intros y [<-|[<-|[]]]; eauto.
    + split; [exact N2|]. split; [exact H|]. match goal with |- context [outS k g ?z] => destruct (outS_rest k g z) as (R1 & R2 & _) end.
      do 2 eexists. split; [exact R1|exact R2].
  - destruct X as (N3 & HC). destruct soot as [|M0 [|M1 [|M2 [|]]]]; cbn [length] in LS; try lia. cbn [soot0 soot1 el nth] in *.
    destruct (logn_run m s g k M0 M1 M2 st eig) as (m' & A & B & C & D & E & G).
    { repeat (split; [assumption|]). exact RG. } { intros EP. apply GS. now apply isP_true. }
    do 6 eexists. split; [exact A|]. split; [exact E|]. split; [exact G|]. split; [rewrite B; apply fin_map|]. split; [exact C|]. split; [exact D|]. auto.
  - destruct X as (q & Nq & HQ & HC). cbn [soot0 soot1] in RG.
    assert (RD : readyQmom m s g k soot q) by (repeat (split; [first [assumption|congruence]|]); exact RG).
    destruct (r_nodes m s g k soot q eig RD) as (w & x & EN & Lw & Lx & NW & NX & _).
    destruct (r_call m s g k soot q eig st RD HC w x EN Lw Lx NW NX) as (m' & s' & A & _ & B & C & D & E & G).
    do 6 eexists. split; [exact A|]. split; [exact E|]. split; [exact (proj1 G)|]. split; [rewrite B; apply fin_fun|]. split; [exact C|]. split; [exact D|]. eauto.
  - destruct X as (HC & L & MA). cbn [soot0 soot1] in RG. destruct GS as (GP & GC). subst n.
    assert (RD : readyMomic m s g k soot) by (repeat (split; [assumption|]); exact L).
    assert (CASE : allPos soot /\ (isP k = true -> somePah g) \/ isP k = false /\ (mC k = C_CONTINUUM \/ el soot 0 = 0)).
    { destruct (isP k) eqn:EP; [left; apply isP_true in EP; destruct (GP EP); auto|].
      destruct HC as [E|[E|E]]; [| right; auto |]; (destruct GC as [Z|Z]; [congruence|right; auto|left; split; [exact Z|congruence]]). }
    destruct CASE as [(AP & SP)|(NP & CC)].
    + destruct (momic_run m s g k soot st eig RD AP SP) as (m' & A & B & C & D & E & G & H).
      do 6 eexists. split; [exact A|]. split; [exact E|]. split; [exact G|]. split; [rewrite B; apply fin_fun|]. split; [exact C|]. split; [exact D|]. auto.
    + destruct (momic_flat m s g k soot st eig RD NP CC) as (m' & A & B & (u & v & C) & D & E & G & H).
      do 6 eexists. split; [exact A|]. split; [exact E|]. split; [exact G|]. split; [exact B|]. split; [exact C|]. split; [exact D|]. auto.
  - destruct X as (HF & Hc & Hs & IS & HO). cbn [soot0 soot1] in RG. assert (EL : length b = n) by apply geo_len.
    destruct (sect_run m s g k b soot F IS (G_geo c F n Hc HF Hs) HM OM V ltac:(congruence) RG st (/ ln F) (own_located st F HF HO) eig (fun _ => geo_fits c F n Hc HF Hs)) as (m1 & A & B & C & D & E & G).
    do 6 eexists. split; [exact A|]. split; [exact E|]. split; [exact (proj1 G)|]. split; [rewrite B; apply fin_fun|]. split; [exact C|]. split; [exact D|].
    repeat (split; [assumption|]). destruct (coagOn m); [right; reflexivity|exact HO].
Qed.
End Call.

Section Loop.
Context (p : psdMech) (n : nat) (nu : nucleationMech) (co : coagulationMech) (F : R) (c : Z) (m0 : model (N:=XR)).
Context (GC : goodConfig p n nu co T_NONE F c) (NU : gasOnly nu) (MC : p = P_MOMIC -> co = C_CONTINUUM).
Context (E0 : constructEnum p n nu G_NONE O_NONE co 0 T_NONE (Fin F) c = Ok m0).
Let k := mkMechs nu G_NONE O_NONE co 1.
Let b := geometric c F n.
Let ok := goodStep p k b n 0.
Lemma nl_ok x : physical (spGas x) -> length (spSoot x) = n -> spTar x = [] -> ok (clipStep x).
Proof.
  intros PH L T. split; [exact PH|]. split; [cbn [clipStep spSoot]; now rewrite clip_len|]. split; [cbn [clipStep spTar]; now rewrite T|].
  split; [cbn [clipStep spSoot]; apply clip_nn|]. split; [cbn [clipStep spTar]; rewrite T; intros y []|]. split; [intros [H|H]; discriminate H|].
  assert (NP : mN k <> N_PAH) by exact (proj1 NU).
  destruct p; try exact I; [intros H; contradiction|]. split; [intros H; contradiction|]. intros H. exfalso. apply H. exact (MC eq_refl).
Qed.
Lemma nl_source l x : (forall y, In y (l ++ [x]) -> physical (spGas y) /\ length (spSoot y) = n /\ spTar y = []) ->
  exists st' m' s' q, runActions (None, m0, newState n 0) (actionsOf (l ++ [x])) = Ok (st', m', s') /\ soots m' = map Fin q /\ length q = n /\
    soot1 p b q = nuclFormula nu (spGas x) * (gCMin (spGas x) * massC / avogadro).
Proof.
  intros H. destruct (start _ _ _ _ _ _ _ _ _ _ _ GC E0) as (_ & OM & _ & I0). fold k in OM, I0.
  assert (NP : isP k = false) by (unfold isP, k; cbn [mN]; destruct NU as (Z & _); destruct nu; congruence).
  assert (OKC : forall y, In y (map clipStep l ++ [clipStep x]) -> ok y).
  { intros y Hy. apply in_app_or in Hy. destruct Hy as [Hy|[<-|[]]].
    - apply in_map_iff in Hy. destruct Hy as (z & <- & Hz). destruct (H z) as (A & B & C); [apply in_or_app; now left|]. now apply nl_ok.
    - destruct (H x) as (A & B & C); [apply in_or_app; right; now left|]. now apply nl_ok. }
  assert (SAME : runActions (None, m0, newState n 0) (actionsOf (l ++ [x])) = runActions (None, m0, newState n 0) (actionsOf (map clipStep l ++ [clipStep x]))).
  { rewrite (same_run p k n 0 F c OM _ _ I0); [now rewrite map_app|]. intros y Hy. destruct (H y Hy) as (A & B & C). split; [exact B|]. now apply nl_ok. }
  destruct (at_end p n nu G_NONE O_NONE co T_NONE F c m0 GC E0 _ _ OKC) as (st & m & s & HM & HP & X & V & R).
  destruct (H x) as (PH & L & T); [apply in_or_app; right; now left|].
  assert (OX : ok (clipStep x)) by now apply nl_ok. pose proof OX as (_ & LC & _ & _ & _ & RG & _).
  destruct (one_call_o p k n 0 F c OM st m s (spGas x) (spSoot (clipStep x)) (spEig x) HM HP X V LC) as (st' & m' & s' & i & u & v & A & _ & _ & FS & GB & _).
  { destruct OX as (O1 & O2 & O3 & O4 & O5 & O6 & O7). split; [exact O1|]. split; [exact O2|]. split; [reflexivity|]. split; [exact O4|]. split; [intros y []|]. split; [exact O6|exact O7]. }
  assert (RUN : runActions (None, m0, newState n 0) (actionsOf (map clipStep l ++ [clipStep x])) = Ok (st', m', s')) by (etransitivity; [exact R|exact A]).
  assert (LS : length (soots m') = n) by exact (lengths p n 0 nu G_NONE O_NONE co T_NONE F c m0 GC NU E0 _ _ _ _ OKC RUN).
  assert (Q : exists q, soots m' = map Fin q).
  { clear -FS. induction (soots m') as [|a w IH]; [exists []; reflexivity|]. destruct (FS a (or_introl eq_refl)) as (r & ->). destruct IH as (q & E); [intros z Hz; apply FS; now right|].
    exists (r :: q). cbn [map]. now rewrite E. }
  destruct Q as (q & EQ). assert (LQ : length q = n) by (rewrite <- LS, EQ; symmetry; apply map_length).
  exists st', m', s', q. split; [etransitivity; [exact SAME|exact RUN]|]. split; [exact EQ|]. split; [exact LQ|].
  destruct (VesselProofs.balanced p k n F c OM NP st m s (spGas x) (spSoot (clipStep x)) (spEig x) st' m' s' q HM HP X V LC RG A EQ LQ) as (f & (_ & Hf) & TOT & _).
  destruct GB as (_ & GB).
  assert (EF : forall sp, f sp = nuclGas nu (oN1 (nucl k (spGas x) i)) sp).
  { intros sp. specialize (GB sp). rewrite Hf in GB. apply (f_equal (fun o => match o with Some (Fin t) => t | _ => 0 end)) in GB. rewrite GB. unfold nuclPart. rewrite NP. cbn [k mN mG mO growGas oxidGas]. ring. }
  assert (ET : total f = total (nuclGas nu (oN1 (nucl k (spGas x) i)))) by (unfold total; now rewrite !EF).
  assert (NB := nuclGas_bal nu (oN1 (nucl k (spGas x) i)) (proj1 NU)). destruct NB as (NB & _).
  - destruct OM as (_ & Z & _). exact Z.
  - intros Z. unfold oN1, nucl. rewrite NP. cbn [oJ oGas]. unfold Jnuc, k. cbn [mN]. rewrite Z. cbn [nuclFormula]. ring.
  - assert (EO : oN1 (nucl k (spGas x) i) = nuclFormula nu (spGas x) * (gCMin (spGas x) * massC / avogadro)) by (unfold oN1, nucl; rewrite NP; reflexivity).
    rewrite <- EO. fold b in TOT. lra.
Qed.

Context (g : nat -> gas) (dt : nat -> R) (eig : nat -> eigSolver (N:=XR)) (PH : forall i, physical (g i)).
Lemma soot1_euler d y q : length y = n -> length q = n -> soot1 p b (euler d y q) = soot1 p b y + d * soot1 p b q.
Proof.
  intros Ly Lq. assert (E1 : forall j, (j < n)%nat -> el (euler d y q) j = el y j + d * el q j).
  { intros j Hj. unfold el, euler. rewrite (nth_indep _ 0 ((fun z : R * R => fst z + d * snd z) (0, 0))) by (rewrite map_length, combine_length; lia).
    rewrite (map_nth (fun z : R * R => fst z + d * snd z)), combine_nth by lia. reflexivity. }
  assert (LE : length (euler d y q) = n) by (unfold euler; rewrite map_length, combine_length; lia).
  assert (GE : (2 <= n)%nat). { pose proof E0 as E. apply construct_ok in E. destruct E as (_ & DC & _). destruct GC as (_ & _ & GP). inversion DC; subst; try contradiction; lia. }
  destruct p; cbn [soot1]; try (apply E1; lia).
  assert (DS : forall z, length z = n -> mass b z = Sum (length b) (fun j => el b j * el z j)) by (intros z Lz; assert (EL : length b = n) by apply geo_len; unfold mass; rewrite (dot_Sum b z ltac:(congruence)) by congruence; reflexivity).
  rewrite !DS by assumption. rewrite <- Sum_scal, <- Sum_add. apply Sum_ext. intros j Hj. unfold b in Hj. rewrite geo_len in Hj. rewrite E1 by exact Hj. ring.
Qed.
Lemma euler_len d y q : length y = n -> length q = n -> length (euler d y q) = n.
Proof. intros A B. unfold euler. rewrite map_length, combine_length. lia. Qed.
(** the loop exists *)
Let srcOf (l : list step) : list R :=
  match runActions (None, m0, newState n 0) (actionsOf l) with Ok (_, m', _) => map (fun z => match z with Fin r => r | _ => 0 end) (soots m') | _ => [] end.
Fixpoint pair (y0 : list R) (i : nat) : list step * list R :=
  match i with
  | O => ([], y0)
  | S j => let l := fst (pair y0 j) ++ [mkStep (g j) (snd (pair y0 j)) [] (eig j)] in (l, euler (dt j) (snd (pair y0 j)) (srcOf l))
  end.
Let traj y0 i := snd (pair y0 i).
Lemma pair_hist y0 i : fst (pair y0 i) = map (fun j => mkStep (g j) (traj y0 j) [] (eig j)) (seq 0 i).
Proof. induction i as [|i IH]; [reflexivity|]. rewrite seq_S, map_app, <- IH. reflexivity. Qed.
Lemma hist_ok (y : nat -> list R) i : (forall j, (j <= i)%nat -> length (y j) = n) ->
  forall x, In x (map (fun j => mkStep (g j) (y j) [] (eig j)) (seq 0 i) ++ [mkStep (g i) (y i) [] (eig i)]) -> physical (spGas x) /\ length (spSoot x) = n /\ spTar x = [].
Proof.
  intros H x Hx. apply in_app_or in Hx. destruct Hx as [Hx|[<-|[]]]; [apply in_map_iff in Hx; destruct Hx as (j & <- & Hj); apply in_seq in Hj|]; (split; [apply PH|split; [apply H; lia|reflexivity]]).
Qed.
Lemma traj_len y0 : length y0 = n -> forall i, length (traj y0 i) = n.
Proof.
  intros L0. assert (H : forall i j, (j <= i)%nat -> length (traj y0 j) = n); [|intros i; now apply (H i)].
  induction i as [|i IH]; intros j Hj; [replace j with 0%nat by lia; exact L0|]. destruct (Nat.eq_dec j (S i)) as [->|Nj]; [|apply IH; lia].
  unfold traj. cbn [pair snd]. apply euler_len; [apply IH; lia|]. rewrite pair_hist. unfold srcOf.
  destruct (nl_source _ _ (hist_ok (traj y0) i IH)) as (st' & m' & s' & q & A & B & C & _).
  match goal with |- context [match ?X with _ => _ end] => replace X with (Ok (st', m', s')) by (symmetry; exact A) end. rewrite map_length, B, map_length. exact C.
Qed.
Lemma traj_runs y0 : length y0 = n -> integrates m0 n g dt eig (traj y0).
Proof.
  intros L0 i. destruct (nl_source _ _ (hist_ok (traj y0) i (fun j _ => traj_len y0 L0 j))) as (st' & m' & s' & q & A & B & C & _).
  exists st', m', s', q. split; [rewrite seq_S, map_app; exact A|]. split; [exact B|]. split; [exact C|].
  unfold traj at 1. cbn [pair snd]. fold (traj y0 i). f_equal. rewrite pair_hist. unfold srcOf.
  match goal with |- match ?X with _ => _ end = _ => replace X with (Ok (st', m', s')) by (symmetry; exact A) end. rewrite B, map_map. apply map_id.
Qed.
Lemma nl_mass y : length (y 0%nat) = n -> integrates m0 n g dt eig y -> forall i, length (y i) = n /\ soot1 p b (y i) = soot1 p b (y 0%nat) + nucleated nu g dt i.
Proof.
  intros L0 M. assert (H : forall i j, (j <= i)%nat -> length (y j) = n /\ soot1 p b (y j) = soot1 p b (y 0%nat) + nucleated nu g dt j); [|intros i; now apply (H i)].
  induction i as [|i IH]; intros j Hj; [replace j with 0%nat by lia; split; [exact L0|unfold nucleated, Sum; cbn; ring]|]. destruct (Nat.eq_dec j (S i)) as [->|Nj]; [|apply IH; lia].
  destruct (M i) as (st1 & m1 & s1 & q1 & A1 & B1 & C1 & D1).
  destruct (nl_source _ _ (hist_ok y i (fun j Hj => proj1 (IH j Hj)))) as (st' & m' & s' & q & A & B & C & D). cbn [spGas] in D.
  rewrite seq_S, map_app in A1. change (0 + i)%nat with i in A1. cbn [map] in A1.
  assert (E : Ok (st', m', s') = Ok (st1, m1, s1)) by (etransitivity; [symmetry; exact A|exact A1]).
  apply (f_equal (fun r => match r with Ok (_, z, _) => z | _ => m1 end)) in E. subst m1. rewrite B in B1. apply fins_inj in B1. subst q1.
  destruct (IH i (le_n i)) as (Li & Ei). rewrite D1. split; [now apply euler_len|]. rewrite soot1_euler by assumption. rewrite Ei, D. unfold nucleated. rewrite Sum_S. ring.
Qed.
Lemma C97_ y0 : length y0 = n -> (exists y, y 0%nat = y0 /\ integrates m0 n g dt eig y) /\
  forall y, y 0%nat = y0 -> integrates m0 n g dt eig y -> forall i, soot1 p b (y i) = soot1 p b y0 + nucleated nu g dt i.
Proof.
  intros L0. split; [exists (traj y0); split; [reflexivity|now apply traj_runs]|]. intros y Y0 M i. rewrite <- Y0. apply nl_mass; [now rewrite Y0|exact M].
Qed.
End Loop.
