(** [valid] states: reachability and basic reads. *)
From Coq Require Import ZArith List Bool Reals Lra Lia.
From Verif Require Import Num Defs State XR XRLemmas NumLaws SpecState SpecChem SpecCoag SpecValid StateProofs StateXR.
Import ListNotations.
Local Open Scope R_scope.

Lemma nth_allGas sp : nth_error allGas (gasIdx sp) = Some sp.
Proof. destruct sp; reflexivity. Qed.
Lemma nth_allPah sp : nth_error allPah (pahIdx sp) = Some sp.
Proof. destruct sp; reflexivity. Qed.

Lemma clipped_nonneg n (l : list R) w : (forall x, In x l -> 0 <= x) -> isClipped (N:=XR) n (map Fin l) w -> w = map Fin l.
Proof.
  intros H [L E]. apply nth_error_ext. intros i.
  destruct (nth_error (map Fin l) i) as [x|] eqn:Ei.
  - etransitivity; [exact (E i x Ei)|]. etransitivity; [|symmetry; exact Ei]. f_equal.
    apply nth_error_In, in_map_iff in Ei. destruct Ei as (r & <- & Hr). apply H in Hr.
    change (@nltb XR (Fin r) (nZ 0)) with (xltb (Fin r) (Fin 0)). rewrite xltb_false by lra.
    rewrite andb_false_r. reflexivity.
  - etransitivity; [|symmetry; exact Ei]. apply nth_error_None in Ei. apply nth_error_None.
    exact (eq_ind_r (fun k => (k <= i)%nat) Ei L).
Qed.

(** every normal return of setState with such arguments *)
Lemma valid_of_call (s s' : state (N:=XR)) a (g : gas) (soot : list R) :
  call s a = SetOk s' ->
  aT a = Fin (gT g) -> aP a = Fin (gP g) -> arho a = Fin (gRho g) -> amu a = Fin (gMu g) -> acMin a = Fin (gCMin g) ->
  ayGas a = map Fin (gasVec (gY g)) -> ayPah a = map Fin (pahVec (gPah g)) -> asoot a = map Fin soot ->
  ansoot a = Z.of_nat (length soot) -> (forall sp, 0 <= gY g sp) -> (forall x, In x soot -> 0 <= x) ->
  valid s' g soot.
Proof.
  intros E Et Ep Er Em Ec Eg Ey Es En Hg Hsoot.
  pose proof (gasState_of_call s s' a _ _ _ _ E Et Ep Er Em) as G.
  pose proof (describe XR_cmpLaws s a) as D. rewrite E in D. inversion D as [? Ha Hs B1 B2| |]; subst.
  destruct Hs as (_ & _ & _ & _ & Ec' & _ & En' & Cs & _ & _ & Eg' & Ey' & _).
  assert (Pc : 0 < gCMin g).
  { destruct (Rlt_dec 0 (gCMin g)); auto. exfalso. apply (Ha EDomCMin (nleb (acMin a) (nZ 0) = true)).
    - cbn [checks In]. auto 10.
    - rewrite Ec. change (xleb (Fin (gCMin g)) (Fin 0) = true). apply xleb_true. lra. }
  assert (Py : forall sp, 0 <= gPah g sp).
  { intros sp. destruct (Rle_dec 0 (gPah g sp)); auto. exfalso.
    apply (Ha EDomPah (exists y, In y (ayPah a) /\ (nltb y (nZ 0) = true \/ nltb (nZ 1) y = true))).
    - cbn [checks In]. auto 20.
    - exists (Fin (gPah g sp)). split.
      + rewrite Ey. apply in_map, in_map. destruct sp; cbn; auto 10.
      + left. change (xltb (Fin (gPah g sp)) (Fin 0) = true). apply xltb_true. lra. }
  pose proof G as (Pt & Pp & Pr & Pm & _).
  split; [repeat split; assumption|]. split; [exact G|]. split; [congruence|].
  split; [rewrite Eg', Eg; reflexivity|]. split.
  { intros sp. rewrite Eg', Eg. unfold gasVec. rewrite map_map, nth_error_map, nth_allGas. reflexivity. }
  split; [rewrite Ey', Ey; reflexivity|]. split.
  { intros sp. rewrite Ey', Ey. unfold pahVec. rewrite map_map, nth_error_map, nth_allPah. reflexivity. }
  split; [|split; [congruence|assumption]].
  rewrite Es in Cs. eapply clipped_nonneg; eauto.
Qed.

Lemma tar_of_call (s s' : state (N:=XR)) a (tar : list R) :
  call s a = SetOk s' -> atar a = map Fin tar -> (forall x, In x tar -> 0 <= x) -> tarVar s' = map Fin tar.
Proof.
  intros E Et Ht. pose proof (describe XR_cmpLaws s a) as D. rewrite E in D. inversion D as [? Ha Hs B1 B2| |]; subst.
  destruct Hs as (_ & _ & _ & _ & _ & _ & _ & _ & _ & Ct & _). rewrite Et in Ct. eapply clipped_nonneg; eauto.
Qed.

Definition argsOf (g : gas) (soot tar : list R) : args XR :=
  mkArgs (Fin (gT g)) (Fin (gP g)) (Fin (gRho g)) (Fin (gMu g)) (map Fin (gasVec (gY g))) (map Fin (pahVec (gPah g)))
    (map Fin soot) (Z.of_nat (length soot)) (map Fin tar) (Z.of_nat (length tar)) (Fin (gCMin g)).

Lemma fold_fin l : forall a, fold_left (@nadd XR) (map Fin l) (Fin a) = Fin (fold_left Rplus l a).
Proof. induction l as [|b l IH]; intros a; [reflexivity|]. cbn [map fold_left]. rewrite <- IH. reflexivity. Qed.

(** setState accepts physical data, whatever the object held before *)
Lemma argsOf_any s0 g soot tar : st_nsoot s0 = Z.of_nat (length soot) -> st_Ntar s0 = Z.of_nat (length tar) -> length (yPah s0) = 6%nat -> okGas g -> (forall sp, gY g sp <= 1) -> fold_left Rplus (pahVec (gPah g)) 0 <= 1 ->
  (forall x, In x soot -> 0 <= x) -> (forall x, In x tar -> 0 <= x) ->
  exists s, call s0 (argsOf g soot tar) = SetOk s /\ valid s g soot /\ tarVar s = map Fin tar /\
    wts s = wts s0 /\ absc s = absc s0 /\ mtar s = mtar s0.
Proof.
  intros S0 S1 S2 (Pt & Pp & Pr & Pm & Pc & Pg & Py) Hg Hy Hs Ht.
  assert (E : exists s, call s0 (argsOf g soot tar) = SetOk s).
  { destruct (accept_ok XR_cmpLaws s0 (argsOf g soot tar)) as [s' [E _]]; eauto.
    - intros e q Hin. unfold checks, argsOf in Hin.
      cbn [aT aP arho amu ayGas ayPah asoot ansoot atar aNtar acMin In] in Hin.
      assert (K : forall x, 0 < x -> nleb (Num:=XR) (Fin x) (nZ 0) <> true).
      { intros x Hx. change (xleb (Fin x) (Fin 0) <> true). rewrite xleb_false by lra. discriminate. }
      destruct Hin as [Hin|[Hin|[Hin|[Hin|[Hin|[Hin|[Hin|[Hin|[Hin|[Hin|[Hin|[]]]]]]]]]]]]; injection Hin as <- <-; try (now apply K).
      + now apply negFrom_fin.
      + now apply negFrom_fin.
      + intros (y & Hin & Hy1).
        assert (Hsp : exists sp, Fin (gY g sp) = y) by (intuition eauto). destruct Hsp as (sp & <-).
        change (xltb (Fin 1) (Fin (gY g sp)) = true) in Hy1. apply xltb_iff in Hy1. specialize (Hg sp). lra.
      + intros Hl. apply Hl. symmetry. exact S2.
      + intros (y & Hin & Hy1).
        assert (Hsp : exists sp, Fin (gPah g sp) = y) by (intuition eauto). destruct Hsp as (sp & <-).
        change (xltb (Fin (gPah g sp)) (Fin 0) = true \/ xltb (Fin 1) (Fin (gPah g sp)) = true) in Hy1.
        rewrite !xltb_iff in Hy1. pose proof (Py sp).
        assert (gPah g sp <= 1); [|lra].
        revert Hy. unfold pahVec, allPah. cbn [map fold_left]. pose proof (Py C10H8). pose proof (Py C12H8).
        pose proof (Py C12H10). pose proof (Py C14H10). pose proof (Py C16H10). pose proof (Py C18H10).
        destruct sp; lra.
      + change (xltb (Fin 1) (fold_left (@nadd XR) (map Fin (pahVec (gPah g))) (Fin 0)) <> true). rewrite fold_fin.
        change (xltb (Fin 1) (Fin (fold_left Rplus (pahVec (gPah g)) 0)) <> true). rewrite xltb_false by lra. discriminate.
    - cbn [argsOf asoot]. rewrite S0, map_length. lia.
    - cbn [argsOf atar]. rewrite S1, map_length. lia. }
  destruct E as [s E]. exists s. split; [exact E|].
  split; [eapply valid_of_call; try exact E; try reflexivity; auto|].
  split; [eapply tar_of_call; [exact E|reflexivity|auto]|].
  pose proof (describe XR_cmpLaws s0 (argsOf g soot tar)) as D. rewrite E in D. inversion D as [? Ha Hst B1 B2| |]; subst.
  destruct Hst as (_ & _ & _ & _ & _ & _ & _ & _ & _ & _ & _ & _ & R). destruct R. tauto.
Qed.
Lemma argsOf_ok g soot tar : okGas g -> (forall sp, gY g sp <= 1) -> fold_left Rplus (pahVec (gPah g)) 0 <= 1 ->
  (forall x, In x soot -> 0 <= x) -> (forall x, In x tar -> 0 <= x) ->
  exists s, call (newState (length soot) (length tar)) (argsOf g soot tar) = SetOk s /\ valid s g soot /\ tarVar s = map Fin tar.
Proof.
  intros H1 H2 H3 H4 H5. destruct (argsOf_any (newState (length soot) (length tar)) g soot tar eq_refl eq_refl eq_refl H1 H2 H3 H4 H5) as (s & A & B & C & _).
  eauto.
Qed.

(** one concrete flame-like gas *)
Definition demoGas : gas := mkGas 1800 101325 (1 / 5) (1 / 20000) 100 (fun _ => 1 / 20) (fun _ => 1 / 1000).
Lemma demo_any s0 soot tar : st_nsoot s0 = Z.of_nat (length soot) -> st_Ntar s0 = Z.of_nat (length tar) -> length (yPah s0) = 6%nat ->
  (forall x, In x soot -> 0 <= x) -> (forall x, In x tar -> 0 <= x) ->
  exists s, call s0 (argsOf demoGas soot tar) = SetOk s /\ valid s demoGas soot /\ tarVar s = map Fin tar /\
    wts s = wts s0 /\ absc s = absc s0 /\ mtar s = mtar s0.
Proof.
  intros A B C H H'. apply argsOf_any; auto.
  - repeat split; cbn [gT gP gRho gMu gCMin gY gPah demoGas]; intros; lra.
  - intros; cbn; lra.
  - unfold pahVec, allPah. cbn [map fold_left gPah demoGas]. lra.
Qed.
Lemma demo_reached soot : (forall x, In x soot -> 0 <= x) ->
  exists s, call (newState (length soot) 0) (argsOf demoGas soot []) = SetOk s /\ valid s demoGas soot.
Proof.
  intros H. destruct (argsOf_ok demoGas soot []) as (s & E & V & _); eauto.
  - repeat split; cbn [gT gP gRho gMu gCMin gY gPah demoGas]; intros; lra.
  - intros; cbn; lra.
  - unfold pahVec, allPah. cbn [map fold_left gPah demoGas]. lra.
  - contradiction.
Qed.

(** reads *)
Section Reads.
Context (s : state (N:=XR)) (g : gas) (soot : list R) (Hv : valid s g soot).
Lemma v_conc sp : getGasSpC s sp = Ok (Fin (conc g sp)).
Proof.
  destruct Hv as (Hg & (_ & _ & _ & _ & _ & _ & Er & _) & _ & _ & Ey & _).
  unfold getGasSpC, vget. rewrite (Ey sp), Er. cbn [bind]. xsimp. unfold conc. rewrite rMW_val. reflexivity.
Qed.
Lemma v_press sp : getGasSpP s sp = Ok (Fin (partialP g sp)).
Proof.
  destruct Hv as (Hg & (Pt & Pp & Pr & Pm & _ & EP & Er & _ & EM) & _ & _ & Ey & _).
  unfold getGasSpP, vget. rewrite (Ey sp), EP, EM. cbn [bind]. xsimp. unfold partialP, conc. rewrite <- rMW_val.
  do 2 f_equal. field. split; nz.
Qed.
Lemma conc_nneg sp : 0 <= conc g sp.
Proof.
  destruct Hv as ((_ & _ & Pr & _ & _ & Hy & _) & _). unfold conc. rewrite <- rMW_val. specialize (Hy sp). nneg.
Qed.
Lemma press_nneg sp : 0 <= partialP g sp.
Proof.
  pose proof (conc_nneg sp). destruct Hv as ((Pt & _) & _). unfold partialP. rewrite <- rNa_val, <- rkb_val. nneg.
Qed.
Lemma v_T : T s = Fin (gT g). Proof. now destruct Hv as (_ & (_ & _ & _ & _ & E & _) & _). Qed.
Lemma v_P : P s = Fin (gP g). Proof. now destruct Hv as (_ & (_ & _ & _ & _ & _ & E & _) & _). Qed.
Lemma v_rho : rhoGas s = Fin (gRho g). Proof. now destruct Hv as (_ & (_ & _ & _ & _ & _ & _ & E & _) & _). Qed.
Lemma v_mu : muGas s = Fin (gMu g). Proof. now destruct Hv as (_ & (_ & _ & _ & _ & _ & _ & _ & E & _) & _). Qed.
Lemma v_cMin : cMin s = Fin (gCMin g). Proof. now destruct Hv as (_ & _ & E & _). Qed.
Lemma v_soot : sootVar s = map Fin soot. Proof. now destruct Hv as (_ & _ & _ & _ & _ & _ & _ & E & _). Qed.
Lemma v_nsoot : st_nsoot s = Z.of_nat (length soot). Proof. now destruct Hv as (_ & _ & _ & _ & _ & _ & _ & _ & E & _). Qed.
Lemma v_sootpos x : In x soot -> 0 <= x. Proof. destruct Hv as (_ & _ & _ & _ & _ & _ & _ & _ & _ & H). apply H. Qed.
Lemma v_Tpos : 0 < gT g. Proof. now destruct Hv as ((H & _) & _). Qed.
Lemma v_Ppos : 0 < gP g. Proof. now destruct Hv as ((_ & H & _) & _). Qed.
Lemma v_rhopos : 0 < gRho g. Proof. now destruct Hv as ((_ & _ & H & _) & _). Qed.
Lemma v_mupos : 0 < gMu g. Proof. now destruct Hv as ((_ & _ & _ & H & _) & _). Qed.
Lemma v_cMinpos : 0 < gCMin g. Proof. now destruct Hv as ((_ & _ & _ & _ & H & _) & _). Qed.
Lemma v_gas : gasState s (gT g) (gP g) (gRho g) (gMu g). Proof. now destruct Hv as (_ & H & _). Qed.
Lemma v_pah sp : vget (yPah s) (pahIdx sp) = Ok (Fin (gPah g sp)).
Proof. destruct Hv as (_ & _ & _ & _ & _ & _ & E & _). unfold vget. now rewrite E. Qed.
Lemma v_pahpos sp : 0 <= gPah g sp.
Proof. destruct Hv as ((_ & _ & _ & _ & _ & _ & H) & _). apply H. Qed.
End Reads.
