(** Growth evaluated through a shared growth object, and the concrete histories of C10 and C11. *)
From Coq Require Import ZArith List Arith Reals Lra Lia.
From Verif Require Import Num Defs State Nucl Growth SootModel Objects XR SpecChem SpecCoag SpecValid SpecRates SpecObjects
  ValidProofs ObjectProofs RateProofs.
Import ListNotations.

(** the growth rate a soot model obtains from its growth object at address [a] *)
Definition growThrough (h : heap) (view : nat -> smView (N:=XR)) (a : addr) (gr : growObj) (s : state (N:=XR)) : res xr :=
  v <- seenThrough h view a ;; growRate gr v s.

Local Open Scope R_scope.
Lemma C11_growth_ l h p ns nu gr ox co c tar t : history l h -> allowed h (OpPtr p ns nu gr ox co tar) -> liveAs h co (MCoag c) ->
  (match tar with Some a => liveAs h a (MTar t) | None => t = T_NONE end) -> ok (derivedCheck p ns c t) = true ->
  forall id1 x1, hasModel h id1 x1 -> so_grow x1 = gr ->
  exists h', doOp h (OpPtr p ns nu gr ox co tar) = Ok h' /\ hasModel h' id1 x1 /\
    forall view s g soot obj M0 M1, valid s g soot -> seesMoments (view (h_count h)) soot M0 M1 ->
      (gr_class obj = G_HACA -> ~ hacaDegenerate g M0 M1) ->
      growThrough h' view (so_grow x1) obj s = Ok (Fin (growFormula (gr_class obj) g M0 M1)).
Proof.
  intros H A Hc Ht Ek id1 x1 M1 E1.
  destruct (C11_shared_ l h p ns nu gr ox co c tar t H A Hc Ht Ek) as (h' & E & K & S).
  exists h'. split; [exact E|]. split; [auto|]. intros view s g soot obj a b V SM ND. unfold growThrough.
  rewrite S by (rewrite E1; cbn [In]; tauto). cbn [bind]. eapply grow_formula; eauto.
Qed.

(** a sectional model whose growth object is afterwards given to a two-moment model
    uses the two bin numbers as if they were moments *)
Definition views (id : nat) : smView (N:=XR) :=
  if Nat.eqb id 0 then mkView (N:=XR) P_SECT 2 (map Fin [1; 2]) else mkView (N:=XR) P_MONO 2 [].
Definition sharedOps : list op := callers ++ [ptrOp P_SECT 2; ptrOp P_MONO 2].

Lemma C11_wrong_ : exists h h' s, history (callers ++ [ptrOp P_SECT 2]) h /\ history sharedOps h' /\ valid s demoGas [5; 3] /\
  growThrough h views 1%nat (newGrow G_LL) s = Ok (Fin (growFormula G_LL demoGas 8 11)) /\
  growThrough h' views 1%nat (newGrow G_LL) s = Ok (Fin (growFormula G_LL demoGas 5 3)).
Proof.
  destruct (demo_reached [5; 3]) as (s & _ & V); [cbn [In]; intros; lra|].
  eexists. eexists. exists s. split; [apply checked0; vm_compute; reflexivity|]. split; [apply checked0; vm_compute; reflexivity|]. split; [exact V|].
  split; unfold growThrough, seenThrough; cbn [backRef find_ find h_SM fst snd Nat.eqb h_models bind].
  - apply (grow_formula s demoGas [5; 3] V (newGrow (N:=XR) G_LL)); [|discriminate].
    right. repeat split; cbn [length sv_nsoot]; try lia. exists [1; 2]. repeat split.
    + cbn [In]; intros; lra.
    + unfold sumR; cbn [fold_right]; lra.
    + unfold dot, sumR; cbn [combine map fold_right fst snd]; lra.
  - apply (grow_formula s demoGas [5; 3] V (newGrow (N:=XR) G_LL)); [|discriminate].
    left. repeat split. discriminate.
Qed.
Close Scope R_scope.

(** ** what the caller might expect and does not get *)
Lemma C10_no_leak_ : ~ (forall l h, history l h -> forall a, ~ lost h a).
Proof.
  intros H. eapply (H [OpEnum P_MONO 2 N_LL G_LL O_LL C_size T_NONE]); [apply checked0; vm_compute; reflexivity|].
  split; [exists MNucl; right; right; now left|]. split; [now intros []|]. intros id o [].
Qed.
Lemma C10_default_tar_ : exists l h a, history l h /\ h_models h = [] /\ h_user h = [] /\ liveAs h a (MTar T_NONE) /\ lost h a.
Proof.
  exists (callers ++ [OpPtr P_MONO 2 0 1 2 3 None; OpDelModel 0; OpDelMech 0; OpDelMech 1; OpDelMech 2; OpDelMech 3; OpDelMech 4]).
  eexists. exists 5%nat. split; [apply checked0; vm_compute; reflexivity|]. split; [reflexivity|]. split; [reflexivity|]. split; [now left|].
  split; [eexists; now left|]. split; [now intros []|]. intros id o [].
Qed.
(** the C deletion function on two models sharing their mechanisms *)
Lemma C10_shared_C_ : exists h, history sharedOps h /\
  runOps h (deleteAll_C 0 0 1 2 3 4 ++ deleteAll_C 1 0 1 2 3 4) = UB Dangling.
Proof. eexists. split; [apply checked0; vm_compute; reflexivity|]. reflexivity. Qed.

(** deleting the second model, or a second constructor call that throws, leaves the first with a dangling reference *)
Lemma C11_dangling_cases : exists h1 h2 x, history (sharedOps ++ [OpDelModel 1]) h1 /\ hasModel h1 0 x /\
  (forall a, In a [so_nucl x; so_grow x; so_oxid x; so_coag x] -> forall view, seenThrough (N:=XR) h1 view a = UB Dangling) /\
  history (callers ++ [ptrOp P_SECT 2; ptrOp P_MONO 3]) h2 /\ hasModel h2 0 x /\
  (forall a, In a [so_nucl x; so_grow x; so_oxid x; so_coag x] -> forall view, seenThrough (N:=XR) h2 view a = UB Dangling).
Proof.
  eexists. eexists. exists (mkSM 0 1 2 3 4 false). split; [apply checked0; vm_compute; reflexivity|]. split; [now left|]. split.
  - cbn [In so_nucl so_grow so_oxid so_coag]. intros a Ha view. repeat destruct Ha as [<-|Ha]; [reflexivity..|contradiction].
  - split; [apply checked0; vm_compute; reflexivity|]. split; [now left|].
    cbn [In so_nucl so_grow so_oxid so_coag]. intros a Ha view. repeat destruct Ha as [<-|Ha]; [reflexivity..|contradiction].
Qed.

(** cases for the hypotheses *)
Lemma objects_case : exists h, history (callers ++ [enumOp; ptrOp P_MONO 2]) h /\
  hasModel h 0 (mkSM 5 6 7 8 9 true) /\ hasModel h 1 (mkSM 0 1 2 3 4 false) /\ h_user h = [4; 3; 2; 1; 0] /\
  allowed h (ptrOp P_QMOM 4) /\ allowed h (OpDelModel 0) /\ allowed h (OpDelMech 3).
Proof.
  eexists. split; [apply checked0; vm_compute; reflexivity|]. split; [right; now left|]. split; [now left|]. split; [reflexivity|].
  split; [|split]; apply allowedb_ok; vm_compute; reflexivity.
Qed.
Definition freshb (h : heap) (o : op) : bool :=
  let no a := match backRef h a with None => true | _ => false end in
  match o with
  | OpPtr _ _ nu gr ox co _ => forallb no [nu; gr; ox; co]
  | OpEnum _ _ _ _ _ _ _ => forallb no (seq (h_next h) 5)
  | _ => true
  end.
Lemma freshb_ok h o : freshb h o = true -> forall a, receives h o a -> backRef h a = None.
Proof.
  intros E a R. destruct R as [p ns nu gr ox co tar a Ha|p ns n g o c t a _ _ _ _ _ Ha]; unfold freshb in E; rewrite forallb_forall in E;
    specialize (E a); destruct (backRef h a); auto; exfalso; (assert (false = true) by (apply E; rewrite ?in_seq; auto)); discriminate.
Qed.
Fixpoint checkedU (l : list op) (h : heap) : option heap :=
  match l with
  | [] => Some h
  | o :: q => if allowedb h o && freshb h o then match doOp h o with Ok h' => checkedU q h' | _ => None end else None
  end%bool.
Lemma checkedU_ok q : forall l h h', unshared l h -> checkedU q h = Some h' -> unshared (l ++ q) h'.
Proof.
  induction q as [|o q IH]; intros l h h' H; cbn [checkedU]; [intros E; injection E as <-; now rewrite app_nil_r|].
  destruct (allowedb h o) eqn:A; [|discriminate]. destruct (freshb h o) eqn:F; [|discriminate]. cbn [andb].
  destruct (doOp h o) as [h1| |] eqn:E; try discriminate. intros C.
  change (o :: q) with ([o] ++ q). rewrite app_assoc. apply (IH (l ++ [o]) h1); auto. econstructor; eauto; [now apply allowedb_ok|now apply freshb_ok].
Qed.
Lemma unshared_case : exists h, unshared (callers ++ [enumOp; ptrOp P_MONO 2]) h /\
  hasModel h 0 (mkSM 5 6 7 8 9 true) /\ hasModel h 1 (mkSM 0 1 2 3 4 false).
Proof.
  eexists. split.
  - apply (checkedU_ok (callers ++ [enumOp; ptrOp P_MONO 2]) [] heap0 _ un_nil). vm_compute. reflexivity.
  - split; [right; now left|now left].
Qed.
