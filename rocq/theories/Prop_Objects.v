(** Properties C10 and C11: lifetimes of mechanism objects and their back references. *)
From Coq Require Import ZArith List Arith Reals.
From Verif Require Import Num Defs State Growth SootModel Objects XR SpecValid SpecRates SpecObjects ValidProofs ObjectProofs ObjectXR.
Import ListNotations.

(** a history with an enumerator-built and a pointer-built model, and three allowed next steps *)
Example objects_reached : exists h, history (callers ++ [enumOp; ptrOp P_MONO 2]) h /\
  hasModel h 0 (mkSM 5 6 7 8 9 true) /\ hasModel h 1 (mkSM 0 1 2 3 4 false) /\ h_user h = [4; 3; 2; 1; 0] /\
  allowed h (ptrOp P_QMOM 4) /\ allowed h (OpDelModel 0) /\ allowed h (OpDelMech 3).
Proof. exact objects_case. Qed.

(** ** C10 *)
Theorem C10_no_undefined_release : forall l h o, history l h -> allowed h o ->
  exists h', doOp h o = Ok h' /\ history (l ++ [o]) h'.
Proof. exact C10_safe_. Qed.
Print Assumptions C10_no_undefined_release.

Theorem C10_released_once : forall l h, history l h -> NoDup (h_freed h) /\ forall a, In a (h_freed h) -> ~ live h a.
Proof. exact C10_once_. Qed.
Print Assumptions C10_released_once.

Theorem C10_caller_keeps : forall l h o h' a, history l h -> allowed h o -> doOp h o = Ok h' -> In a (h_user h) ->
  o <> OpDelMech a -> In a (h_user h') /\ live h' a.
Proof. exact C10_caller_. Qed.
Print Assumptions C10_caller_keeps.

Theorem C10_destructor : forall l h id o, history l h -> hasModel h id o ->
  exists h', doOp h (OpDelModel id) = Ok h' /\ (forall x, ~ hasModel h' id x) /\
    h_freed h' = (if so_newed o then rev (parts o) else []) ++ h_freed h /\
    (forall a, live h' a <-> live h a /\ ~ (so_newed o = true /\ In a (parts o))).
Proof. exact C10_owner_. Qed.
Print Assumptions C10_destructor.

(** the enumerator constructor allocates five objects of the five kinds and owns them;
    when the derived class rejects the configuration, all five are released *)
Theorem C10_enum_constructor : forall l h p ns n g o c t, history l h ->
  n <> N_size -> g <> G_size -> o <> O_size -> c <> C_size -> t <> T_size ->
  exists h', doOp h (OpEnum p ns n g o c t) = Ok h' /\
    (ok (derivedCheck p ns c t) = true ->
       let x := mkSM (h_next h) (h_next h + 1) (h_next h + 2) (h_next h + 3) (h_next h + 4) true in
       hasModel h' (h_count h) x /\ h_freed h' = h_freed h /\
       (forall a m, liveAs h' a m <-> liveAs h a m \/ In (a, m) (combine (parts x) [MNucl; MGrow; MOxid; MCoag c; MTar t]))) /\
    (ok (derivedCheck p ns c t) = false ->
       (forall a, live h' a <-> live h a) /\ (forall i x, hasModel h' i x <-> hasModel h i x)).
Proof. exact C10_enum_. Qed.
Print Assumptions C10_enum_constructor.
Example enum_both : ok (derivedCheck P_SECT 4 C_FM T_NONE) = true /\ ok (derivedCheck P_MONO 3 C_FM T_NONE) = false.
Proof. split; reflexivity. Qed.

Theorem C10_ptr_constructor : forall l h p ns nu gr ox co c tar, history l h -> allowed h (OpPtr p ns nu gr ox co tar) -> liveAs h co (MCoag c) ->
  exists h', doOp h (OpPtr p ns nu gr ox co tar) = Ok h' /\ h_freed h' = h_freed h /\
   forall t, (match tar with Some a => liveAs h a (MTar t) | None => t = T_NONE end) ->
    (ok (derivedCheck p ns c t) = true -> hasModel h' (h_count h)
        (mkSM nu gr ox co (match tar with Some a => a | None => h_next h end) false)) /\
    (ok (derivedCheck p ns c t) = false -> forall i x, hasModel h' i x <-> hasModel h i x).
Proof. exact C10_ptr_. Qed.
Print Assumptions C10_ptr_constructor.

(** exactly which objects nobody can release any more *)
Theorem C10_lost_exactly : forall l h o h', history l h -> allowed h o -> doOp h o = Ok h' ->
  forall a, lost h' a <-> lost h a \/ h_next h <= a < h_next h + losses o.
Proof. exact C10_lost_. Qed.
Print Assumptions C10_lost_exactly.
Theorem C10_nothing_leaks_refuted : ~ (forall l h, history l h -> forall a, ~ lost h a).
Proof. exact C10_no_leak_. Qed.
Print Assumptions C10_nothing_leaks_refuted.
(** every model and every mechanism of the caller deleted: the default tar object remains *)
Theorem C10_default_tar_refuted : exists l h a, history l h /\ h_models h = [] /\ h_user h = [] /\ liveAs h a (MTar T_NONE) /\ lost h a.
Proof. exact C10_default_tar_. Qed.
Print Assumptions C10_default_tar_refuted.

(** the deletion function of the C interface *)
Theorem C10_deleteAll : forall l h id nu gr ox co ta c t, history l h -> hasModel h id (mkSM nu gr ox co ta false) ->
  (forall a, In a [nu; gr; ox; co; ta] -> In a (h_user h)) ->
  liveAs h nu MNucl -> liveAs h gr MGrow -> liveAs h ox MOxid -> liveAs h co (MCoag c) -> liveAs h ta (MTar t) ->
  exists h', runOps h (deleteAll_C id nu gr ox co ta) = Ok h' /\ history (l ++ deleteAll_C id nu gr ox co ta) h' /\
    (forall x, ~ hasModel h' id x) /\ h_freed h' = [ta; co; ox; gr; nu] ++ h_freed h.
Proof. exact C10_deleteAll_. Qed.
Print Assumptions C10_deleteAll.
Theorem C10_deleteAll_shared_refuted : exists h, history sharedOps h /\
  runOps h (deleteAll_C 0 0 1 2 3 4 ++ deleteAll_C 1 0 1 2 3 4) = UB Dangling.
Proof. exact C10_shared_C_. Qed.
Print Assumptions C10_deleteAll_shared_refuted.

(** ** C11 *)
Theorem C11_last_constructor : forall l h o h' a h2, history l h -> allowed h o -> doOp h o = Ok h' -> receives h o a ->
  quietFor a h' h2 -> backRef h2 a = Some (h_count h).
Proof. exact C11_last_. Qed.
Print Assumptions C11_last_constructor.
Theorem C11_never_given : forall a h, quietFor a heap0 h -> backRef h a = None.
Proof. exact C11_never_. Qed.
Print Assumptions C11_never_given.

Theorem C11_unshared : forall l h id x a, unshared l h -> hasModel h id x ->
  In a [so_nucl x; so_grow x; so_oxid x; so_coag x] \/ (so_newed x = true /\ a = so_tar x) -> backRef h a = Some id.
Proof. exact C11_unshared_. Qed.
Print Assumptions C11_unshared.
Example unshared_reached : exists h, unshared (callers ++ [enumOp; ptrOp P_MONO 2]) h /\
  hasModel h 0 (mkSM 5 6 7 8 9 true) /\ hasModel h 1 (mkSM 0 1 2 3 4 false).
Proof. exact unshared_case. Qed.

(** a second pointer construction redirects every mechanism it is given *)
Theorem C11_redirected : forall l h p ns nu gr ox co c tar t, history l h -> allowed h (OpPtr p ns nu gr ox co tar) -> liveAs h co (MCoag c) ->
  (match tar with Some a => liveAs h a (MTar t) | None => t = T_NONE end) -> ok (derivedCheck p ns c t) = true ->
  exists h', doOp h (OpPtr p ns nu gr ox co tar) = Ok h' /\
    (forall id x, hasModel h id x -> hasModel h' id x) /\
    (forall a, In a [nu; gr; ox; co] -> forall (N : Num) (view : nat -> smView), seenThrough h' view a = Ok (view (h_count h))).
Proof. exact C11_shared_. Qed.
Print Assumptions C11_redirected.

(** so the first model's growth rate is computed from the moments as the second model's type reads them *)
Theorem C11_shared_growth : forall l h p ns nu gr ox co c tar t, history l h -> allowed h (OpPtr p ns nu gr ox co tar) -> liveAs h co (MCoag c) ->
  (match tar with Some a => liveAs h a (MTar t) | None => t = T_NONE end) -> ok (derivedCheck p ns c t) = true ->
  forall id1 x1, hasModel h id1 x1 -> so_grow x1 = gr ->
  exists h', doOp h (OpPtr p ns nu gr ox co tar) = Ok h' /\ hasModel h' id1 x1 /\
    forall view s g soot obj M0 M1, valid s g soot -> seesMoments (view (h_count h)) soot M0 M1 ->
      (gr_class obj = G_HACA -> ~ hacaDegenerate g M0 M1) ->
      growThrough h' view (so_grow x1) obj s = Ok (Fin (growFormula (gr_class obj) g M0 M1)).
Proof. exact C11_growth_. Qed.
Print Assumptions C11_shared_growth.
Example shared_growth_wrong : exists h h' s, history (callers ++ [ptrOp P_SECT 2]) h /\ history sharedOps h' /\ valid s demoGas [5; 3]%R /\
  growThrough h views 1 (newGrow G_LL) s = Ok (Fin (growFormula G_LL demoGas 8 11)) /\
  growThrough h' views 1 (newGrow G_LL) s = Ok (Fin (growFormula G_LL demoGas 5 3)).
Proof. exact C11_wrong_. Qed.

Theorem C11_dangling : forall l h id a, history l h -> backRef h a = Some id -> (forall x, ~ hasModel h id x) ->
  forall (N : Num) (view : nat -> smView), seenThrough h view a = UB Dangling.
Proof. exact C11_dangling_. Qed.
Print Assumptions C11_dangling.
(** reached with the first model alive: by deleting the second model, and by a second constructor call that throws *)
Theorem C11_dangling_reached_refuted : exists h1 h2 x, history (sharedOps ++ [OpDelModel 1]) h1 /\ hasModel h1 0 x /\
  (forall a, In a [so_nucl x; so_grow x; so_oxid x; so_coag x] -> forall view, seenThrough (N:=XR) h1 view a = UB Dangling) /\
  history (callers ++ [ptrOp P_SECT 2; ptrOp P_MONO 3]) h2 /\ hasModel h2 0 x /\
  (forall a, In a [so_nucl x; so_grow x; so_oxid x; so_coag x] -> forall view, seenThrough (N:=XR) h2 view a = UB Dangling).
Proof. exact C11_dangling_cases. Qed.
Print Assumptions C11_dangling_reached_refuted.
