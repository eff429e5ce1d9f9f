(** Proofs about object lifetimes and back references. *)
From Coq Require Import List Arith Lia Bool.
From Verif Require Import Num Defs Growth SootModel Objects SpecObjects.
Import ListNotations.

(** ** association lists *)
Section Assoc.
Context {A : Type}.
Lemma find_In (l : list (nat * A)) k x : find_ k l = Some x -> In (k, x) l.
Proof.
  unfold find_. destruct (find _ l) as [[k' y]|] eqn:E; [|discriminate]. intros H. apply find_some in E.
  cbn [fst snd] in *. destruct E as [E1 E2]. apply Nat.eqb_eq in E2. congruence.
Qed.
Lemma In_find (l : list (nat * A)) k x : NoDup (map fst l) -> In (k, x) l -> find_ k l = Some x.
Proof.
  unfold find_. induction l as [|[k' y] l IH]; cbn [map fst In find]; intros N H; [contradiction|]. inversion N; subst.
  destruct H as [H|H].
  - injection H as -> ->. now rewrite Nat.eqb_refl.
  - destruct (Nat.eqb_spec k' k) as [->|].
    + exfalso. apply H2. change k with (fst (k, x)). now apply in_map.
    + apply IH; auto.
Qed.
Lemma find_none (l : list (nat * A)) k : find_ k l = None <-> ~ In k (map fst l).
Proof.
  unfold find_. induction l as [|[k' y] l IH]; cbn [map fst In find]; [tauto|].
  destruct (Nat.eqb_spec k' k) as [->|NE]; [|rewrite IH; tauto]. split; [discriminate|tauto].
Qed.
Lemma In_remove (l : list (nat * A)) k p : In p (remove_ k l) <-> In p l /\ fst p <> k.
Proof.
  unfold remove_. rewrite filter_In. destruct p as [k' x]. cbn [fst].
  destruct (Nat.eqb_spec k' k); cbn [negb]; split; intros [? ?]; split; auto; congruence.
Qed.
Lemma keys_remove (l : list (nat * A)) k x : In x (map fst (remove_ k l)) <-> In x (map fst l) /\ x <> k.
Proof.
  split.
  - intros H. apply in_map_iff in H. destruct H as (p & <- & H). apply In_remove in H. destruct H. split; auto. now apply in_map.
  - intros [H K]. apply in_map_iff in H. destruct H as (p & <- & H). apply in_map. now apply In_remove.
Qed.
Lemma NoDup_remove_ (l : list (nat * A)) k : NoDup (map fst l) -> NoDup (map fst (remove_ k l)).
Proof.
  unfold remove_. induction l as [|[k' y] l IH]; cbn [map fst filter]; intros N; auto. inversion N; subst.
  destruct (Nat.eqb k' k); cbn [negb]; auto. cbn [map fst]. constructor; auto.
  intros H. apply (keys_remove l k) in H. tauto.
Qed.
End Assoc.

Lemma NoDup_app_intro_ {A} (l1 l2 : list A) : NoDup l1 -> NoDup l2 -> (forall a, In a l1 -> ~ In a l2) -> NoDup (l1 ++ l2).
Proof.
  induction l1 as [|a l IH]; cbn [app]; intros N1 N2 D; auto. inversion N1; subst. constructor.
  - intros K. apply in_app_or in K. destruct K as [K|K]; [contradiction|]. exact (D a (or_introl eq_refl) K).
  - apply IH; auto. intros b Hb. apply D. now right.
Qed.

(** ** the invariant *)
Record inv (h : heap) : Prop := mkInv {
  i_live : NoDup (map fst (h_live h));
  i_liveB : forall a, live h a -> a < h_next h;
  i_freed : NoDup (h_freed h);
  i_freedL : forall a, In a (h_freed h) -> ~ live h a;
  i_freedB : forall a, In a (h_freed h) -> a < h_next h;
  i_user : forall a, In a (h_user h) -> live h a;
  i_models : NoDup (map fst (h_models h));
  i_modelsB : forall id o, hasModel h id o -> id < h_count h;
  i_parts : forall id o, hasModel h id o -> so_newed o = true -> NoDup (parts o) /\ forall a, In a (parts o) -> live h a /\ ~ In a (h_user h);
  i_disj : forall id1 o1 id2 o2, hasModel h id1 o1 -> hasModel h id2 o2 -> so_newed o1 = true -> so_newed o2 = true ->
     id1 <> id2 -> forall a, In a (parts o1) -> ~ In a (parts o2);
  i_refB : forall a id, In (a, id) (h_SM h) -> a < h_next h }.

Lemma live_keys h a : live h a <-> In a (map fst (h_live h)).
Proof.
  split.
  - intros [m H]. change a with (fst (a, m)). now apply in_map.
  - intros H. apply in_map_iff in H. destruct H as ([a' m] & <- & H). now exists m.
Qed.

Lemma inv0 : inv heap0.
Proof.
  split; cbn; try constructor; try contradiction; try (intros; contradiction); intros; try (destruct H; contradiction).
Qed.

(** release of live addresses *)
Lemma release_ok h a : inv h -> live h a -> exists h', release h a = Ok h' /\
  h_next h' = h_next h /\ h_live h' = remove_ a (h_live h) /\ h_freed h' = a :: h_freed h /\ h_SM h' = h_SM h /\
  h_models h' = h_models h /\ h_count h' = h_count h /\ h_user h' = h_user h.
Proof.
  intros I [m H]. unfold release. rewrite (In_find _ _ m) by (auto; apply I). eexists; split; [reflexivity|]. repeat split.
Qed.

(** release of a list of distinct live addresses, in order *)
Lemma release_list_ok l : forall h, NoDup (map fst (h_live h)) -> NoDup l -> (forall a, In a l -> live h a) ->
  exists h', foldM release l h = Ok h' /\
    h_next h' = h_next h /\ (forall p, In p (h_live h') <-> In p (h_live h) /\ ~ In (fst p) l) /\ NoDup (map fst (h_live h')) /\
    h_freed h' = rev l ++ h_freed h /\ h_SM h' = h_SM h /\
    h_models h' = h_models h /\ h_count h' = h_count h /\ h_user h' = h_user h.
Proof.
  induction l as [|a l IH]; intros h N ND HL.
  - exists h. cbn [foldM rev app]. repeat split; auto; tauto.
  - inversion ND; subst. destruct (HL a (or_introl eq_refl)) as [m Hm].
    cbn [foldM]. unfold release at 1. rewrite (In_find _ _ m) by auto. cbn [bind].
    set (h1 := mkHeap _ _ _ _ _ _ _).
    destruct (IH h1) as (h' & E & A1 & A2 & A3 & A4 & A5 & A6 & A7 & A8); auto.
    + now apply NoDup_remove_.
    + intros b Hb. apply live_keys. cbn [h_live h1]. apply keys_remove. split; [apply live_keys, HL; now right|]. intros ->; contradiction.
    + exists h'. split; [exact E|]. cbn [h_next h_live h_freed h_SM h_models h_count h_user h1] in *.
      repeat split; auto.
      * apply A2 in H. destruct H as [H _]. apply In_remove in H. tauto.
      * apply A2 in H. destruct H as [H K]. apply In_remove in H. cbn [In]. intros [Q|Q]; [symmetry in Q|]; tauto.
      * intros [H K]. apply A2. split; [apply In_remove; split; auto|]; intros Q; apply K; [left; now symmetry|now right].
      * rewrite A4. cbn [rev]. now rewrite <- app_assoc.
Qed.

Lemma destroy_list h o : so_newed o = true -> destroy h o = foldM release (parts o) h.
Proof.
  intros E. unfold destroy. rewrite E. unfold parts. cbn [foldM].
  destruct (release h (so_nucl o)) as [h1| |]; cbn [bind]; auto. destruct (release h1 _) as [h2| |]; cbn [bind]; auto.
  destruct (release h2 _) as [h3| |]; cbn [bind]; auto. destruct (release h3 _) as [h4| |]; cbn [bind]; auto.
  destruct (release h4 _) as [h5| |]; cbn [bind]; auto.
Qed.
Lemma destroy_none h o : so_newed o = false -> destroy h o = Ok h.
Proof. intros E. unfold destroy. now rewrite E. Qed.

(** ** the invariant is kept by the primitive steps *)
Lemma inv_bump h : inv h -> inv (bump h).
Proof.
  intros []; split; auto. intros id o H. cbn [h_count bump]. apply i_modelsB0 in H. lia.
Qed.
Lemma inv_alloc h m : inv h -> inv (snd (alloc h m)).
Proof.
  intros []. unfold alloc; cbn [snd]. split; cbn [h_live h_next h_freed h_user h_models h_count h_SM]; auto.
  - cbn [map fst]. constructor; auto. intros K. apply live_keys in K. apply i_liveB0 in K. lia.
  - intros a [k H]. cbn [h_live] in H. destruct H as [H|H]; [injection H as <- <-; lia|].
    assert (a < h_next h) by (apply i_liveB0; now exists k). lia.
  - intros a H [k K]. cbn [h_live] in K. destruct K as [K|K]; [|apply (i_freedL0 a H); now exists k].
    injection K as <- <-. apply i_freedB0 in H. lia.
  - intros a H. apply i_freedB0 in H. lia.
  - intros a H. apply i_user0 in H. destruct H as [k H]. exists k. now right.
  - intros id o H K. destruct (i_parts0 id o H K) as [A B]. split; auto. intros a Ha. destruct (B a Ha) as [[k C] D].
    split; auto. exists k. now right.
  - intros a id H. apply i_refB0 in H. lia.
Qed.
Lemma inv_setSM h l id : inv h -> (forall a, In a l -> a < h_next h) -> inv (setSM h l id).
Proof.
  intros [] HL. split; auto. intros a i H. cbn [h_SM setSM h_next] in *. apply in_app_or in H. destruct H as [H|H].
  - apply in_rev in H. apply in_map_iff in H. destruct H as (b & E & H). injection E as -> _. auto.
  - eapply i_refB0; eauto.
Qed.
Lemma inv_addUser h a : inv h -> live h a -> (forall id o, hasModel h id o -> so_newed o = true -> ~ In a (parts o)) ->
  inv (setUser h (a :: h_user h)).
Proof.
  intros [] HL HM. split; auto.
  - intros b [<-|H]; auto. exact (i_user0 b H).
  - intros id o H K. destruct (i_parts0 id o H K) as [A B]. split; auto. intros b Hb. destruct (B b Hb) as [C D].
    split; auto. cbn [h_user setUser In]. intros [<-|E]; auto. exact (HM id o H K Hb).
Qed.
Lemma inv_addModel h id o : inv h -> id < h_count h -> ~ In id (map fst (h_models h)) ->
  (so_newed o = true -> NoDup (parts o) /\ (forall a, In a (parts o) -> live h a /\ ~ In a (h_user h)) /\
     forall id' o', hasModel h id' o' -> so_newed o' = true -> forall a, In a (parts o) -> ~ In a (parts o')) ->
  inv (addModel h id o).
Proof.
  intros [] Hi Hn Hp. split; auto.
  - cbn [h_models addModel map fst]. now constructor.
  - intros i o' [E|H]; [injection E as <- <-; auto|eauto].
  - intros i o' [E|H] K; [injection E as <- <-|now apply (i_parts0 i)].
    destruct (Hp K) as (A & B & _). split; auto.
  - intros i1 o1 i2 o2 [E1|H1] [E2|H2] K1 K2 NE a Ha; try (injection E1 as <- <-); try (injection E2 as <- <-).
    + contradiction.
    + destruct (Hp K1) as (_ & _ & C). eauto.
    + destruct (Hp K2) as (_ & _ & C). intros K. exact (C i1 o1 H1 K1 a K Ha).
    + eapply i_disj0 with (id1 := i1) (id2 := i2); eauto.
Qed.

(** releasing addresses that neither the caller nor a remaining owning model has, and dropping models *)
Lemma inv_release h l h' (keep : nat -> bool) : inv h -> NoDup l -> (forall a, In a l -> live h a /\ ~ In a (h_user h')) ->
  (forall id o, hasModel h id o -> keep id = true -> so_newed o = true -> forall a, In a (parts o) -> ~ In a l) ->
  h_next h' = h_next h -> (forall p, In p (h_live h') <-> In p (h_live h) /\ ~ In (fst p) l) -> NoDup (map fst (h_live h')) ->
  h_freed h' = rev l ++ h_freed h -> h_SM h' = h_SM h ->
  h_models h' = filter (fun p => keep (fst p)) (h_models h) -> h_count h' = h_count h ->
  (forall a, In a (h_user h') -> In a (h_user h)) -> inv h'.
Proof.
  intros I ND HL HK E1 E2 E3 E4 E5 E6 E7 E8. pose proof I as [].
  assert (LV : forall a, live h' a <-> live h a /\ ~ In a l).
  { intros a. unfold live. split.
    - intros [m H]. apply E2 in H. cbn [fst] in H. destruct H. split; eauto.
    - intros [[m H] K]. exists m. apply E2. auto. }
  assert (MD : forall id o, hasModel h' id o <-> hasModel h id o /\ keep id = true).
  { intros id o. unfold hasModel. rewrite E6, filter_In. reflexivity. }
  split.
  - auto.
  - intros a H. rewrite E1. apply LV in H. apply i_liveB0. tauto.
  - rewrite E4. apply NoDup_app_intro_.
    + now apply NoDup_rev.
    + auto.
    + intros a H K. apply in_rev in H. destruct (HL a H) as [A _]. exact (i_freedL0 a K A).
  - intros a H K. rewrite E4 in H. apply LV in K. destruct K as [K1 K2]. apply in_app_or in H.
    destruct H as [H|H]; [apply in_rev in H; contradiction|]. exact (i_freedL0 a H K1).
  - intros a H. rewrite E4 in H. rewrite E1. apply in_app_or in H. destruct H as [H|H]; auto.
    apply in_rev in H. apply i_liveB0. now apply HL.
  - intros a H. apply LV. split; [apply i_user0; auto|]. intros K. now apply (HL a K).
  - rewrite E6. clear -i_models0. induction (h_models h) as [|[k x] q IH]; cbn [map filter fst]; auto.
    inversion i_models0; subst. destruct (keep k); cbn [map fst]; auto. constructor; auto.
    intros K. apply H1. clear -K. induction q as [|[k' x'] q IH]; cbn [filter map fst] in *; auto.
    destruct (keep k'); cbn [map fst In] in *; tauto.
  - intros id o H. apply MD in H. rewrite E7. eapply i_modelsB0. apply H.
  - intros id o H K. apply MD in H. destruct H as [H Kp]. destruct (i_parts0 id o H K) as [A B]. split; auto.
    intros a Ha. destruct (B a Ha) as [C D]. split; [apply LV; split; auto; eapply HK; eauto|]. intros Q; apply D; auto.
  - intros i1 o1 i2 o2 H1 H2. apply MD in H1. apply MD in H2. destruct H1, H2. eapply i_disj0; eauto.
  - intros a id H. rewrite E5 in H. rewrite E1. eapply i_refB0; eauto.
Qed.

(** ** allocating several mechanisms *)
Definition allocs (h : heap) (l : list mech) : heap := fold_left (fun h m => snd (alloc h m)) l h.
Lemma allocs_inv l : forall h, inv h -> inv (allocs h l).
Proof. induction l as [|m l IH]; intros h I; cbn [allocs fold_left]; auto. apply IH. now apply inv_alloc. Qed.
Lemma allocs_fields l : forall h, h_next (allocs h l) = h_next h + length l /\ h_freed (allocs h l) = h_freed h /\
  h_SM (allocs h l) = h_SM h /\ h_models (allocs h l) = h_models h /\ h_count (allocs h l) = h_count h /\ h_user (allocs h l) = h_user h.
Proof.
  induction l as [|m l IH]; intros h; cbn [allocs fold_left length]; [rewrite Nat.add_0_r; tauto|].
  destruct (IH (snd (alloc h m))) as (A & B & C & D & E & F).
  unfold allocs in *. rewrite A, B, C, D, E, F. cbn [h_next alloc snd]. repeat split; auto. lia.
Qed.
Lemma allocs_live l : forall h a, live (allocs h l) a <-> live h a \/ h_next h <= a < h_next h + length l.
Proof.
  induction l as [|m l IH]; intros h a; cbn [allocs fold_left length].
  - split; [tauto|]. intros [|]; [auto|lia].
  - unfold allocs in IH. rewrite IH. cbn [h_next alloc snd]. unfold live. cbn [h_live]. split.
    + intros [[k [K|K]]|K]; [injection K as <- <-; right; lia|left; eauto|right; lia].
    + intros [[k K]|K]; [left; exists k; now right|]. destruct (Nat.eq_dec a (h_next h)) as [->|]; [left; exists m; now left|right; lia].
Qed.

Definition five (h : heap) : list addr := seq (h_next h) 5.
Definition fiveObj (h : heap) : smObj :=
  mkSM (h_next h) (S (h_next h)) (S (S (h_next h))) (S (S (S (h_next h)))) (S (S (S (S (h_next h))))) true.
Lemma five_parts h : parts (fiveObj h) = five h. Proof. reflexivity. Qed.
Lemma in_five h a : In a (five h) <-> h_next h <= a < h_next h + 5.
Proof. unfold five. rewrite in_seq. lia. Qed.

Definition allReal (n : nucleationMech) (g : growthMech) (o : oxidationMech) (c : coagulationMech) (t : tarMech) : Prop :=
  n <> N_size /\ g <> G_size /\ o <> O_size /\ c <> C_size /\ t <> T_size.

Lemma enum_real h p ns n g o c t : allReal n g o c t ->
  doEnum h p ns n g o c t =
  let h6 := setSM (allocs (bump h) [MNucl; MGrow; MOxid; MCoag c; MTar t]) (five h) (h_count h) in
  if ok (derivedCheck p ns c t) then Ok (addModel h6 (h_count h) (fiveObj h)) else destroy h6 (fiveObj h).
Proof.
  intros (A & B & C & D & E). unfold doEnum.
  assert (E1 : sizeN n = false) by (destruct n; (reflexivity || congruence)).
  assert (E2 : sizeG g = false) by (destruct g; (reflexivity || congruence)).
  assert (E3 : sizeO o = false) by (destruct o; (reflexivity || congruence)).
  assert (E4 : sizeC c = false) by (destruct c; (reflexivity || congruence)).
  assert (E5 : sizeT t = false) by (destruct t; (reflexivity || congruence)).
  rewrite E1, E2, E3, E4, E5. reflexivity.
Qed.

Definition lossesEnum n g o c t : nat :=
  if sizeN n then 0 else if sizeG g then 1 else if sizeO o then 2 else if sizeC c then 3 else if sizeT t then 4 else 0.
Lemma losses_enum p ns n g o c t : losses (OpEnum p ns n g o c t) = lossesEnum n g o c t.
Proof.
  unfold losses, lossesEnum, sizeN. destruct n; auto; unfold sizeG; destruct g; auto; unfold sizeO; destruct o; auto; destruct c, t; reflexivity.
Qed.

Lemma enum_bad h p ns n g o c t : ~ allReal n g o c t ->
  exists l, doEnum h p ns n g o c t = Ok (allocs (bump h) l) /\ length l = lossesEnum n g o c t.
Proof.
  intros A. unfold doEnum, lossesEnum.
  destruct (sizeN n) eqn:E1; [exists []; auto|]. destruct (sizeG g) eqn:E2; [exists [MNucl]; auto|].
  destruct (sizeO o) eqn:E3; [exists [MNucl; MGrow]; auto|]. destruct (sizeC c) eqn:E4; [exists [MNucl; MGrow; MOxid]; auto|].
  destruct (sizeT t) eqn:E5; [exists [MNucl; MGrow; MOxid; MCoag c]; auto|].
  exfalso. apply A. repeat split; intros ->; discriminate.
Qed.

(** ** back references *)
Lemma backRef_setSM h l id a :
  backRef (setSM h l id) a = if in_dec Nat.eq_dec a l then Some id else backRef h a.
Proof.
  unfold backRef. cbn [h_SM setSM]. unfold find_.
  assert (K : forall q, (In a q -> find (fun p => fst p =? a) (map (fun b => (b, id)) q ++ h_SM h) = Some (a, id)) /\
                        (~ In a q -> find (fun p => fst p =? a) (map (fun b => (b, id)) q ++ h_SM h) = find (fun p => fst p =? a) (h_SM h))).
  { induction q as [|b q [IH1 IH2]]; cbn [map app In find fst]; split; intros H; try contradiction; auto.
    - destruct (Nat.eqb_spec b a) as [->|]; auto. destruct H; [congruence|auto].
    - destruct (Nat.eqb_spec b a) as [->|]; [exfalso; auto|]. apply IH2. auto. }
  rewrite <- map_rev. destruct (in_dec Nat.eq_dec a l) as [H|H].
  - rewrite (proj1 (K (rev l))); auto. now apply in_rev in H.
  - rewrite (proj2 (K (rev l))); auto. now rewrite <- in_rev.
Qed.

(** ** one operation *)
Definition freeSpec (h : heap) (o : op) (h' : heap) : Prop :=
  match o with
  | OpDelModel id => exists so, hasModel h id so /\ h_freed h' = (if so_newed so then rev (parts so) else []) ++ h_freed h
  | OpDelMech a => h_freed h' = a :: h_freed h
  | OpEnum _ _ _ _ _ _ _ => exists l, h_freed h' = l ++ h_freed h /\ forall a, In a l -> h_next h <= a
  | _ => h_freed h' = h_freed h
  end.
Definition stepOK (h : heap) (o : op) (h' : heap) : Prop :=
  doOp h o = Ok h' /\ inv h' /\ h_next h <= h_next h' /\ freeSpec h o h' /\
  (forall a, lost h' a <-> lost h a \/ h_next h <= a < h_next h + losses o) /\
  (forall a, ~ receives h o a -> backRef h' a = backRef h a) /\
  (forall a, receives h o a -> backRef h' a = Some (h_count h)).

Lemma newed_below h id o a : inv h -> hasModel h id o -> so_newed o = true -> In a (parts o) -> a < h_next h.
Proof. intros I H K Ha. apply I. now apply (i_parts h I id o H K). Qed.
Lemma user_below h a : inv h -> In a (h_user h) -> a < h_next h.
Proof. intros I H. apply I. now apply I. Qed.

Lemma step_new h m : inv h -> stepOK h (OpNew m) (setUser (snd (alloc h m)) (h_next h :: h_user h)).
Proof.
  intros I. split; [reflexivity|]. split.
  - pose proof (inv_alloc h m I) as I'.
    apply (inv_addUser _ (h_next h) I').
    + exists m. now left.
    + intros id o H K Ha. pose proof (newed_below h id o _ I H K Ha). lia.
  - split; [cbn [h_next setUser alloc snd]; lia|]. split; [reflexivity|]. split.
    + intros a. cbn [losses]. split.
      * intros ((k & [E|L]) & U & M); [injection E as <- <-; exfalso; apply U; now left|]. left. split; [now exists k|].
        split; [intros Q; apply U; now right|exact M].
      * intros [((k & L) & U & M)|Q]; [|lia]. split; [exists k; now right|]. split; [|exact M].
        intros [<-|Q]; [|contradiction]. assert (h_next h < h_next h) by (apply I; now exists k). lia.
    + split; [reflexivity|]. intros a H; inversion H.
Qed.

Lemma step_enum h p ns n g o c t : inv h -> exists h', stepOK h (OpEnum p ns n g o c t) h'.
Proof.
  intros I.
  assert (D : allReal n g o c t \/ ~ allReal n g o c t).
  { unfold allReal. destruct n, g; try (right; intros (A & B & _); congruence); destruct o; try (right; intros (_ & _ & A & _); congruence);
      destruct c; try (right; intros (_ & _ & _ & A & _); congruence); destruct t; try (right; intros (_ & _ & _ & _ & A); congruence);
      left; repeat split; discriminate. }
  destruct D as [R|R].
  - pose (l5 := [MNucl; MGrow; MOxid; MCoag c; MTar t]).
    pose (h6 := setSM (allocs (bump h) l5) (five h) (h_count h)).
    pose proof (enum_real h p ns n g o c t R) as E. cbv zeta in E. fold l5 in E. fold h6 in E.
    destruct (allocs_fields l5 (bump h)) as (F1 & F2 & F3 & F4 & F5 & F6).
    assert (I5 : inv (allocs (bump h) l5)) by (apply allocs_inv, inv_bump, I).
    assert (I6 : inv h6).
    { apply inv_setSM; auto. intros a Ha. rewrite F1. apply in_five in Ha. exact (proj2 Ha). }
    assert (L6 : forall a, live h6 a <-> live h a \/ h_next h <= a < h_next h + 5).
    { intros a. change (live h6 a) with (live (allocs (bump h) l5) a). rewrite allocs_live. reflexivity. }
    assert (NP : NoDup (parts (fiveObj h))) by (rewrite five_parts; apply seq_NoDup).
    assert (LS : losses (OpEnum p ns n g o c t) = 0).
    { rewrite losses_enum. unfold lossesEnum. destruct R as (A1 & A2 & A3 & A4 & A5).
      destruct n, g, o, c, t; try congruence; reflexivity. }
    assert (RC : forall a, receives h (OpEnum p ns n g o c t) a <-> In a (five h)).
    { intros a. rewrite in_five. split; [intros H; now inversion H|]. intros H. destruct R as (A1 & A2 & A3 & A4 & A5). now constructor. }
    assert (BR : forall h', h_SM h' = h_SM h6 ->
       (forall a, ~ receives h (OpEnum p ns n g o c t) a -> backRef h' a = backRef h a) /\
       (forall a, receives h (OpEnum p ns n g o c t) a -> backRef h' a = Some (h_count h))).
    { intros h' Eh. assert (Q : forall a, backRef h' a = backRef h6 a) by (intros; unfold backRef; now rewrite Eh).
      split; intros a H; rewrite Q; unfold h6; rewrite backRef_setSM; rewrite RC in H; destruct (in_dec Nat.eq_dec a (five h)); try contradiction; auto. }
    destruct (ok (derivedCheck p ns c t)) eqn:Ed.
    + exists (addModel h6 (h_count h) (fiveObj h)). split; [exact E|]. split; [|split; [|split; [|split]]].
      * apply inv_addModel; auto.
        -- intros K. apply in_map_iff in K. destruct K as ([id x] & K1 & K2). cbn [fst] in K1. subst.
           cbn [h6 h_models setSM] in K2. rewrite F4 in K2. apply (i_modelsB h I) in K2. lia.
        -- intros _. split; [auto|]. split.
           ++ intros a Ha. rewrite five_parts, in_five in Ha. split; [apply L6; auto|].
              cbn [h6 h_user setSM]. rewrite F6. intros Q. pose proof (user_below h a I Q). lia.
           ++ intros id' o' H K a Ha Hb. rewrite five_parts, in_five in Ha.
              unfold hasModel in H. cbn [h6 h_models setSM] in H. rewrite F4 in H. pose proof (newed_below h id' o' a I H K Hb). lia.
      * cbn [h_next addModel h6 setSM]. rewrite F1. cbn [bump h_next]. lia.
      * exists []. split; [|contradiction]. cbn [h_freed addModel h6 setSM app]. exact F2.
      * intros a. rewrite LS. split.
        -- intros (L & U & M). left.
           assert (N5 : ~ In a (five h)).
           { rewrite <- five_parts. apply (M (h_count h) (fiveObj h)); [now left|reflexivity]. }
           apply L6 in L. rewrite in_five in N5. split; [tauto|]. cbn [h_user addModel h6 setSM] in U. rewrite F6 in U.
           split; [exact U|]. intros id x H. apply (M id x). right. cbn [h_models h6 setSM]. now rewrite F4.
        -- intros [(L & U & M)|Q]; [|lia]. split; [apply L6; auto|]. split; [cbn [h_user addModel h6 setSM]; now rewrite F6|].
           intros id x [Q|H] K.
           ++ injection Q as <- <-. rewrite five_parts, in_five. intros Q. apply (i_liveB h I) in L. lia.
           ++ cbn [h_models h6 setSM] in H. rewrite F4 in H. exact (M id x H K).
      * exact (BR _ eq_refl).
    + destruct (release_list_ok (parts (fiveObj h)) h6) as (h' & E' & A1 & A2 & A3 & A4 & A5 & A6 & A7 & A8); auto.
      { apply I6. } { intros a Ha. rewrite five_parts, in_five in Ha. apply L6. auto. }
      rewrite destroy_list in E by reflexivity. rewrite E' in E. exists h'. split; [exact E|]. split; [|split; [|split; [|split]]].
      * apply (inv_release h6 (parts (fiveObj h)) h' (fun _ => true)); auto.
        -- intros a Ha. rewrite five_parts, in_five in Ha. split; [apply L6; auto|].
           rewrite A8. cbn [h6 h_user setSM]. rewrite F6. intros Q. pose proof (user_below h a I Q). lia.
        -- intros id x H _ K a Ha. rewrite five_parts, in_five.
           unfold hasModel in H. cbn [h6 h_models setSM] in H. rewrite F4 in H. pose proof (newed_below h id x a I H K Ha). lia.
        -- rewrite A6. clear. induction (h_models h6); cbn [filter]; congruence.
        -- rewrite A8. auto.
      * rewrite A1. cbn [h6 h_next setSM]. rewrite F1. cbn [bump h_next]. lia.
      * exists (rev (parts (fiveObj h))). split; [rewrite A4; cbn [h6 h_freed setSM]; now rewrite F2|].
        intros a Ha. apply in_rev in Ha. rewrite five_parts, in_five in Ha. lia.
      * intros a. rewrite LS.
        assert (LV : live h' a <-> live h a).
        { unfold live at 1. split.
          - intros [k K]. apply A2 in K. cbn [fst] in K. destruct K as [K1 K2]. rewrite five_parts, in_five in K2.
            assert (L : live h6 a) by now exists k. apply L6 in L. tauto.
          - intros L. assert (Q : live h6 a) by (apply L6; auto). destruct Q as [k K]. exists k. apply A2. split; auto.
            cbn [fst]. rewrite five_parts, in_five. apply (i_liveB h I) in L. lia. }
        unfold lost. rewrite LV, A8. unfold hasModel. rewrite A6. cbn [h6 h_user h_models setSM]. rewrite F4, F6.
        split; [intros H; left; exact H|]. intros [H|Q]; [exact H|lia].
      * apply BR. now rewrite A5.
  - destruct (enum_bad h p ns n g o c t R) as (l & E & Ll). rewrite <- (losses_enum p ns) in Ll.
    destruct (allocs_fields l (bump h)) as (F1 & F2 & F3 & F4 & F5 & F6).
    exists (allocs (bump h) l). split; [exact E|]. split; [|split; [|split; [|split; [|split]]]].
    + apply allocs_inv, inv_bump, I.
    + rewrite F1. cbn [bump h_next]. lia.
    + exists []. split; [exact F2|contradiction].
    + intros a. unfold lost. rewrite allocs_live, F6, Ll. unfold hasModel. rewrite F4. cbn [bump h_next h_user h_models].
      change (live (bump h) a) with (live h a). split.
      * intros ([L|L] & U & M); [left; auto|right; auto].
      * intros [(L & U & M)|L]; [auto|]. split; [auto|]. split.
        -- intros Q. pose proof (user_below h a I Q). lia.
        -- intros id x H K Ha. pose proof (newed_below h id x a I H K Ha). lia.
    + intros a _. unfold backRef. now rewrite F3.
    + intros a H. exfalso. apply R. inversion H; subst. repeat split; auto.
Qed.

Lemma find_live h a m : inv h -> liveAs h a m -> find_ a (h_live h) = Some m.
Proof. intros I H. apply In_find; auto. apply I. Qed.

(** the pointer constructor once the tar object is known *)
Definition ptrEnd (h1 : heap) (id : nat) (o : smObj) (good : bool) : heap :=
  let h2 := setSM h1 [so_nucl o; so_grow o; so_oxid o; so_coag o] id in if good then addModel h2 id o else h2.

Lemma ptr_some h p ns nu gr ox co c a t : inv h -> liveAs h nu MNucl -> liveAs h gr MGrow -> liveAs h ox MOxid ->
  liveAs h co (MCoag c) -> liveAs h a (MTar t) ->
  doPtr h p ns nu gr ox co (Some a) = Ok (ptrEnd (bump h) (h_count h) (mkSM nu gr ox co a false) (ok (derivedCheck p ns c t))).
Proof.
  intros I H1 H2 H3 H4 H5. unfold doPtr. cbn [h_live bump].
  rewrite (find_live h nu _ I H1), (find_live h gr _ I H2), (find_live h ox _ I H3), (find_live h co _ I H4), (find_live h a _ I H5).
  unfold ptrEnd. cbn [so_nucl so_grow so_oxid so_coag]. destruct (ok _); reflexivity.
Qed.
Lemma ptr_none h p ns nu gr ox co c : inv h -> liveAs h nu MNucl -> liveAs h gr MGrow -> liveAs h ox MOxid ->
  liveAs h co (MCoag c) ->
  doPtr h p ns nu gr ox co None = Ok (ptrEnd (snd (alloc (bump h) (MTar T_NONE))) (h_count h)
      (mkSM nu gr ox co (h_next h) false) (ok (derivedCheck p ns c T_NONE))).
Proof.
  intros I H1 H2 H3 H4. unfold doPtr. unfold alloc at 1. cbv beta iota zeta.
  pose proof (inv_alloc _ (MTar T_NONE) (inv_bump _ I)) as I'.
  assert (W : forall b m, liveAs h b m -> find_ b (h_live (snd (alloc (bump h) (MTar T_NONE)))) = Some m).
  { intros b m H. apply find_live; auto. now right. }
  assert (W0 : find_ (h_next (bump h)) (h_live (snd (alloc (bump h) (MTar T_NONE)))) = Some (MTar T_NONE)).
  { apply find_live; auto. now left. }
  cbn [alloc snd h_live h_next] in W, W0. cbn [h_live].
  rewrite (W nu _ H1), (W gr _ H2), (W ox _ H3), (W co _ H4), W0.
  unfold ptrEnd. cbn [so_nucl so_grow so_oxid so_coag]. destruct (ok _); reflexivity.
Qed.

Lemma ptrEnd_ok h1 id o good : inv h1 -> id < h_count h1 -> ~ In id (map fst (h_models h1)) -> so_newed o = false ->
  (forall a, In a [so_nucl o; so_grow o; so_oxid o; so_coag o] -> a < h_next h1) ->
  let h' := ptrEnd h1 id o good in
  inv h' /\ h_next h' = h_next h1 /\ h_freed h' = h_freed h1 /\
  (forall a, lost h' a <-> lost h1 a) /\
  (forall a, backRef h' a = if in_dec Nat.eq_dec a [so_nucl o; so_grow o; so_oxid o; so_coag o] then Some id else backRef h1 a).
Proof.
  intros I Hi Hn Ho Hb h'. unfold h', ptrEnd.
  assert (I2 : inv (setSM h1 [so_nucl o; so_grow o; so_oxid o; so_coag o] id)) by (apply inv_setSM; auto).
  destruct good.
  - split; [apply inv_addModel; auto; congruence|]. split; [reflexivity|]. split; [reflexivity|]. split.
    + intros a. unfold lost. split; intros (L & U & M); (split; [exact L|split; [exact U|]]); intros i x H K.
      * apply (M i x); auto. now right.
      * destruct H as [E|H]; [injection E as <- <-; congruence|]. exact (M i x H K).
    + intros a. apply (backRef_setSM h1).
  - split; [auto|]. split; [reflexivity|]. split; [reflexivity|]. split; [reflexivity|]. intros a. apply backRef_setSM.
Qed.

Lemma fresh_model h : inv h -> ~ In (h_count h) (map fst (h_models h)).
Proof.
  intros I K. apply in_map_iff in K. destruct K as ([id x] & K1 & K2). cbn [fst] in K1. subst.
  apply (i_modelsB h I) in K2. lia.
Qed.

Lemma step_ptr h p ns nu gr ox co c tar : inv h ->
    (forall a, In a [nu; gr; ox; co] -> In a (h_user h)) ->
    liveAs h nu MNucl -> liveAs h gr MGrow -> liveAs h ox MOxid -> liveAs h co (MCoag c) ->
    (forall a, tar = Some a -> In a (h_user h) /\ exists t, liveAs h a (MTar t)) ->
  exists h', stepOK h (OpPtr p ns nu gr ox co tar) h'.
Proof.
  intros I HU H1 H2 H3 H4 HT.
  assert (RC : forall a, receives h (OpPtr p ns nu gr ox co tar) a <-> In a [nu; gr; ox; co]).
  { intros a. split; [intros H; now inversion H|]. now constructor. }
  destruct tar as [a|].
  - destruct (HT a eq_refl) as [_ [t H5]].
    pose proof (ptr_some h p ns nu gr ox co c a t I H1 H2 H3 H4 H5) as E.
    eexists. split; [exact E|].
    edestruct (ptrEnd_ok (bump h) (h_count h) (mkSM nu gr ox co a false) (ok (derivedCheck p ns c t))) as (Q1 & Q2 & Q3 & Q4 & Q5); auto.
    { now apply inv_bump. } { exact (fresh_model h I). }
    { intros b Hb. cbn [bump h_next]. apply (user_below h); auto. }
    split; [exact Q1|]. split; [rewrite Q2; cbn [bump h_next]; lia|]. split; [exact Q3|]. split; [|split].
    + intros b. rewrite Q4. cbn [losses]. split; [intros H; left; exact H|]. intros [H|H]; [exact H|lia].
    + intros b H. rewrite Q5. cbn [so_nucl so_grow so_oxid so_coag]. rewrite RC in H.
      destruct (in_dec Nat.eq_dec b [nu; gr; ox; co]); [contradiction|reflexivity].
    + intros b H. rewrite Q5. cbn [so_nucl so_grow so_oxid so_coag]. rewrite RC in H.
      destruct (in_dec Nat.eq_dec b [nu; gr; ox; co]); [reflexivity|contradiction].
  - pose proof (ptr_none h p ns nu gr ox co c I H1 H2 H3 H4) as E.
    set (h1 := snd (alloc (bump h) (MTar T_NONE))) in *.
    eexists. split; [exact E|].
    edestruct (ptrEnd_ok h1 (h_count h) (mkSM nu gr ox co (h_next h) false) (ok (derivedCheck p ns c T_NONE))) as (Q1 & Q2 & Q3 & Q4 & Q5); auto.
    { now apply inv_alloc, inv_bump. } { exact (fresh_model h I). }
    { intros b Hb. cbn [h1 alloc snd bump h_next]. assert (b < h_next h) by (apply (user_below h); auto). lia. }
    split; [exact Q1|]. split; [rewrite Q2; cbn [h1 alloc snd bump h_next]; lia|]. split; [exact Q3|]. split; [|split].
    + intros b. rewrite Q4. cbn [losses]. unfold lost, live, hasModel. cbn [h1 alloc snd bump h_live h_next h_user h_models]. split.
      * intros ((k & [K|K]) & U & M); [injection K as <- <-; right; lia|]. left. split; [now exists k|]. now split.
      * intros [((k & K) & U & M)|Q].
        -- split; [exists k; now right|]. now split.
        -- assert (b = h_next h) as -> by lia. split; [eexists; left; reflexivity|]. split.
           ++ intros W. pose proof (user_below h _ I W). lia.
           ++ intros id x H K W. pose proof (newed_below h id x _ I H K W). lia.
    + intros b H. rewrite Q5. cbn [so_nucl so_grow so_oxid so_coag]. rewrite RC in H.
      destruct (in_dec Nat.eq_dec b [nu; gr; ox; co]); [contradiction|reflexivity].
    + intros b H. rewrite Q5. cbn [so_nucl so_grow so_oxid so_coag]. rewrite RC in H.
      destruct (in_dec Nat.eq_dec b [nu; gr; ox; co]); [reflexivity|contradiction].
Qed.

Lemma hasModel_find h id o : inv h -> hasModel h id o -> find_ id (h_models h) = Some o.
Proof. intros I H. apply In_find; auto. apply I. Qed.
Lemma hasModel_unique h id o1 o2 : inv h -> hasModel h id o1 -> hasModel h id o2 -> o1 = o2.
Proof. intros I A B. apply (hasModel_find h) in A, B; auto. congruence. Qed.

Lemma step_delModel h id o : inv h -> hasModel h id o -> exists h', stepOK h (OpDelModel id) h' /\ (so_newed o = false -> h_live h' = h_live h).
Proof.
  intros I HM. pose proof (hasModel_find h id o I HM) as F.
  destruct (so_newed o) eqn:EN.
  - destruct (i_parts h I id o HM EN) as [ND PL].
    destruct (release_list_ok (parts o) h) as (h1 & E & A1 & A2 & A3 & A4 & A5 & A6 & A7 & A8); auto.
    { apply I. } { intros a Ha. now apply PL. }
    exists (dropModel h1 id). split; [|discriminate]. split.
    { cbn [doOp]. rewrite F, destroy_list, E by auto. reflexivity. }
    split.
    { apply (inv_release h (parts o) _ (fun i => negb (i =? id))); cbn [dropModel h_next h_live h_freed h_SM h_models h_count h_user]; auto.
      - intros a Ha. rewrite A8. now apply PL.
      - intros i x H K Kn a Ha Hb. apply negb_true_iff, Nat.eqb_neq in K.
        exact (i_disj h I i x id o H HM Kn EN K a Ha Hb).
      - now rewrite A6.
      - rewrite A8. auto. }
    split; [cbn [dropModel h_next]; lia|]. split; [exists o; split; [auto|]; rewrite EN; exact A4|]. split; [|split].
    + intros a. cbn [losses]. unfold lost, live, hasModel. cbn [dropModel h_live h_user h_models]. rewrite A6, A8. split.
      * intros ((k & K) & U & M). apply A2 in K. cbn [fst] in K. destruct K as [K Kp]. left. split; [now exists k|]. split; [auto|].
        intros i x H Kn. destruct (Nat.eq_dec i id) as [->|NE].
        -- now rewrite (hasModel_unique h id x o I H HM).
        -- apply (M i x); auto. apply In_remove. auto.
      * intros [((k & K) & U & M)|Q]; [|lia]. split; [exists k; apply A2; split; [auto|]; cbn [fst]; now apply (M id o)|].
        split; [auto|]. intros i x H Kn. apply In_remove in H. now apply (M i x).
    + intros a _. unfold backRef. cbn [dropModel h_SM]. now rewrite A5.
    + intros a H. inversion H.
  - exists (dropModel h id). split; [|reflexivity]. split.
    { cbn [doOp]. rewrite F, destroy_none by auto. reflexivity. }
    split.
    { apply (inv_release h [] _ (fun i => negb (i =? id))); cbn [dropModel h_next h_live h_freed h_SM h_models h_count h_user]; auto.
      - constructor.
      - contradiction.
      - intros p. tauto.
      - apply I. }
    split; [cbn [dropModel h_next]; lia|]. split; [exists o; split; [auto|]; rewrite EN; reflexivity|]. split; [|split].
    + intros a. cbn [losses]. unfold lost, live, hasModel. cbn [dropModel h_live h_user h_models]. split.
      * intros (L & U & M). left. split; [exact L|]. split; [exact U|]. intros i x H Kn. destruct (Nat.eq_dec i id) as [->|NE].
        -- rewrite (hasModel_unique h id x o I H HM) in Kn. congruence.
        -- apply (M i x); auto. apply In_remove. auto.
      * intros [(L & U & M)|Q]; [|lia]. split; [exact L|]. split; [exact U|]. intros i x H Kn. apply In_remove in H. now apply (M i x).
    + reflexivity.
    + intros a H. inversion H.
Qed.

Lemma step_delMech h a : inv h -> In a (h_user h) -> exists h', stepOK h (OpDelMech a) h'.
Proof.
  intros I HU. pose proof (i_user h I a HU) as L.
  destruct (release_ok h a I L) as (h1 & E & A1 & A2 & A3 & A4 & A5 & A6 & A7).
  exists (setUser h1 (filter (fun b => negb (Nat.eqb b a)) (h_user h1))). split.
  { cbn [doOp]. rewrite E. reflexivity. }
  assert (FU : forall b, In b (filter (fun b => negb (Nat.eqb b a)) (h_user h1)) <-> In b (h_user h) /\ b <> a).
  { intros b. rewrite filter_In, A7. destruct (Nat.eqb_spec b a); cbn [negb]; intuition congruence. }
  split.
  { apply (inv_release h [a] _ (fun _ => true)); cbn [setUser h_next h_live h_freed h_SM h_models h_count h_user rev app]; auto.
    - constructor; [auto|constructor].
    - intros b [<-|[]]. split; auto. rewrite FU. tauto.
    - intros id o H _ K b Hb [<-|[]]. exact (proj2 (proj2 (i_parts h I id o H K) _ Hb) HU).
    - intros p. rewrite A2, In_remove. cbn [In]. split; (intros [W1 W2]; split; [exact W1|]); [intros [W|[]]; apply W2; symmetry; exact W|]. intros W; apply W2; left; symmetry; exact W.
    - rewrite A2. apply NoDup_remove_, I.
    - rewrite A5. clear. induction (h_models h); cbn [filter]; congruence.
    - intros b Hb. now apply FU in Hb. }
  split; [cbn [setUser h_next]; lia|]. split; [exact A3|]. split; [|split].
  + intros b. cbn [losses]. unfold lost, live, hasModel. cbn [setUser h_live h_user h_models]. rewrite A5, FU, A2. split.
    * intros ((k & K) & U & M). apply In_remove in K. cbn [fst] in K. left. split; [exists k; tauto|]. split; [tauto|auto].
    * intros [((k & K) & U & M)|Q]; [|lia]. assert (b <> a) by (intros ->; contradiction).
      split; [exists k; apply In_remove; auto|]. split; [tauto|auto].
  + intros b _. unfold backRef. cbn [setUser h_SM]. now rewrite A4.
  + intros b H. inversion H.
Qed.

Lemma step_main h o : inv h -> allowed h o -> exists h', stepOK h o h'.
Proof.
  intros I A. destruct A.
  - eexists. now apply step_new.
  - eapply step_ptr; eauto.
  - now apply step_enum.
  - destruct (step_delModel h id o I H) as (h' & S & _). now exists h'.
  - now apply step_delMech.
Qed.

Lemma step_det h o h' : inv h -> allowed h o -> doOp h o = Ok h' -> stepOK h o h'.
Proof.
  intros I A E. destruct (step_main h o I A) as (h2 & S). pose proof S as (E2 & _).
  rewrite E in E2. injection E2 as <-. exact S.
Qed.

Lemma history_inv l h : history l h -> inv h.
Proof.
  induction 1; [apply inv0|]. now destruct (step_det _ _ _ IHhistory H0 H1) as (_ & I & _).
Qed.

(** ** C10 *)
Lemma C10_safe_ l h o : history l h -> allowed h o -> exists h', doOp h o = Ok h' /\ history (l ++ [o]) h'.
Proof.
  intros H A. destruct (step_main h o (history_inv l h H) A) as (h' & S & _). exists h'. split; auto. econstructor; eauto.
Qed.
Lemma C10_once_ l h : history l h -> NoDup (h_freed h) /\ forall a, In a (h_freed h) -> ~ live h a.
Proof. intros H. apply history_inv in H. split; apply H. Qed.

Lemma release_user h a h' : release h a = Ok h' -> h_user h' = h_user h /\ h_models h' = h_models h.
Proof. unfold release. destruct (find_ a (h_live h)); [|discriminate]. intros E. injection E as <-. auto. Qed.
Lemma destroy_user h o h' : destroy h o = Ok h' -> h_user h' = h_user h /\ h_models h' = h_models h.
Proof.
  destruct (so_newed o) eqn:E; [rewrite destroy_list by auto|rewrite destroy_none by auto; intros Q; injection Q as <-; auto].
  generalize (parts o) as l. intros l. revert h. induction l as [|a l IH]; intros h; cbn [foldM]; [intros Q; injection Q as <-; auto|].
  destruct (release h a) as [h1| |] eqn:R; cbn [bind]; try discriminate. intros Q. apply IH in Q. apply release_user in R.
  destruct Q as [-> ->]. exact R.
Qed.

(** the caller's list and the models after one operation *)
Lemma doOp_models h o h' : inv h -> allowed h o -> doOp h o = Ok h' ->
  (forall a, In a (h_user h) -> o <> OpDelMech a -> In a (h_user h')) /\
  (forall id x, hasModel h' id x -> hasModel h id x \/
      id = h_count h /\ (forall a, In a [so_nucl x; so_grow x; so_oxid x; so_coag x] -> receives h o a) /\
      (so_newed x = true -> receives h o (so_tar x))) /\
  (forall id x, hasModel h id x -> o <> OpDelModel id -> hasModel h' id x) /\
  (forall id, o = OpDelModel id -> forall x, ~ hasModel h' id x).
Proof.
  intros I A E. destruct A.
  - cbn [doOp] in E. injection E as <-. repeat split; cbn [setUser alloc snd h_user h_models hasModel]; auto.
    + intros a Ha _. now right.
    + discriminate.
  - cbn [doOp] in E.
    assert (X : exists h1 a good, h' = ptrEnd h1 (h_count h) (mkSM nu gr ox co a false) good /\ h_user h1 = h_user h /\ h_models h1 = h_models h).
    { destruct tar as [a|].
      - destruct (H4 a eq_refl) as [_ [t Ht]]. rewrite (ptr_some h p ns nu gr ox co c a t) in E by auto. injection E as <-.
        do 3 eexists. split; [reflexivity|]. auto.
      - rewrite (ptr_none h p ns nu gr ox co c) in E by auto. injection E as <-. do 3 eexists. split; [reflexivity|]. auto. }
    destruct X as (h1 & a & good & -> & U & M). unfold ptrEnd, hasModel. split; [|split; [|split]]; [..|discriminate].
    + intros b Hb _. destruct good; cbn [addModel setSM h_user]; now rewrite U.
    + intros id x Hx. destruct good; cbn [addModel setSM h_models] in Hx; rewrite M in Hx; auto.
      destruct Hx as [Q|Hx]; auto. injection Q as <- <-. right. split; auto. cbn [so_nucl so_grow so_oxid so_coag so_newed so_tar].
      split; [|discriminate]. intros b Hb. now constructor.
    + intros id x Hx _. destruct good; cbn [addModel setSM h_models]; rewrite M; auto. now right.
  - cbn [doOp] in E.
    assert (D : allReal n g o c t \/ ~ allReal n g o c t).
    { unfold allReal. destruct n, g; try (right; intros (A1 & B & _); congruence); destruct o; try (right; intros (_ & _ & A1 & _); congruence);
        destruct c; try (right; intros (_ & _ & _ & A1 & _); congruence); destruct t; try (right; intros (_ & _ & _ & _ & A1); congruence);
        left; repeat split; discriminate. }
    destruct D as [R|R].
    + rewrite (enum_real h p ns n g o c t R) in E. cbv zeta in E.
      destruct (allocs_fields [MNucl; MGrow; MOxid; MCoag c; MTar t] (bump h)) as (F1 & F2 & F3 & F4 & F5 & F6).
      set (h1 := allocs _ _) in *.
      assert (RC : forall a, In a (five h) -> receives h (OpEnum p ns n g o c t) a).
      { intros a Ha. apply in_five in Ha. destruct R as (A1 & A2 & A3 & A4 & A5). now constructor. }
      destruct (ok (derivedCheck p ns c t)).
      * injection E as <-. unfold hasModel. cbn [addModel setSM h_user h_models]. rewrite F4, F6.
        split; [auto|]. split; [|split; [|discriminate]].
        -- intros id x [Q|Hx]; auto. injection Q as <- <-. right. split; auto. rewrite <- five_parts in RC.
           unfold parts in RC. cbn [In] in RC |- *. split; [intros a Ha; apply RC; tauto|intros _; apply RC; tauto].
        -- intros id x Hx _. now right.
      * apply destroy_user in E. cbn [setSM h_user h_models] in E. destruct E as [E1 E2]. unfold hasModel.
        rewrite E1, E2, F4, F6. repeat split; auto; try discriminate.
    + destruct (enum_bad h p ns n g o c t R) as (l & E' & _). rewrite E' in E. injection E as <-.
      destruct (allocs_fields l (bump h)) as (F1 & F2 & F3 & F4 & F5 & F6). unfold hasModel. rewrite F4, F6.
      repeat split; auto; try discriminate.
  - cbn [doOp] in E. rewrite (hasModel_find h id o I H) in E.
    destruct (destroy h o) as [h1| |] eqn:Ed; cbn [bind] in E; try discriminate. injection E as <-.
    apply destroy_user in Ed. destruct Ed as [E1 E2]. unfold hasModel. cbn [dropModel h_user h_models]. rewrite E1, E2.
    split; [auto|]. split; [|split].
    + intros i x Hx. apply In_remove in Hx. left. tauto.
    + intros i x Hx NE. apply In_remove. split; [exact Hx|]. cbn [fst]. congruence.
    + intros i Q x Hx. injection Q as ->. apply In_remove in Hx. now destruct Hx.
  - cbn [doOp] in E. destruct (release h a) as [h1| |] eqn:Er; cbn [bind] in E; try discriminate. injection E as <-.
    apply release_user in Er. destruct Er as [E1 E2]. unfold hasModel. cbn [setUser h_user h_models]. rewrite E1, E2.
    split; [|repeat split; auto; try discriminate].
    intros b Hb NE. apply filter_In. split; auto. apply negb_true_iff, Nat.eqb_neq. congruence.
Qed.

Lemma C10_caller_ l h o h' a : history l h -> allowed h o -> doOp h o = Ok h' -> In a (h_user h) -> o <> OpDelMech a ->
  In a (h_user h') /\ live h' a.
Proof.
  intros H A E U N. pose proof (history_inv l h H) as I.
  destruct (doOp_models h o h' I A E) as (W & _). specialize (W a U N). split; auto.
  destruct (step_det h o h' I A E) as (_ & I' & _). now apply I'.
Qed.

Lemma C10_owner_ l h id o : history l h -> hasModel h id o ->
  exists h', doOp h (OpDelModel id) = Ok h' /\ (forall x, ~ hasModel h' id x) /\
    h_freed h' = (if so_newed o then rev (parts o) else []) ++ h_freed h /\
    (forall a, live h' a <-> live h a /\ ~ (so_newed o = true /\ In a (parts o))).
Proof.
  intros H M. pose proof (history_inv l h H) as I.
  destruct (step_delModel h id o I M) as (h' & S & LV). exists h'.
  pose proof S as (E & I' & _ & (so & Hso & F) & _).
  rewrite (hasModel_unique h id so o I Hso M) in F. split; [exact E|]. split.
  - intros x Hx. destruct (doOp_models h _ h' I (al_delModel h id o M) E) as (_ & _ & _ & W). exact (W id eq_refl x Hx).
  - split; [exact F|]. intros a. cbn [doOp] in E. rewrite (hasModel_find h id o I M) in E.
    destruct (so_newed o) eqn:En.
    + rewrite destroy_list in E by auto. destruct (i_parts h I id o M En) as [ND PL].
      destruct (release_list_ok (parts o) h) as (h1 & E1 & A1 & A2 & _); auto.
      { apply I. } { intros b Hb. now apply PL. }
      rewrite E1 in E. cbn [bind] in E. injection E as <-. unfold live. cbn [dropModel h_live]. split.
      * intros [k K]. apply A2 in K. cbn [fst] in K. split; [exists k; tauto|tauto].
      * intros [[k K] Q]. exists k. apply A2. cbn [fst]. split; auto.
    + specialize (LV eq_refl). unfold live. rewrite LV. split; [intros L; split; auto; intros [Q _]; discriminate|tauto].
Qed.

Lemma C10_enum_ l h p ns n g o c t : history l h -> n <> N_size -> g <> G_size -> o <> O_size -> c <> C_size -> t <> T_size ->
  exists h', doOp h (OpEnum p ns n g o c t) = Ok h' /\
    (ok (derivedCheck p ns c t) = true ->
       let x := mkSM (h_next h) (h_next h + 1) (h_next h + 2) (h_next h + 3) (h_next h + 4) true in
       hasModel h' (h_count h) x /\ h_freed h' = h_freed h /\
       (forall a m, liveAs h' a m <-> liveAs h a m \/ In (a, m) (combine (parts x) [MNucl; MGrow; MOxid; MCoag c; MTar t]))) /\
    (ok (derivedCheck p ns c t) = false ->
       (forall a, live h' a <-> live h a) /\ (forall i x, hasModel h' i x <-> hasModel h i x)).
Proof.
  intros H A1 A2 A3 A4 A5. pose proof (history_inv l h H) as I.
  assert (R : allReal n g o c t) by now repeat split.
  destruct (step_main h _ I (al_enum h p ns n g o c t)) as (h' & S). pose proof S as (E & I' & _ & _ & LS & _).
  exists h'. split; [exact E|]. pose proof E as E0. cbn [doOp] in E. rewrite (enum_real h p ns n g o c t R) in E. cbv zeta in E.
  split; intros Ed; rewrite Ed in E.
  - injection E as <-. cbv zeta. split; [left; unfold fiveObj; f_equal; f_equal; lia|]. split; [reflexivity|].
    intros a m. unfold liveAs. cbn [parts combine so_nucl so_grow so_oxid so_coag so_tar]. unfold allocs.
    cbn [addModel setSM fold_left alloc snd h_live h_next bump In].
    rewrite !Nat.add_succ_r, Nat.add_0_r. tauto.
  - rewrite destroy_list in E by reflexivity.
    destruct (allocs_fields [MNucl; MGrow; MOxid; MCoag c; MTar t] (bump h)) as (F1 & F2 & F3 & F4 & F5 & F6).
    pose proof (allocs_live [MNucl; MGrow; MOxid; MCoag c; MTar t] (bump h)) as AL.
    pose proof (allocs_inv [MNucl; MGrow; MOxid; MCoag c; MTar t] (bump h) (inv_bump h I)) as I1.
    set (h1 := allocs _ _) in *.
    destruct (release_list_ok (parts (fiveObj h)) (setSM h1 (five h) (h_count h))) as (h2 & E2 & B1 & B2 & B3 & B4 & B5 & B6 & B7 & B8).
    { apply I1. } { rewrite five_parts. apply seq_NoDup. }
    { intros a Ha. rewrite five_parts, in_five in Ha. apply AL. right. exact Ha. }
    rewrite E2 in E. injection E as ->. split.
    + intros a. unfold live at 1. split.
      * intros [k K]. apply B2 in K. cbn [fst] in K. destruct K as [K1 K2]. rewrite five_parts, in_five in K2.
        assert (L : live h1 a) by now exists k. apply AL in L. cbn [bump h_next length] in L. destruct L as [L|L]; [exact L|contradiction].
      * intros L. assert (L1 : live h1 a) by (apply AL; left; exact L). destruct L1 as [k K]. exists k. apply B2. split; auto.
        cbn [fst]. rewrite five_parts, in_five. apply (i_liveB h I) in L. lia.
    + intros i x. unfold hasModel. rewrite B6. cbn [setSM h_models]. now rewrite F4.
Qed.

Lemma C10_ptr_ l h p ns nu gr ox co c tar : history l h -> allowed h (OpPtr p ns nu gr ox co tar) -> liveAs h co (MCoag c) ->
  exists h', doOp h (OpPtr p ns nu gr ox co tar) = Ok h' /\ h_freed h' = h_freed h /\
   forall t, (match tar with Some a => liveAs h a (MTar t) | None => t = T_NONE end) ->
    (ok (derivedCheck p ns c t) = true -> hasModel h' (h_count h)
        (mkSM nu gr ox co (match tar with Some a => a | None => h_next h end) false)) /\
    (ok (derivedCheck p ns c t) = false -> forall i x, hasModel h' i x <-> hasModel h i x).
Proof.
  intros H A Hc. pose proof (history_inv l h H) as I.
  destruct (step_main h _ I A) as (h' & E & _ & _ & F & _). exists h'. split; [exact E|]. split; [exact F|].
  inversion A as [|p' ns' nu' gr' ox' co' c' tar' HU H1 H2 H3 H4 HT| | |]. subst.
  cbn [doOp] in E. intros t Ht. destruct tar as [a|].
  - rewrite (ptr_some h p ns nu gr ox co c a t) in E by auto. injection E as <-. unfold ptrEnd.
    split; intros ->; [now left|reflexivity].
  - subst t. rewrite (ptr_none h p ns nu gr ox co c) in E by auto. injection E as <-. unfold ptrEnd.
    split; intros ->; [now left|reflexivity].
Qed.

Lemma C10_lost_ l h o h' : history l h -> allowed h o -> doOp h o = Ok h' ->
  forall a, lost h' a <-> lost h a \/ h_next h <= a < h_next h + losses o.
Proof. intros H A E. apply (step_det h o h' (history_inv l h H) A E). Qed.

(** a run of allowed operations *)
Lemma run_cons h o h1 q h2 : doOp h o = Ok h1 -> runOps h1 q = Ok h2 -> runOps h (o :: q) = Ok h2.
Proof. intros E1 E2. unfold runOps. cbn [foldM]. rewrite E1. exact E2. Qed.

Lemma C10_deleteAll_ l h id nu gr ox co ta c t : history l h -> hasModel h id (mkSM nu gr ox co ta false) ->
  (forall a, In a [nu; gr; ox; co; ta] -> In a (h_user h)) ->
  liveAs h nu MNucl -> liveAs h gr MGrow -> liveAs h ox MOxid -> liveAs h co (MCoag c) -> liveAs h ta (MTar t) ->
  exists h', runOps h (deleteAll_C id nu gr ox co ta) = Ok h' /\ history (l ++ deleteAll_C id nu gr ox co ta) h' /\
    (forall x, ~ hasModel h' id x) /\
    h_freed h' = [ta; co; ox; gr; nu] ++ h_freed h.
Proof.
  intros H HM HU L1 L2 L3 L4 L5. pose proof (history_inv l h H) as I.
  assert (ND : NoDup [nu; gr; ox; co; ta]).
  { assert (U : forall a m1 m2, liveAs h a m1 -> liveAs h a m2 -> m1 = m2).
    { intros a m1 m2 W1 W2. apply (find_live h) in W1, W2; auto. congruence. }
    repeat constructor; cbn [In]; intros Q; repeat destruct Q as [Q|Q]; subst; try contradiction;
      match goal with X : liveAs h ?a ?m, Y : liveAs h ?a ?m' |- _ => specialize (U a m m' X Y); discriminate U end. }
  destruct (C10_owner_ l h id _ H HM) as (h1 & E1 & G1 & F1 & _).
  assert (D1 : history (l ++ [OpDelModel id]) h1) by (econstructor; [exact H|econstructor; exact HM|exact E1]).
  assert (U1 : forall a, In a [nu; gr; ox; co; ta] -> In a (h_user h1)).
  { intros a Ha. eapply (C10_caller_ l h); eauto; [econstructor; exact HM|discriminate]. }
  cbn [so_newed app] in F1.
  (* deleting the caller's mechanisms one after the other *)
  assert (K : forall q l1 h1, history l1 h1 -> NoDup q -> (forall a, In a q -> In a (h_user h1)) -> (forall x, ~ hasModel h1 id x) ->
    exists h', runOps h1 (map OpDelMech q) = Ok h' /\ history (l1 ++ map OpDelMech q) h' /\ (forall x, ~ hasModel h' id x) /\
       h_freed h' = rev q ++ h_freed h1).
  { clear. induction q as [|a q IH]; intros l1 h1 H1 ND1 U1 G1.
    - exists h1. cbn [map rev app]. rewrite app_nil_r. auto.
    - assert (A : allowed h1 (OpDelMech a)) by (constructor; apply U1; now left).
      destruct (C10_safe_ l1 h1 _ H1 A) as (h2 & E & H2). inversion ND1 as [|? ? N1 N2]; subst.
      pose proof (history_inv l1 h1 H1) as I1.
      destruct (step_det h1 _ h2 I1 A E) as (_ & _ & _ & F & _). cbn [freeSpec] in F.
      destruct (IH (l1 ++ [OpDelMech a]) h2 H2 N2) as (h' & E' & H' & G' & F').
      + intros b Hb. eapply (C10_caller_ l1 h1); eauto; [apply U1; now right|]. intros Q. injection Q as ->. contradiction.
      + intros x Hx. destruct (doOp_models h1 _ h2 I1 A E) as (_ & W & _). destruct (W id x Hx) as [Q|(_ & Q & _)].
        * exact (G1 x Q).
        * specialize (Q _ (or_introl eq_refl)). inversion Q.
      + exists h'. cbn [map]. split; [eapply run_cons; eauto|]. split; [rewrite <- app_assoc in H'; exact H'|]. split; [exact G'|].
        rewrite F', F. cbn [rev]. now rewrite <- app_assoc. }
  destruct (K [nu; gr; ox; co; ta] (l ++ [OpDelModel id]) h1 D1 ND U1 G1) as (h' & E' & H' & G' & F').
  exists h'. split; [eapply run_cons; eauto|]. split; [rewrite <- app_assoc in H'; exact H'|]. split; [exact G'|].
  rewrite F', F1. reflexivity.
Qed.

(** ** C11 *)
Lemma quiet_inv a h h2 : quietFor a h h2 -> inv h -> inv h2 /\ backRef h2 a = backRef h a.
Proof.
  induction 1 as [|h o h1 h2 A N E Q IH]; intros I; auto.
  destruct (step_det h o h1 I A E) as (_ & I1 & _ & _ & _ & B & _). destruct (IH I1) as [I2 E2]. split; auto. rewrite E2. auto.
Qed.
Lemma C11_last_ l h o h' a h2 : history l h -> allowed h o -> doOp h o = Ok h' -> receives h o a -> quietFor a h' h2 ->
  backRef h2 a = Some (h_count h).
Proof.
  intros H A E R Q. destruct (step_det h o h' (history_inv l h H) A E) as (_ & I1 & _ & _ & _ & _ & B).
  destruct (quiet_inv a h' h2 Q I1) as [_ ->]. auto.
Qed.
Lemma C11_never_ a h : quietFor a heap0 h -> backRef h a = None.
Proof. intros Q. now destruct (quiet_inv a heap0 h Q inv0) as [_ ->]. Qed.

Definition refs (x : smObj) : list addr := [so_nucl x; so_grow x; so_oxid x; so_coag x] ++ (if so_newed x then [so_tar x] else []).
Lemma unshared_inv l h : unshared l h -> inv h /\ forall id x a, hasModel h id x -> In a (refs x) -> backRef h a = Some id.
Proof.
  induction 1 as [|l h o h' U [I IH] A E N].
  - split; [apply inv0|]. intros id x a [].
  - destruct (step_det h o h' I A E) as (_ & I1 & _ & _ & _ & B1 & B2). split; auto.
    intros id x a Hx Ha. destruct (doOp_models h o h' I A E) as (_ & W & _). destruct (W id x Hx) as [Q|(-> & Q1 & Q2)].
    + specialize (IH id x a Q Ha). rewrite B1; auto. intros R. apply N in R. congruence.
    + apply B2. unfold refs in Ha. apply in_app_or in Ha. destruct Ha as [Ha|Ha]; auto.
      destruct (so_newed x); [|destruct Ha]. destruct Ha as [<-|[]]. auto.
Qed.
Lemma C11_unshared_ l h id x a : unshared l h -> hasModel h id x -> In a [so_nucl x; so_grow x; so_oxid x; so_coag x] \/ (so_newed x = true /\ a = so_tar x) ->
  backRef h a = Some id.
Proof.
  intros U H Ha. destruct (unshared_inv l h U) as [_ W]. apply (W id x a H). unfold refs. apply in_or_app.
  destruct Ha as [Ha|[-> ->]]; [now left|right; now left].
Qed.

Lemma C11_shared_ l h p ns nu gr ox co c tar t : history l h -> allowed h (OpPtr p ns nu gr ox co tar) -> liveAs h co (MCoag c) ->
  (match tar with Some a => liveAs h a (MTar t) | None => t = T_NONE end) -> ok (derivedCheck p ns c t) = true ->
  exists h', doOp h (OpPtr p ns nu gr ox co tar) = Ok h' /\
    (forall id x, hasModel h id x -> hasModel h' id x) /\
    (forall a, In a [nu; gr; ox; co] -> forall (N : Num) (view : nat -> smView), seenThrough h' view a = Ok (view (h_count h))).
Proof.
  intros H A Hc Ht Ek. pose proof (history_inv l h H) as I.
  destruct (C10_ptr_ l h p ns nu gr ox co c tar H A Hc) as (h' & E & _ & W). destruct (W t Ht) as [M _]. specialize (M Ek).
  destruct (step_det h _ h' I A E) as (_ & I1 & _ & _ & _ & _ & B).
  exists h'. split; [exact E|]. split.
  - intros id x Hx. destruct (doOp_models h _ h' I A E) as (_ & _ & K & _). apply K; auto. discriminate.
  - intros a Ha N view. unfold seenThrough. rewrite B by now constructor. now rewrite (hasModel_find h' _ _ I1 M).
Qed.

Lemma C11_dangling_ l h id a : history l h -> backRef h a = Some id -> (forall x, ~ hasModel h id x) ->
  forall (N : Num) (view : nat -> smView), seenThrough h view a = UB Dangling.
Proof.
  intros H E M N view. unfold seenThrough. rewrite E. destruct (find_ id (h_models h)) eqn:F; auto.
  apply find_In in F. exfalso. exact (M _ F).
Qed.

(** ** concrete histories *)
Definition callers : list op := [OpNew MNucl; OpNew MGrow; OpNew MOxid; OpNew (MCoag C_FM); OpNew (MTar T_NONE)].
Definition enumOp : op := OpEnum P_SECT 4 N_LL G_LL O_LL C_FM T_NONE.
Definition ptrOp (p : psdMech) (ns : nat) : op := OpPtr p ns 0 1 2 3 (Some 4).

Lemma run_app l1 : forall l2 h h1, runOps h l1 = Ok h1 -> runOps h (l1 ++ l2) = runOps h1 l2.
Proof.
  unfold runOps. induction l1 as [|o q IH]; intros l2 h h1; cbn [app foldM]; [intros E; injection E as <-; auto|].
  destruct (doOp h o) as [h2| |]; cbn [bind]; try discriminate. apply IH.
Qed.

(** checking that a list of operations is a history: run it, checking each one *)
Definition allowedb (h : heap) (o : op) : bool :=
  match o with
  | OpNew _ | OpEnum _ _ _ _ _ _ _ => true
  | OpPtr _ _ nu gr ox co tar =>
      forallb (fun a => existsb (Nat.eqb a) (h_user h)) [nu; gr; ox; co] &&
      match find_ nu (h_live h), find_ gr (h_live h), find_ ox (h_live h), find_ co (h_live h) with
      | Some MNucl, Some MGrow, Some MOxid, Some (MCoag _) => true | _, _, _, _ => false end &&
      match tar with None => true | Some a => existsb (Nat.eqb a) (h_user h) &&
        match find_ a (h_live h) with Some (MTar _) => true | _ => false end end
  | OpDelModel id => match find_ id (h_models h) with Some _ => true | None => false end
  | OpDelMech a => existsb (Nat.eqb a) (h_user h)
  end.
Lemma existsb_In a l : existsb (Nat.eqb a) l = true -> In a l.
Proof. intros H. apply existsb_exists in H. destruct H as (x & H & E). apply Nat.eqb_eq in E. now subst. Qed.
Lemma allowedb_ok h o : allowedb h o = true -> allowed h o.
Proof.
  destruct o; cbn [allowedb]; intros H.
  - constructor.
  - apply andb_prop in H. destruct H as [H HT]. apply andb_prop in H. destruct H as [HU HK].
    destruct (find_ nu (h_live h)) as [[| | | |]|] eqn:E1; try discriminate.
    destruct (find_ gr (h_live h)) as [[| | | |]|] eqn:E2; try discriminate.
    destruct (find_ ox (h_live h)) as [[| | | |]|] eqn:E3; try discriminate.
    destruct (find_ co (h_live h)) as [[| | |cm|]|] eqn:E4; try discriminate.
    apply find_In in E1, E2, E3, E4. apply (al_ptr h p nsoot nu gr ox co cm); auto.
    + intros a Ha. rewrite forallb_forall in HU. apply existsb_In, HU, Ha.
    + intros a ->. apply andb_prop in HT. destruct HT as [HT1 HT2]. split; [now apply existsb_In|].
      destruct (find_ a (h_live h)) as [[| | | |tm]|] eqn:E5; try discriminate. apply find_In in E5. now exists tm.
  - constructor.
  - destruct (find_ id (h_models h)) as [x|] eqn:E; [|discriminate]. apply find_In in E. econstructor. exact E.
  - constructor. now apply existsb_In.
Qed.
Fixpoint checked (l : list op) (h : heap) : option heap :=
  match l with
  | [] => Some h
  | o :: q => if allowedb h o then match doOp h o with Ok h' => checked q h' | _ => None end else None
  end.
Lemma checked_history q : forall l h h', history l h -> checked q h = Some h' -> history (l ++ q) h'.
Proof.
  induction q as [|o q IH]; intros l h h' H; cbn [checked]; [intros E; injection E as <-; now rewrite app_nil_r|].
  destruct (allowedb h o) eqn:A; [|discriminate]. destruct (doOp h o) as [h1| |] eqn:E; try discriminate. intros C.
  change (o :: q) with ([o] ++ q). rewrite app_assoc. apply (IH (l ++ [o]) h1); auto. econstructor; eauto. now apply allowedb_ok.
Qed.
Lemma checked0 q h : checked q heap0 = Some h -> history q h.
Proof. intros E. apply (checked_history q [] heap0 h hi_nil E). Qed.
