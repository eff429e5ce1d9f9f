(** Proofs about the Fortran module (C79). *)
From Coq Require Import ZArith List Bool String Lia.
From Verif Require Import Fortran SpecFortran.
Import ListNotations.
Local Open Scope string_scope.
Local Open Scope Z_scope.

Section FortranProofs.
Context {D : Type}.
Implicit Types (st : store D) (r : cval D).

Lemma size_small z : 0 <= z < 2 ^ 31 -> z mod 2 ^ 32 + 2 ^ 32 * 0 = z.
Proof. intros H. rewrite Z.mod_small; lia. Qed.

Lemma in_b (n : string) l : In n l <-> existsb (String.eqb n) l = true.
Proof.
  rewrite existsb_exists. split.
  - intros H. exists n. split; [exact H|apply String.eqb_refl].
  - intros (x & H & E). apply String.eqb_eq in E. now subst.
Qed.

(** what the lookups of a call find *)
Definition found (w : wrapper) : option (fint * cfun) :=
  match find (fun i => String.eqb (i_name i) (w_callee w)) interfaces,
        find (fun f => String.eqb (c_name f) (w_callee w)) cFunctions with
  | Some i, Some f => Some (i, f)
  | _, _ => None
  end.
Lemma call_found pl w st r i f :
  found w = Some (i, f) ->
  callFortran pl w st r =
    match deliver pl (c_params f) (i_params i) (w_args w) (entry pl w st) with
    | Some got =>
        Some (f, got, fold_right (fun x s => put x (FvPtr 0) s)
          match i_result i, c_ret f, w_assigned w with
          | Some _, Some _, Some x => put x (ofResult r) (entry pl w st)
          | _, _, _ => entry pl w st
          end (w_nulled w))
    | None => None
    end.
Proof.
  unfold found, callFortran.
  destruct (find _ interfaces); [|discriminate]. destruct (find _ cFunctions); [|discriminate].
  intros [= -> ->]. reflexivity.
Qed.
Lemma found_in w i f : found w = Some (i, f) -> In f cFunctions.
Proof.
  unfold found. destruct (find _ interfaces); [|discriminate]. destruct (find _ cFunctions) eqn:E; [|discriminate].
  intros [= -> ->]. now apply find_some in E.
Qed.
Lemma entry_keep pl w st x : keepsOut pl = true -> entry pl w st x = st x.
Proof.
  intros K. unfold entry. destruct (find _ _) as [[[? t] j]|]; [|reflexivity].
  destruct t, j; rewrite ?K; reflexivity.
Qed.

(** a decidable version of "handed over": passing, C type and Fortran type agree *)
Definition agree (t : cty) (how : passing) (u : fty) : bool :=
  match t, how, u with
  | CObj _, Value, FPtr | CDouble, Value, FDouble | CInt, Value, FInt | CSize, Value, FInt | CEnum, Value, FInt
  | CDoubles, Array, FDoubles => true
  | _, _, _ => false
  end.
Definition dummyType (w : wrapper) (x : string) : option fty :=
  option_map (fun d => snd (fst d)) (find (fun d => String.eqb (fst (fst d)) x) (w_dummies w)).
Fixpoint agreeAll (w : wrapper) (ps : list (string * cty)) (fs : list (string * fty * passing)) (xs : list string) : bool :=
  match ps, fs, xs with
  | [], [], [] => true
  | (y, t) :: ps, (_, _, how) :: fs, x :: xs =>
      String.eqb y x && match dummyType w x with Some u => agree t how u | None => false end && agreeAll w ps fs xs
  | _, _, _ => false
  end.

Lemma dummy_typed w st x u : typedCall w st -> dummyType w x = Some u -> typed u (st x).
Proof.
  intros T. unfold dummyType. destruct (find _ _) as [[[y t] i]|] eqn:E; [|discriminate]. intros [= ->].
  apply find_some in E as [E1 E2]. cbn in E2. apply String.eqb_eq in E2. subst. exact (T _ _ _ E1).
Qed.

Lemma deliver_ok pl w st ps : forall fs xs,
  usual pl -> typedCall w st -> agreeAll w ps fs xs = true ->
  deliver pl ps fs xs (entry pl w st) = Some (map (fun p => Some (meant st (fst p))) ps).
Proof.
  induction ps as [|[y t] ps IH]; intros [|[[z u] how] fs] [|x xs] U T H; cbn [agreeAll] in H; try discriminate H;
    [reflexivity|].
  apply andb_true_iff in H as [H H3]. apply andb_true_iff in H as [H1 H2]. apply String.eqb_eq in H1. subst y.
  cbn [deliver map fst]. rewrite (IH _ _ U T H3). cbn [option_map]. do 2 f_equal.
  destruct (dummyType w x) as [v|] eqn:E; [|discriminate]. pose proof (dummy_typed _ _ _ _ T E) as Ty.
  destruct U as [K U]. unfold meant.
  destruct t, how, v; try discriminate H2; cbn [pass]; rewrite ?(entry_keep _ _ _ _ K); cbn [typed] in Ty;
    destruct (st x); try contradiction Ty; cbn [receive]; rewrite ?U, ?(size_small _ Ty); reflexivity.
Qed.

(** the decidable part of the claim, wrapper by wrapper *)
Definition bodyOk (w : wrapper) (i : fint) (f : cfun) : bool :=
  match c_body f with
  | New cls a =>
      String.eqb cls (w_name w) && (if list_eq_dec string_dec a (map fst (c_params f)) then true else false) &&
      match i_result i, c_ret f, w_assigned w, w_nulled w with
      | Some _, Some _, Some x, [] => existsb (fun d => String.eqb (fst (fst d)) x && match snd d with Out => true | _ => false end) (w_dummies w)
      | _, _, _, _ => false
      end
  | Delete a =>
      (if list_eq_dec string_dec a (w_nulled w) then true else false) &&
      match w_assigned w with None => true | _ => false end
  | Use => match w_assigned w, w_nulled w with None, [] => true | _, _ => false end
  end.
Definition nameOk (w : wrapper) (f : cfun) : bool :=
  String.eqb (c_name f) (w_name w ++ "_C_interface") || String.eqb (c_name f) (w_name w ++ "_interface").
Definition wrapperOk (w : wrapper) : bool :=
  match found w with
  | Some (i, f) => nameOk w f && bodyOk w i f && agreeAll w (c_params f) (i_params i) (w_args w)
  | None => false
  end.
Definition has (l : list string) (n : string) : bool := existsb (String.eqb n) l.

Lemma wrappers_ok : forallb (fun w => negb (has exported (w_name w)) || has garbled (w_name w) || wrapperOk w) wrappers = true.
Proof. vm_compute. reflexivity. Qed.

Lemma nulled st l : forall x, fold_right (fun x s => put x (FvPtr 0) s) st l x = if has l x then FvPtr 0 else st x.
Proof.
  induction l as [|y l IH]; intros x; [reflexivity|]. cbn [fold_right has existsb]. unfold put.
  destruct (String.eqb x y); [reflexivity|]. apply IH.
Qed.

Lemma C79_delivered_ pl w st r :
  usual pl -> In w wrappers -> In (w_name w) exported -> ~ In (w_name w) garbled -> typedCall w st ->
  exists f got st', callFortran pl w st r = Some (f, got, st') /\ In f cFunctions /\ behind (w_name w) f /\
    got = map (fun p => Some (meant st (fst p))) (c_params f) /\
    (forall x, freed f x -> st' x = FvPtr 0) /\
    (forall cls a, c_body f = New cls a ->
       cls = w_name w /\ a = map fst (c_params f) /\ exists x, output w x /\ st' x = ofResult r) /\
    (forall x, ~ freed f x -> ~ (output w x /\ exists cls a, c_body f = New cls a) -> st' x = st x).
Proof.
  intros U Hw Hx Hg T. rewrite in_b in Hx, Hg. pose proof wrappers_ok as A. rewrite forallb_forall in A.
  specialize (A _ Hw). unfold has in A. rewrite Hx in A. destruct (existsb _ garbled) eqn:EE; [exfalso; apply Hg; first [exact EE|reflexivity]|].
  cbn [negb orb] in A. unfold wrapperOk in A. destruct (found w) as [[i f]|] eqn:F; [|discriminate].
  apply andb_true_iff in A as [A A3]. apply andb_true_iff in A as [A1 A2].
  exists f. eexists. eexists. rewrite (call_found _ _ _ _ _ _ F), (deliver_ok _ _ _ _ _ _ U T A3).
  split; [reflexivity|]. split; [exact (found_in _ _ _ F)|].
  split; [apply orb_true_iff in A1; rewrite !String.eqb_eq in A1; exact A1|]. split; [reflexivity|].
  destruct U as [K _]. unfold bodyOk in A2. unfold freed. destruct (c_body f) as [cls a|a|] eqn:B.
  - apply andb_true_iff in A2 as [A2 A4]. apply andb_true_iff in A2 as [A2 A5]. apply String.eqb_eq in A2.
    destruct (list_eq_dec _ _ _) as [A6|]; [|discriminate]. clear A5.
    destruct (i_result i); [|discriminate]. destruct (c_ret f); [|discriminate].
    destruct (w_assigned w) as [x|]; [|discriminate]. destruct (w_nulled w); [|discriminate].
    assert (O : output w x).
    { apply existsb_exists in A4 as ([[y t] j] & A7 & A8). apply andb_true_iff in A8 as [A8 A9]. cbn in A8, A9.
      apply String.eqb_eq in A8. destruct j; try discriminate. subst y. exists t. exact A7. }
    split; [intros y []|]. split.
    + intros cls' a' [= <- <-]. split; [exact A2|]. split; [exact A6|]. exists x. split; [exact O|].
      cbn [fold_right]. unfold put. now rewrite String.eqb_refl.
    + intros y _ Hy. cbn [fold_right]. unfold put. destruct (String.eqb y x) eqn:E; [|now apply entry_keep].
      apply String.eqb_eq in E. subst y. exfalso. apply Hy. split; [exact O|now exists cls, a].
  - apply andb_true_iff in A2 as [A2 A4]. destruct (list_eq_dec _ _ _) as [->|]; [|discriminate].
    destruct (w_assigned w); [discriminate|].
    split; [|split; [intros ? ? [=]|]].
    + intros x Hf. rewrite nulled. apply in_b in Hf. unfold has. now rewrite Hf.
    + intros x Hf _. rewrite nulled. rewrite in_b in Hf. unfold has. destruct (existsb (String.eqb x) (w_nulled w)) eqn:E2; [now destruct Hf|].
      destruct (i_result i), (c_ret f); now apply entry_keep.
  - destruct (w_assigned w); [discriminate|]. destruct (w_nulled w); [|discriminate].
    split; [intros x []|]. split; [intros ? ? [=]|]. intros x _ _. cbn [fold_right].
    destruct (i_result i), (c_ret f); now apply entry_keep.
Qed.

(** ** the others *)
Definition clash (t : cty) (how : passing) (u : fty) : bool :=
  match t, how, u with
  | CVector, _, _ | CObj _, Reference, _ | CEnum, Reference, _ | CEnum, Value, FPtr => true
  | _, _, _ => false
  end.
Fixpoint clashSome (w : wrapper) (ps : list (string * cty)) (fs : list (string * fty * passing)) (xs : list string) : bool :=
  match ps, fs, xs with
  | (y, t) :: ps, (_, _, how) :: fs, x :: xs =>
      match dummyType w x with Some u => clash t how u | None => false end || clashSome w ps fs xs
  | _, _, _ => false
  end.
Fixpoint sameLength (ps : list (string * cty)) (fs : list (string * fty * passing)) (xs : list string) : bool :=
  match ps, fs, xs with
  | [], [], [] => true
  | _ :: ps, _ :: fs, _ :: xs => sameLength ps fs xs
  | _, _, _ => false
  end.
Lemma deliver_some pl st ps : forall fs xs, sameLength ps fs xs = true -> exists got, deliver pl ps fs xs st = Some got.
Proof.
  induction ps as [|[y t] ps IH]; intros [|[[z u] how] fs] [|x xs] H; cbn [sameLength] in H; try discriminate H;
    [now exists []|].
  destruct (IH _ _ H) as [got E]. cbn [deliver]. rewrite E. cbn [option_map]. eexists. reflexivity.
Qed.
Lemma entry_typed pl w st x u : typedCall w st -> dummyType w x = Some u -> entry pl w st x = FvUndef \/ typed u (entry pl w st x).
Proof.
  intros T E. pose proof (dummy_typed _ _ _ _ T E) as Ty. unfold entry.
  destruct (find _ _) as [[[? t] j]|]; [|now right]. destruct t, j, (keepsOut pl); auto.
Qed.
Lemma clash_none pl w st t how u x :
  typedCall w st -> dummyType w x = Some u -> clash t how u = true -> receive pl t (pass how x (entry pl w st)) = None.
Proof.
  intros T E A. destruct (entry_typed pl _ _ _ _ T E) as [Ty|Ty]; destruct t, how; try discriminate A; cbn [pass receive];
    try reflexivity; rewrite ?Ty; try reflexivity; destruct u; try discriminate A; destruct (entry pl w st x); try contradiction Ty; reflexivity.
Qed.
Lemma deliver_bad pl w st ps : forall fs xs got,
  typedCall w st -> clashSome w ps fs xs = true -> deliver pl ps fs xs (entry pl w st) = Some got -> In None got.
Proof.
  induction ps as [|[y t] ps IH]; intros [|[[z u] how] fs] [|x xs] got T H; cbn [clashSome] in H; try discriminate H.
  cbn [deliver]. destruct (deliver pl ps fs xs _) as [g|] eqn:E; [|discriminate]. cbn [option_map]. intros [= <-].
  apply orb_true_iff in H as [H|H].
  - left. destruct (dummyType w x) as [v|] eqn:V; [|discriminate]. exact (clash_none _ _ _ _ _ _ _ T V H).
  - right. exact (IH _ _ _ T H E).
Qed.

Definition garbles (w : wrapper) : bool :=
  match found w with
  | Some (i, f) => sameLength (c_params f) (i_params i) (w_args w) && clashSome w (c_params f) (i_params i) (w_args w)
  | None => false
  end.
Lemma garbled_all : forallb (fun w => negb (has garbled (w_name w)) || garbles w) wrappers = true.
Proof. vm_compute. reflexivity. Qed.

Lemma C79_garbled_ pl w st r :
  In w wrappers -> In (w_name w) garbled -> typedCall w st ->
  exists f got st', callFortran pl w st r = Some (f, got, st') /\ In None got.
Proof.
  intros Hw Hg T. pose proof garbled_all as A. rewrite forallb_forall in A. specialize (A _ Hw).
  apply in_b in Hg. unfold has in A. rewrite Hg in A. cbn [negb orb] in A. unfold garbles in A.
  destruct (found w) as [[i f]|] eqn:F; [|discriminate]. apply andb_true_iff in A as [A1 A2].
  destruct (deliver_some pl (entry pl w st) _ _ _ A1) as [got E].
  exists f, got. eexists. rewrite (call_found _ _ _ _ _ _ F), E. split; [reflexivity|].
  exact (deliver_bad _ _ _ _ _ _ _ T A2 E).
Qed.

Definition loses (w : wrapper) : bool :=
  match found w with
  | Some (i, f) =>
      sameLength (c_params f) (i_params i) (w_args w) &&
      match c_ret f, i_result i, w_nulled w with Some CDouble, None, [] => true | _, _, _ => false end
  | None => false
  end.
Lemma lost_all : forallb (fun w => negb (has lost (w_name w)) || loses w) wrappers = true.
Proof. vm_compute. reflexivity. Qed.

Lemma C79_lost_ pl w st :
  keepsOut pl = true -> In w wrappers -> In (w_name w) lost ->
  exists f got, c_ret f = Some CDouble /\ forall r, exists st', callFortran pl w st r = Some (f, got, st') /\ forall x, st' x = st x.
Proof.
  intros K Hw Hg. pose proof lost_all as A. rewrite forallb_forall in A. specialize (A _ Hw).
  apply in_b in Hg. unfold has in A. rewrite Hg in A. cbn [negb orb] in A. unfold loses in A.
  destruct (found w) as [[i f]|] eqn:F; [|discriminate]. apply andb_true_iff in A as [A1 A2].
  destruct (deliver_some pl (entry pl w st) _ _ _ A1) as [got E].
  destruct (c_ret f) as [[]|] eqn:Hr; try discriminate A2. destruct (i_result i) eqn:Hi; [discriminate|].
  destruct (w_nulled w) eqn:Hn; [|discriminate].
  exists f, got. split; [exact Hr|]. intros r. eexists. rewrite (call_found _ _ _ _ _ _ F), E, Hi, Hn.
  split; [reflexivity|]. intros x. cbn [fold_right]. now apply entry_keep.
Qed.

(** every other exported routine hands its C function's result back *)
Definition returns (w : wrapper) : bool :=
  match found w with
  | Some (i, f) => match c_ret f, c_body f with None, _ | Some _, New _ _ => true | _, _ => false end
  | None => false
  end.
Lemma returns_all : forallb (fun w => has lost (w_name w) || returns w) wrappers = true.
Proof. vm_compute. reflexivity. Qed.
Lemma C79_returned_ pl w st r f got st' :
  usual pl -> In w wrappers -> In (w_name w) exported -> ~ In (w_name w) garbled -> ~ In (w_name w) lost -> typedCall w st ->
  callFortran pl w st r = Some (f, got, st') -> c_ret f <> None -> exists x, output w x /\ st' x = ofResult r.
Proof.
  intros U Hw Hx Hg Hl T E Hr.
  destruct (C79_delivered_ pl w st r U Hw Hx Hg T) as (f' & got' & st'' & E' & _ & _ & _ & _ & N & _).
  rewrite E in E'. injection E' as <- <- <-. pose proof returns_all as A. rewrite forallb_forall in A. specialize (A _ Hw).
  rewrite in_b in Hl. unfold has in A. destruct (existsb _ lost) eqn:EE; [exfalso; apply Hl; first [exact EE|reflexivity]|]. cbn [orb] in A.
  unfold returns in A. destruct (found w) as [[i f']|] eqn:F; [|discriminate].
  rewrite (call_found _ _ _ _ _ _ F) in E. destruct (deliver _ _ _ _ _); [|discriminate]. injection E as -> _ _.
  destruct (c_ret f); [|now destruct Hr]. destruct (c_body f) as [cls a| |] eqn:B; try discriminate.
  exact (proj2 (proj2 (N _ _ eq_refl))).
Qed.

(** ** the exported names *)
Lemma C79_exported_ f :
  In f cFunctions -> c_name f <> "tarModel_AJ_RED_C_interface" ->
  exists w, In w wrappers /\ In (w_name w) exported /\ w_callee w = c_name f.
Proof.
  intros Hf Hn.
  assert (A : forallb (fun f => String.eqb (c_name f) "tarModel_AJ_RED_C_interface" ||
    existsb (fun w => has exported (w_name w) && String.eqb (w_callee w) (c_name f)) wrappers) cFunctions = true)
    by (vm_compute; reflexivity).
  rewrite forallb_forall in A. specialize (A _ Hf). apply orb_true_iff in A as [A|A].
  - apply String.eqb_eq in A. now destruct Hn.
  - apply existsb_exists in A as (w & Hw & A). apply andb_true_iff in A as [A1 A2]. exists w.
    split; [exact Hw|]. split; [now apply in_b|now apply String.eqb_eq].
Qed.
Lemma C79_hidden_ pl w st r f got st' args :
  In w wrappers -> In (w_name w) exported -> callFortran pl w st r = Some (f, got, st') ->
  c_body f <> New "tarModel_AJ_RED" args.
Proof.
  intros Hw Hx E.
  assert (A : forallb (fun w => negb (has exported (w_name w)) || match found w with
     | Some (_, f) => match c_body f with New c _ => negb (String.eqb c "tarModel_AJ_RED") | _ => true end
     | None => true end) wrappers = true) by (vm_compute; reflexivity).
  rewrite forallb_forall in A. specialize (A _ Hw). apply in_b in Hx. unfold has in A. rewrite Hx in A. cbn [negb orb] in A.
  destruct (found w) as [[i f']|] eqn:F.
  - rewrite (call_found _ _ _ _ _ _ F) in E. destruct (deliver _ _ _ _ _); [|discriminate]. injection E as -> _ _.
    intros B. rewrite B in A. rewrite String.eqb_refl in A. discriminate.
  - exfalso. unfold found in F. unfold callFortran in E.
    destruct (find _ interfaces); [|discriminate]. destruct (find _ cFunctions); discriminate.
Qed.

(** ** platforms *)
Lemma C79_source_terms_ pl w st r :
  keepsOut pl = false -> In w wrappers -> w_name w = "setSourceTerms" -> typedCall w st ->
  exists f got st', callFortran pl w st r = Some (f, got, st') /\ nth_error got 0 = Some None.
Proof.
  intros K Hw Hn _.
  assert (A : forallb (fun w => negb (String.eqb (w_name w) "setSourceTerms") ||
     match found w with
     | Some (i, f) =>
         match c_params f, i_params i, w_args w with
         | (_, CObj _) :: ps, (_, _, Value) :: fs, x :: xs =>
             sameLength ps fs xs &&
             match find (fun d => String.eqb (fst (fst d)) x) (w_dummies w) with
             | Some (_, FPtr, Out) => true | _ => false end
         | _, _, _ => false end
     | None => false end) wrappers = true) by (vm_compute; reflexivity).
  rewrite forallb_forall in A. specialize (A _ Hw). rewrite Hn, String.eqb_refl in A. cbn [negb orb] in A.
  destruct (found w) as [[i f]|] eqn:F; [|discriminate].
  destruct (c_params f) as [|[y t] ps] eqn:P; [discriminate|]. destruct t; try discriminate A.
  destruct (i_params i) as [|[[z u] how] fs] eqn:Q; [discriminate|]. destruct how; try discriminate A.
  destruct (w_args w) as [|x xs] eqn:X; [discriminate|]. apply andb_true_iff in A as [A1 A2].
  destruct (deliver_some pl (entry pl w st) _ _ _ A1) as [got E].
  exists f. eexists. eexists. rewrite (call_found _ _ _ _ _ _ F), P, Q, X. cbn [deliver]. rewrite E. cbn [option_map].
  split; [reflexivity|]. cbn [nth_error]. f_equal. cbn [pass]. unfold entry.
  destruct (find _ (w_dummies w)) as [[[? t] j]|]; [|discriminate]. destruct t, j; try discriminate A2. rewrite K. reflexivity.
Qed.

Lemma deliver_count pl w st ps : forall fs xs got k x,
  keepsOut pl = true -> typedCall w st -> agreeAll w ps fs xs = true ->
  deliver pl ps fs xs (entry pl w st) = Some got -> nth_error ps k = Some (x, CSize) ->
  exists z, st x = FvInt z /\ nth_error got k = Some (Some (CvInt (z + 2 ^ 32 * upperHalf pl))).
Proof.
  induction ps as [|[y t] ps IH]; intros [|[[z u] how] fs] [|v xs] got k x K T H; cbn [agreeAll] in H; try discriminate H.
  - intros _ E. destruct k; discriminate E.
  - apply andb_true_iff in H as [H H3]. apply andb_true_iff in H as [H1 H2]. apply String.eqb_eq in H1. subst y.
    cbn [deliver]. destruct (deliver pl ps fs xs _) as [g|] eqn:E; [|discriminate]. cbn [option_map]. intros [= <-].
    destruct k as [|k]; cbn [nth_error]; [|exact (IH _ _ _ _ _ K T H3 E)].
    intros [= -> ->]. destruct (dummyType w x) as [v|] eqn:V; [|discriminate]. destruct how, v; try discriminate H2.
    pose proof (dummy_typed _ _ _ _ T V) as Ty. cbn [typed] in Ty. cbn [pass]. rewrite (entry_keep _ _ _ _ K).
    destruct (st x) as [| |n| | |]; try contradiction Ty. exists n. split; [reflexivity|]. cbn [receive].
    rewrite Z.mod_small by lia. reflexivity.
Qed.
Lemma C79_count_ pl w st r f got st' k x :
  keepsOut pl = true -> In w wrappers -> In (w_name w) exported -> ~ In (w_name w) garbled -> typedCall w st ->
  callFortran pl w st r = Some (f, got, st') -> nth_error (c_params f) k = Some (x, CSize) ->
  exists z, st x = FvInt z /\ nth_error got k = Some (Some (CvInt (z + 2 ^ 32 * upperHalf pl))).
Proof.
  intros K Hw Hx Hg T E Hk. rewrite in_b in Hx, Hg. pose proof wrappers_ok as A. rewrite forallb_forall in A.
  specialize (A _ Hw). unfold has in A. rewrite Hx in A.
  destruct (existsb _ garbled) eqn:EE; [exfalso; apply Hg; first [exact EE|reflexivity]|].
  cbn [negb orb] in A. unfold wrapperOk in A. destruct (found w) as [[i f']|] eqn:F; [|discriminate].
  apply andb_true_iff in A as [A A3]. rewrite (call_found _ _ _ _ _ _ F) in E.
  destruct (deliver _ _ _ _ _) as [g|] eqn:G; [|discriminate]. injection E as -> -> _.
  exact (deliver_count _ _ _ _ _ _ _ _ _ K T A3 G Hk).
Qed.
End FortranProofs.

(** ** concrete calls *)
Definition someCall : store Z := fun x =>
  if has ["T_"; "P_"; "rhoGas_"; "muGas_"; "cMin_"] x then FvDouble 1
  else if has ["yGas_"; "yPAH_"; "sootVar_"; "tarVar_"] x then FvDoubles [1; 2]
  else if has ["nsoot_"; "Ntar_"] x then FvInt 2 else FvPtr 7.
Definition plainPlat := mkPlat true 0.
Definition otherPlat := mkPlat true 1.
Definition wrapperOf (n : string) : option wrapper := find (fun w => String.eqb (w_name w) n) wrappers.
Fixpoint typedAll (l : list (string * fty * intent)) (st : store Z) : bool :=
  match l with
  | [] => true
  | (x, t, _) :: l =>
      match t, st x with
      | FPtr, FvPtr _ | FDouble, FvDouble _ | FChar, FvChar _ | FDoubles, FvDoubles _ => true
      | FInt, FvInt z => (0 <=? z) && (z <? 2 ^ 31)
      | _, _ => false
      end && typedAll l st
  end.
Lemma typed_of w (st : store Z) : typedAll (w_dummies w) st = true -> typedCall w st.
Proof.
  unfold typedCall. induction (w_dummies w) as [|[[x t] i] l IH]; intros H y u j Hj; [destruct Hj|].
  cbn [typedAll] in H. apply andb_true_iff in H as [H1 H2]. destruct Hj as [[= -> -> ->]|Hj]; [|exact (IH H2 y u j Hj)].
  destruct u, (st y); try discriminate H1; cbn [typed]; try exact I. lia.
Qed.
Lemma case_of n w : wrapperOf n = Some w -> In w wrappers /\ w_name w = n.
Proof. unfold wrapperOf. intros H. apply find_some in H as [H1 H2]. now apply String.eqb_eq in H2. Qed.

Ltac call n := destruct (wrapperOf n) as [w|] eqn:W; [|vm_compute in W; discriminate W];
  exists w, someCall; destruct (case_of _ _ W) as [W1 W2];
  split; [exact W1|]; split; [exact W2|]; vm_compute in W; injection W as <-;
  split; [apply typed_of; vm_compute; reflexivity|].

Lemma C79_case_ : exists w (st : store Z), In w wrappers /\ w_name w = "setState" /\ typedCall w st /\
  In (w_name w) exported /\ ~ In (w_name w) garbled /\ usual plainPlat /\
  exists f st', callFortran plainPlat w st (CvPtr 0) =
    Some (f, map Some [CvPtr 7; CvDouble 1; CvDouble 1; CvDouble 1; CvDouble 1; CvArray "yGas_"; CvArray "yPAH_";
                       CvArray "sootVar_"; CvInt 2; CvArray "tarVar_"; CvInt 2; CvDouble 1], st').
Proof.
  call "setState". split; [apply in_b; vm_compute; reflexivity|].
  split; [rewrite in_b; vm_compute; discriminate|]. split; [split; reflexivity|].
  eexists. eexists. vm_compute. reflexivity.
Qed.

(** the counts of a model's constructor *)
Lemma C79_count_case_ : exists pl w (st : store Z) f st', keepsOut pl = true /\ In w wrappers /\ w_name w = "sootModel_MONO" /\
  typedCall w st /\ In (w_name w) exported /\ ~ In (w_name w) garbled /\
  st "nsoot_" = FvInt 2 /\ exists got, callFortran pl w st (CvPtr 9) = Some (f, got, st') /\
  nth_error (c_params f) 0 = Some ("nsoot_", CSize) /\ nth_error got 0 = Some (Some (CvInt 4294967298)).
Proof.
  exists otherPlat. assert (H : exists w (st : store Z), In w wrappers /\ w_name w = "sootModel_MONO" /\ typedCall w st /\
    In (w_name w) exported /\ ~ In (w_name w) garbled /\ st "nsoot_" = FvInt 2 /\ exists f got st',
      callFortran otherPlat w st (CvPtr 9) = Some (f, got, st') /\
      nth_error (c_params f) 0 = Some ("nsoot_", CSize) /\ nth_error got 0 = Some (Some (CvInt 4294967298))).
  { call "sootModel_MONO". split; [apply in_b; vm_compute; reflexivity|].
    split; [rewrite in_b; vm_compute; discriminate|]. split; [reflexivity|].
    eexists. eexists. eexists. split; [vm_compute; reflexivity|]. split; reflexivity. }
  destruct H as (w & st & H1 & H2 & H3 & H4 & H5 & H6 & f & got & st' & E & H7 & H8).
  exists w, st, f, st'. repeat (split; [assumption || reflexivity|]). exists got. auto.
Qed.

Lemma C79_tar_case_ : exists w (st : store Z), In w wrappers /\ w_name w = "tar_delete" /\ typedCall w st /\
  In (w_name w) exported /\ In (w_name w) garbled /\
  exists f st', c_body f = Delete ["tar_ptr"] /\ callFortran plainPlat w st (CvPtr 0) = Some (f, [None], st').
Proof.
  call "tar_delete". split; [apply in_b; vm_compute; reflexivity|]. split; [apply in_b; vm_compute; reflexivity|].
  eexists. eexists. split; [|vm_compute; reflexivity]. reflexivity.
Qed.

Lemma C79_lost_case_ : exists w (st : store Z), In w wrappers /\ w_name w = "get_T" /\ typedCall w st /\
  In (w_name w) exported /\ In (w_name w) lost.
Proof. call "get_T". split; apply in_b; vm_compute; reflexivity. Qed.

Lemma C79_source_case_ : exists w (st : store Z), In w wrappers /\ w_name w = "setSourceTerms" /\ typedCall w st /\
  In (w_name w) exported /\ keepsOut (mkPlat false 0) = false.
Proof. call "setSourceTerms". split; [apply in_b; vm_compute|]; reflexivity. Qed.

(** *** any compiler: no scalar intent(out) dummy is passed on *)
Definition keepsAlways (w : wrapper) (x : string) : bool :=
  match find (fun d => String.eqb (fst (fst d)) x) (w_dummies w) with
  | Some (_, FDoubles, _) => true
  | Some (_, _, Out) => false
  | _ => true
  end.
Lemma entry_always {D} pl w (st : store D) x : keepsAlways w x = true -> entry pl w st x = st x.
Proof. unfold keepsAlways, entry. destruct (find _ _) as [[[? t] j]|]; [|reflexivity]. destruct t, j; try discriminate; reflexivity. Qed.
Lemma outs_ok : forallb (fun w => negb (has exported (w_name w)) || has garbled (w_name w) || has outPassed (w_name w) || forallb (keepsAlways w) (w_args w)) wrappers = true.
Proof. vm_compute. reflexivity. Qed.
Lemma deliver_any {D} pl w (st : store D) ps : forall fs xs, forallb (keepsAlways w) xs = true ->
  upperHalf pl = 0 -> typedCall w st -> agreeAll w ps fs xs = true ->
  deliver pl ps fs xs (entry pl w st) = Some (map (fun p => Some (meant st (fst p))) ps).
Proof.
  induction ps as [|[y t] ps IH]; intros [|[[z u] how] fs] [|x xs] K U T H; cbn [agreeAll] in H; try discriminate H; [reflexivity|].
  apply andb_true_iff in H as [H H3]. apply andb_true_iff in H as [H1 H2]. apply String.eqb_eq in H1. subst y.
  cbn [forallb] in K. apply andb_true_iff in K as [K1 K2].
  cbn [deliver map fst]. rewrite (IH _ _ K2 U T H3). cbn [option_map]. do 2 f_equal.
  destruct (dummyType w x) as [v|] eqn:E; [|discriminate]. pose proof (dummy_typed _ _ _ _ T E) as Ty. unfold meant.
  destruct t, how, v; try discriminate H2; cbn [pass]; rewrite ?(entry_always _ _ _ _ K1); cbn [typed] in Ty;
    destruct (st x); try contradiction Ty; cbn [receive]; rewrite ?U, ?(size_small _ Ty); reflexivity.
Qed.
Lemma C79_any_ {D} pl w (st : store D) r :
  upperHalf pl = 0 -> In w wrappers -> In (w_name w) exported -> ~ In (w_name w) garbled -> ~ In (w_name w) outPassed -> typedCall w st ->
  exists f st', callFortran pl w st r = Some (f, map (fun p => Some (meant st (fst p))) (c_params f), st') /\ In f cFunctions /\ behind (w_name w) f.
Proof.
  intros U Hw Hx Hg Ho T. rewrite in_b in Hx, Hg, Ho. pose proof wrappers_ok as A. rewrite forallb_forall in A. pose proof outs_ok as B. rewrite forallb_forall in B.
  specialize (A _ Hw). specialize (B _ Hw). unfold has in A, B. rewrite Hx in A, B.
  destruct (existsb _ garbled) eqn:EE; [exfalso; apply Hg; first [exact EE|reflexivity]|]. destruct (existsb _ outPassed) eqn:EO; [exfalso; apply Ho; first [exact EO|reflexivity]|].
  cbn [negb orb] in A, B. unfold wrapperOk in A. destruct (found w) as [[i f]|] eqn:F; [|discriminate].
  apply andb_true_iff in A as [A A3]. apply andb_true_iff in A as [A1 A2].
  exists f. eexists. rewrite (call_found _ _ _ _ _ _ F), (deliver_any _ _ _ _ _ _ B U T A3).
  split; [reflexivity|]. split; [exact (found_in _ _ _ F)|]. apply orb_true_iff in A1; rewrite !String.eqb_eq in A1; exact A1.
Qed.
Lemma C79_outs_ {D} pl w (st : store D) r :
  keepsOut pl = false -> In w wrappers -> In (w_name w) outPassed -> typedCall w st ->
  exists f got st', callFortran pl w st r = Some (f, got, st') /\ nth_error got 0 = Some None.
Proof.
  intros K Hw Ho T. assert (C : forallb (fun w => negb (has outPassed (w_name w)) ||
    match found w with
    | Some (i, f) => match c_params f, i_params i, w_args w with
        | (_, CObj _) :: _, (_, _, Value) :: _, x :: _ => negb (keepsAlways w x) && agreeAll w (c_params f) (i_params i) (w_args w) | _, _, _ => false end
    | None => false end) wrappers = true) by (vm_compute; reflexivity).
  rewrite forallb_forall in C. specialize (C _ Hw). rewrite in_b in Ho. unfold has in C. rewrite Ho in C. cbn [negb orb] in C.
  destruct (found w) as [[i f]|] eqn:F; [|discriminate]. 
  assert (L : forall ps fs xs (s : store D), agreeAll w ps fs xs = true -> exists got, deliver pl ps fs xs s = Some got).
  { induction ps as [|[y t] ps IH]; intros [|[[z u] how] fs] [|x xs] s H; cbn [agreeAll] in H; try discriminate H; [eexists; reflexivity|].
    apply andb_true_iff in H as [H H3]. destruct (IH _ _ s H3) as (got & E). cbn [deliver]. rewrite E. eexists; reflexivity. }
  rewrite (call_found _ _ _ _ _ _ F). destruct (c_params f) as [|[y [] ] ps]; try discriminate. destruct (i_params i) as [|[[z u] []] fs]; try discriminate. destruct (w_args w) as [|x xs]; [discriminate|].
  apply andb_true_iff in C as [C1 C2]. cbn [agreeAll] in C2. apply andb_true_iff in C2 as [C2 C3]. cbn [deliver]. destruct (L ps fs xs (entry pl w st) C3) as (got & E). rewrite E. cbn [option_map].
  exists f. eexists. eexists. split; [reflexivity|]. cbn [nth_error pass].
  assert (EN : entry pl w st x = FvUndef). { unfold keepsAlways in C1. unfold entry. destruct (find _ _) as [[[? t] j]|]; [|discriminate]. destruct t, j; try discriminate; rewrite K; reflexivity. }
  rewrite EN. reflexivity.
Qed.
