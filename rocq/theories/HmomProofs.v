(** Every call of the hybrid model, and of the interpolative model with eight moments, leaves its tables. *)
From Coq Require Import ZArith List Bool Lia.
From Verif Require Import Num Defs State Binomial Coag Nucl Growth Oxid Tar SootModel Mono Logn Qmom Momic Sect Hmom Calls StateProofs.
Import ListNotations.

(** no exception, and no undefined behaviour but a read or write outside a vector *)
Definition oob {A} (r : res A) (Q : A -> Prop) : Prop :=
  match r with Ok a => Q a | UB OutOfBounds => True | _ => False end.
Notation any := (fun _ => True).
Lemma oob_seq {A B} (r : res A) (f : A -> res B) P Q : oob r P -> (forall a, P a -> oob (f a) Q) -> oob (bind r f) Q.
Proof. destruct r as [| |u]; cbn; auto. Qed.
Lemma oob_mono {A} (r : res A) (P Q : A -> Prop) : oob r P -> (forall a, P a -> Q a) -> oob r Q.
Proof. destruct r as [| |u]; cbn; auto. Qed.
Lemma oob_vget {A} (v : list A) i : oob (vget v i) any. Proof. unfold vget. destruct (nth_error v i); exact I. Qed.
Lemma oob_vgetZ {A} (v : list A) i : oob (vgetZ v i) any. Proof. unfold vgetZ. destruct (i <? 0)%Z; [exact I|apply oob_vget]. Qed.
Lemma oob_foldM {A S} (f : S -> A -> res S) l : (forall s a, oob (f s a) any) -> forall s, oob (foldM f l s) any.
Proof. intros H. induction l as [|a l IH]; intros s; [exact I|]. cbn [foldM]. eapply oob_seq; [apply H|]. auto. Qed.
Lemma oob_mapM {A B} (f : A -> res B) l : (forall a, oob (f a) any) -> oob (mapM f l) any.
Proof. intros H. induction l as [|a l IH]; [exact I|]. cbn [mapM]. eapply oob_seq; [apply H|]. intros x _. eapply oob_seq; [exact IH|]. intros; exact I. Qed.
Lemma oob_never {A} (r : res A) : oob r (fun _ => False) -> r = UB OutOfBounds.
Proof. destruct r as [| |u]; cbn; try contradiction. destruct u; try contradiction. reflexivity. Qed.

Ltac rd := eapply oob_seq; [first [apply oob_vget | apply oob_vgetZ]|intros ? _].
Section S.
Context {N : Num}.
Lemma oob_gasC s sp : oob (getGasSpC (N:=N) s sp) any. Proof. unfold getGasSpC. rd. exact I. Qed.
Lemma oob_gasP s sp : oob (getGasSpP (N:=N) s sp) any. Proof. unfold getGasSpP. rd. exact I. Qed.
Ltac gc := eapply oob_seq; [first [apply oob_gasC | apply oob_gasP]|intros ? _].
Lemma oob_M01 v s : oob (getM01 (N:=N) v s) any.
Proof.
  unfold getM01, get_M0_sectional, get_M1_sectional. destruct (sv_psd v); try (rd; rd; exact I).
  eapply oob_seq; [apply oob_foldM; intros; rd; exact I|]. intros ? _. eapply oob_seq; [apply oob_foldM; intros; rd; rd; exact I|]. intros; exact I.
Qed.
Lemma oob_hacaM01 v s : oob (hacaM01 (N:=N) v s) any.
Proof. unfold hacaM01. rd. rd. destruct (sv_psd v); try exact I. destruct (_ <? 0)%Z; [exact I|]. apply oob_foldM. intros. rd. rd. exact I. Qed.
Lemma oob_sites s : oob (hacaSites (N:=N) s) any. Proof. unfold hacaSites. do 6 gc. exact I. Qed.
Lemma oob_grow g v s : oob (growRate (N:=N) g v s) any.
Proof.
  unfold growRate. destruct (gr_class g); try exact I.
  - unfold growLL. eapply oob_seq; [apply oob_M01|]. intros (? & ?) _. destruct (ngtb _ _); [gc|]; exact I.
  - unfold growLIN. gc. exact I.
  - unfold growHACA. eapply oob_seq; [apply oob_hacaM01|]. intros (? & ?) _. eapply oob_seq; [apply oob_sites|]. intros ((? & ?) & ?) _. exact I.
  - unfold growMB. eapply oob_seq; [apply oob_M01|]. intros (? & ?) _. destruct (ngtb _ _); [gc|]; exact I.
  - unfold growFAIR. eapply oob_seq; [apply oob_M01|]. intros (? & ?) _. destruct (ngtb _ _); [gc|]; exact I.
Qed.
Lemma oob_neoh e s : oob (neohOH (N:=N) e s) any. Proof. unfold neohOH. gc. exact I. Qed.
Ltac nc := eapply oob_seq; [apply oob_neoh|intros ? _].
Lemma oob_oxid o v s : oob (oxidRate (N:=N) o v s) any.
Proof.
  unfold oxidRate. destruct (ox_class o); try exact I.
  - unfold oxidLL. gc. exact I.
  - unfold oxidLEE_NEOH. gc. nc. exact I.
  - unfold oxidMB. eapply oob_seq; [apply oob_M01|]. intros ? _. gc. exact I.
  - unfold oxidFAIR. gc. exact I.
  - unfold oxidNSC_NEOH. gc. gc. exact I.
  - unfold oxidHACA. eapply oob_seq; [apply oob_M01|]. intros (? & ?) _. eapply oob_seq; [apply oob_sites|]. intros ((? & ?) & ?) _. nc. exact I.
  - unfold oxidAJ_RED. gc. gc. exact I.
  - unfold oxidBROWN. gc. exact I.
  - unfold oxidOPTJ. gc. nc. exact I.
  - unfold oxidOPTG. gc. nc. exact I.
Qed.
Lemma oob_collSum co s mD : oob (collSum (N:=N) co s mD) any.
Proof. unfold collSum. eapply oob_seq; [apply oob_foldM; intros; rd; rd; exact I|]. intros; exact I. Qed.
Lemma oob_nucl coll nu s : (forall s' x, oob (coll s' x) any) -> oob (nuclRate (N:=N) coll nu s) any.
Proof.
  intros H. unfold nuclRate. destruct (nu_class nu); try exact I.
  all: try solve [apply (oob_seq _ _ any any); [unfold nuclLL, nuclLIN, nuclLINA1, nuclMB, nuclFAIR, nuclAJ_RED, nuclBROWN; repeat first [exact I|gc|rd]|intros; exact I]].
  apply (oob_seq _ _ any any); [|intros (((? & ?) & ?) & ?) _; exact I]. unfold nuclPAH.
  eapply oob_seq; [unfold pahLoop; apply oob_foldM; intros a sp; unfold pahStep, pahNdot; eapply oob_seq; [rd; instantiate (1 := any); exact I|intros; exact I]|].
  intros a _. cbv beta zeta. eapply oob_seq; [apply H|]. intros (? & ?) _. exact I.
Qed.
(** class and members that nucleation keeps *)
Lemma oob_chem coll m s : (forall s' x, oob (coll s' x) any) ->
  oob (chemRates (N:=N) coll m s) (fun '(_, _, _, m', _) => sm_coag m' = sm_coag m).
Proof.
  intros H. unfold chemRates, runNucl. eapply oob_seq.
  { instantiate (1 := fun '(_, m', _) => sm_coag m' = sm_coag m). eapply oob_seq; [now apply oob_nucl|]. intros (((j & nu) & s') & e) _. cbn.
    unfold storeNucl. destruct m as [? ? ? ? ? ? ? ? ? ? ? p]; destruct p; destruct e as [[|? [|? ?]]|]; reflexivity. }
  intros ((j & m') & s') E. eapply oob_seq; [apply oob_grow|]. intros ? _. eapply oob_seq; [apply oob_oxid|]. intros ? _. exact E.
Qed.

Lemma setMoments_oob np nq d M : oob (setMoments (N:=N) np nq d M) any.
Proof.
  unfold setMoments, set_diffTable, fillFrac. eapply oob_seq; [eapply oob_seq; [apply oob_mapM; intros; rd; exact I|intros; instantiate (1 := any); exact I]|]. intros ? _.
  rd. eapply oob_seq; [destruct (Nat.ltb _ _); [|instantiate (1 := any)]; exact I|]. intros ? _. rd.
  eapply oob_seq; [destruct (Nat.ltb _ _); [|instantiate (1 := any)]; exact I|]. intros ? _. exact I.
Qed.
(** eight moments: np has eight entries *)
Lemma setMoments8 d M : id_Nmom d = 8%nat -> setMoments (N:=N) npMOMIC nqMOMIC d M = UB OutOfBounds.
Proof.
  intros E. apply oob_never. unfold setMoments, set_diffTable. rewrite E.
  eapply oob_seq; [eapply oob_seq; [apply oob_mapM; intros; rd; exact I|intros; instantiate (1 := any); exact I]|]. intros ? _. exact I.
Qed.
Lemma bracket_oob m c p k : oob (contBracket (N:=N) m c p k) any. Proof. unfold contBracket. do 4 rd. exact I. Qed.
Lemma fold_oob (l : list (res num)) r : oob r any -> (forall x, In x l -> oob x any) -> oob (fold_left radd l r) any.
Proof.
  revert r. induction l as [|x l IH]; intros r Hr H; [exact Hr|]. cbn [fold_left]. apply IH; [|intros; apply H; now right].
  unfold radd, lift2. eapply oob_seq; [exact Hr|]. intros ? _. eapply oob_seq; [apply H; now left|]. intros; exact I.
Qed.
Lemma gterms_oob m q y l : oob (gterms (N:=N) m q y l) any.
Proof.
  unfold gterms, sumR. destruct l as [|((c & u) & v) l]; [exact I|]. cbn [map]. apply fold_oob; [rd; exact I|].
  intros r Hr. apply in_map_iff in Hr. destruct Hr as (((c' & u') & v') & <- & _). rd. exact I.
Qed.
Lemma g_grid_oob m q y : oob (g_grid (N:=N) m q y) any.
Proof.
  unfold g_grid, half. eapply oob_seq; [apply gterms_oob|]. intros ? _. eapply oob_seq; [apply gterms_oob|]. intros ? _.
  destruct (y <=? 2)%Z; [|destruct (y <=? 3)%Z; [|exact I]]; (eapply oob_seq; [apply gterms_oob|]; intros ? _); [|exact I]. eapply oob_seq; [apply gterms_oob|]; intros ? _. exact I.
Qed.
(** moment order 0: the table is read at position -3 *)
Lemma radd_ub (l : list (res num)) u : fold_left radd l (UB u) = UB u. Proof. induction l; auto. Qed.
Lemma g_grid_0 m q : g_grid (N:=N) m q 0 = UB OutOfBounds.
Proof. unfold g_grid, half. cbn [nth]. unfold gterms at 1. reflexivity. Qed.
Lemma hmom_call g eig m s d : sm_psd m = P_HMOM -> sm_priv m = PrivHmom d -> coagOn m = true ->
  setSourceTerms (N:=N) g eig m s = UB OutOfBounds.
Proof.
  intros EP Ed EC. apply oob_never. unfold setSourceTerms. rewrite EP. apply (oob_seq _ _ (fun _ => False) _); [|intros (? & ?) []].
  unfold setSourceTermsHMOM. unfold momicData. rewrite Ed. rd.
  eapply oob_seq. { instantiate (1 := any). unfold largeMoments. eapply oob_seq; [apply oob_mapM; intros; rd; exact I|]. intros; exact I. }
  intros ML _. eapply oob_seq; [apply setMoments_oob|]. intros d' _. cbv beta zeta. eapply oob_seq; [apply oob_chem; intros; apply oob_collSum|].
  intros ((((j & kg) & ko) & m') & s') E. cbn [sm_coag with_priv] in E.
  eapply oob_seq. { instantiate (1 := any). apply oob_mapM. intros k. unfold hmomCnd. destruct (isPAH m' && Nat.leb 1 k); [|exact I]. eapply oob_seq; [apply bracket_oob|]. intros ? _. eapply oob_seq; [apply g_grid_oob|]. intros; exact I. }
  intros cnd _. assert (EC' : coagOn m' = true) by (unfold coagOn in *; now rewrite E). rewrite EC'.
  unfold hmomCoag, get_Ik. cbn [id_mass]. change (Z.of_nat 0) with 0%Z. rewrite g_grid_0. exact I.
Qed.
Lemma momic8_call g eig m s d : sm_psd m = P_MOMIC -> sm_priv m = PrivMomic d -> id_Nmom d = 8%nat ->
  setSourceTerms (N:=N) g eig m s = UB OutOfBounds.
Proof.
  intros EP Ed E. unfold setSourceTerms. rewrite EP. unfold setSourceTermsMOMIC. unfold momicData at 1. rewrite Ed. rewrite setMoments8 by exact E. reflexivity.
Qed.
End S.
