(** Evaluation of the sectional setSourceTerms. *)
From Coq Require Import ZArith List Bool Reals Lra Lia.
From Verif Require Import Num Defs State Coag Nucl Growth Oxid Tar SootModel Sect Calls XR XRLemmas NumLaws
  SpecChem SpecCoag SpecValid SpecRates SpecGas SpecPah SpecPsd SpecSect CoagProofs StateXR ValidProofs InterpProofs GasProofs RateProofs PsdProofs PahProofs MonoProofs ChemAll SectProofs.
Import ListNotations.
Local Open Scope R_scope.

Section Bins.
Context (b n : list R) (G : goodBins b) (Ln : length n = length b).
Let ns := length b.
Let mb := at_ (N:=XR) (map Fin b).
Let nv := at_ (N:=XR) (map Fin n).

Lemma area_val j : (j < ns)%nat -> sectArea (N:=XR) mb nv j = Fin (binArea b n j).
Proof.
  intros H. unfold sectArea, mb, nv. rewrite !at_fin. pose proof (bins_pos b G j H) as P.
  xsimp. cvals. f_equal. unfold binArea, sphere. destruct (Rlt_dec 0 (el b j)); [|lra].
  unfold diam. rewrite <- Rpower_third2. unfold sootDensity. ring.
Qed.

Lemma up_val out last r j : (j < ns)%nat ->
  (forall l, (S l < ns)%nat -> out l = Fin (r l / (el b (S l) - el b l))) -> last = Fin (r (lastBin b) / el b (lastBin b)) ->
  sectUp (N:=XR) ns out last j = Fin (moveUp b r j).
Proof.
  intros H Ho Hl. destruct G as (L & _). unfold sectUp, moveUp. fold ns in L |- *.
  destruct (Nat.eqb_spec j 0) as [->|E0].
  - destruct (Nat.eqb_spec 1 ns); [lia|]. rewrite Ho by lia. change (@nopp XR) with xopp. cbn [xopp]. f_equal. ring.
  - destruct (Nat.eqb_spec (S j) ns) as [E1|E1].
    + destruct (Nat.ltb_spec j (ns - 1)); [lia|]. rewrite Ho by lia. rewrite Hl. change (@nadd XR) with xadd. cbn [xadd].
      replace (S (j - 1)) with j by lia. unfold lastBin. fold ns. replace (ns - 1)%nat with j by lia. reflexivity.
    + destruct (Nat.ltb_spec j (ns - 1)); [|lia]. rewrite !Ho by lia. change (@nsub XR) with xsub. cbn [xsub].
      replace (S (j - 1)) with j by lia. reflexivity.
Qed.
Lemma down_val out first r j : (j < ns)%nat ->
  (forall l, (1 <= l < ns)%nat -> out l = Fin (r l / (el b l - el b (l - 1)))) -> first = Fin (r 0%nat / el b 0) ->
  sectDown (N:=XR) ns out first j = Fin (moveDown b r j).
Proof.
  intros H Ho Hl. destruct G as (L & _). unfold sectDown, moveDown. fold ns in L |- *.
  destruct (Nat.eqb_spec j (ns - 1)) as [E|E].
  - destruct (Nat.eqb_spec (S j) ns); [|lia]. destruct (Nat.eqb_spec j 0); [lia|]. rewrite Ho by lia.
    change (@nopp XR) with xopp. cbn [xopp]. f_equal. ring.
  - destruct (Nat.eqb_spec (S j) ns); [lia|]. destruct (Nat.eqb_spec j 0) as [->|E0].
    + rewrite Ho by lia. rewrite Hl. change (@nsub XR) with xsub. cbn [xsub]. reflexivity.
    + rewrite !Ho by lia. change (@nsub XR) with xsub. cbn [xsub]. replace (S j - 1)%nat with j by lia. reflexivity.
Qed.
(** an added mass rate per bin as the code divides it *)
Lemma div_up x l : (S l < ns)%nat -> @ndiv XR (Fin x) (@nsub XR (mb (S l)) (mb l)) = Fin (x / (el b (S l) - el b l)).
Proof.
  intros H. unfold mb. rewrite !at_fin. change (@nsub XR) with xsub. cbn [xsub]. apply xdiv_fin.
  pose proof (bins_lt b G l (S l) ltac:(lia) H). lra.
Qed.
Lemma div_down x l : (1 <= l < ns)%nat -> @ndiv XR (Fin x) (@nsub XR (mb l) (mb (l - 1)%nat)) = Fin (x / (el b l - el b (l - 1))).
Proof.
  intros H. unfold mb. rewrite !at_fin. change (@nsub XR) with xsub. cbn [xsub]. apply xdiv_fin.
  pose proof (bins_lt b G (l - 1) l ltac:(lia) ltac:(unfold ns in *; lia)). lra.
Qed.
Lemma div_bin x l : (l < ns)%nat -> @ndiv XR (Fin x) (mb l) = Fin (x / el b l).
Proof. intros H. unfold mb. rewrite !at_fin. apply xdiv_fin. pose proof (bins_pos b G l H). lra. Qed.
Lemma last_lt : (lastBin b < ns)%nat.
Proof. destruct G as (L & _). unfold lastBin, ns. lia. Qed.

(** *** coagulation *)
Section Coag.
Context (k : mechs) (g : gas) (s : state (N:=XR)) (soot : list R) (c : R).
Context (V : valid s g soot) (OC : mC k <> C_size) (OF : 0 < mF k).
Let h i l := kernel k g (el b i) (el b l) * el n i * el n l.
Let pm i l := el b i + el b l.
Let inRange x := -1 < x < IZR (2 ^ 64).

Lemma trunc_val x : inRange x -> @ntrunc XR (Fin x) = Some (Z.to_nat (Int_part x)).
Proof.
  intros (A & B). change (@ntrunc XR) with xtrunc. unfold xtrunc. destruct (Rlt_dec (-1) x); [|lra].
  destruct (Rlt_dec x (IZR (2 ^ 64))) as [_|Q]; [|exfalso; exact (Q B)]. destruct (Rlt_dec x 0) as [N|]; [|reflexivity].
  f_equal. destruct (base_Int_part x) as (I1 & I2). assert (IZR (Int_part x) < 0) by lra. apply lt_IZR in H.
  destruct (Int_part x); [lia|lia|reflexivity].
Qed.
Lemma trunc_none x : ~ inRange x -> @ntrunc XR (Fin x) = None.
Proof.
  intros A. change (@ntrunc XR) with xtrunc. unfold xtrunc. destruct (Rlt_dec (-1) x); [|reflexivity].
  destruct (Rlt_dec x (IZR (2 ^ 64))) as [Q|_]; [|reflexivity]. exfalso. apply A. split; assumption.
Qed.
Lemma arg_val i j : (i < ns)%nat -> (j < ns)%nat ->
  @nmul XR (Fin c) (@nlog XR (@ndiv XR (@nadd XR (mb i) (mb j)) (mb 0%nat))) = Fin (c * ln (pm i j / el b 0)).
Proof.
  intros Hi Hj. unfold mb. rewrite !at_fin. pose proof (bins_pos b G i Hi). pose proof (bins_pos b G j Hj).
  pose proof (bins_pos b G 0 ltac:(destruct G; unfold ns in *; lia)).
  xsimp. fold (pm i j). assert (0 < pm i j / el b 0) by (apply Rdiv_lt_0_compat; unfold pm; lra). xsimp. reflexivity.
Qed.

Lemma gain_val term i j t f : (i < ns)%nat -> (j < ns)%nat ->
  sectGain (N:=XR) ns mb (Fin term) i j t (vec ns f) = vec ns (fun l => f l + term * credit b t (pm i j) l).
Proof.
  intros Hi Hj. pose proof last_lt as LL. destruct G as (L & _). fold ns in L. unfold sectGain, credit, lastBin. fold ns.
  set (t' := if Nat.leb ns t then (ns - 1)%nat else t).
  assert (ET : Nat.eqb t' (ns - 1) = Nat.leb (ns - 1) t).
  { unfold t'. destruct (Nat.leb_spec ns t), (Nat.leb_spec (ns - 1) t); try lia; try (now apply Nat.eqb_refl).
    - destruct (Nat.eqb_spec t (ns - 1)); lia. - apply Nat.eqb_neq. lia. }
  cbv zeta. rewrite ET. destruct (Nat.leb_spec (ns - 1) t) as [A|A].
  - assert (Et : t' = (ns - 1)%nat) by (apply Nat.eqb_eq; exact ET). rewrite Et.
    assert (EM : @nmul XR (Fin term) (@nadd XR (mb i) (mb j)) = Fin (term * pm i j)) by (unfold mb; rewrite !at_fin; reflexivity).
    rewrite EM, div_bin by lia. rewrite addAt_vec by lia. apply vec_ext. intros l _.
    destruct (Nat.eqb l (ns - 1)); [|ring]. field. apply Rgt_not_eq, bins_pos; auto; fold ns; lia.
  - assert (Et : t' = t) by (unfold t'; destruct (Nat.leb_spec ns t); [lia|reflexivity]). rewrite Et.
    assert (EX : @ndiv XR (@nsub XR (mb (S t)) (@nadd XR (mb i) (mb j))) (@nsub XR (mb (S t)) (mb t)) = Fin (shareLow b t (pm i j))).
    { assert (E1 : @nsub XR (mb (S t)) (@nadd XR (mb i) (mb j)) = Fin (el b (S t) - pm i j)) by (unfold mb; rewrite !at_fin; reflexivity).
      rewrite E1. apply div_up. lia. }
    rewrite EX. change (@nsub XR) with xsub. change (@nmul XR) with xmul. change (@nZ XR 1) with (Fin 1). cbn [xsub xmul].
    rewrite !addAt_vec by lia. apply vec_ext. intros l _.
    destruct (Nat.eqb_spec l t) as [->|E1]; [destruct (Nat.eqb_spec t (S t)); [lia|ring]|].
    destruct (Nat.eqb_spec l (S t)); ring.
Qed.

Definition pairD i j l : R :=
  let H := h i j * (credit b (binOf c b (pm i j)) (pm i j) l - (if Nat.eqb l i then 1 else 0) - (if Nat.eqb l j then 1 else 0)) in
  if Nat.eqb i j then H * (1 / 2) else H.

Lemma pair_val i j f : (i < ns)%nat -> (i <= j < ns)%nat -> inRange (c * ln (pm i j / el b 0)) ->
  sectPair (N:=XR) (with_f (mC k) (mF k)) s ns mb nv (Fin c) (vec ns f) i j = Ok (vec ns (fun l => f l + pairD i j l)).
Proof.
  intros Hi Hj HR. unfold sectPair. rewrite arg_val by lia. rewrite trunc_val by auto. cbv zeta.
  fold (binOf c b (pm i j)). set (t := binOf c b (pm i j)).
  assert (ET : @nmul XR (@nmul XR (coagRate (with_f (mC k) (mF k)) s (mb i) (mb j)) (nv i)) (nv j) = Fin (h i j)).
  { unfold mb, nv. rewrite !at_fin, (kernel_val s g soot) by auto. reflexivity. }
  rewrite ET. rewrite subAt_vec by lia. f_equal.
  destruct (Nat.eqb_spec i j) as [<-|E].
  - rewrite Nat.ltb_irrefl.
    assert (E5 : @nmul XR (Fin (h i i)) (nlit 5 (-1)) = Fin (h i i * (1 / 2))) by (xsimp; f_equal; field).
    rewrite E5, gain_val by lia. apply vec_ext. intros l _. unfold pairD. rewrite Nat.eqb_refl. fold t.
    destruct (Nat.eqb l i); field.
  - destruct (Nat.ltb_spec i j); [|lia]. rewrite subAt_vec by lia. rewrite gain_val by lia. apply vec_ext. intros l _. unfold pairD. fold t.
    destruct (Nat.eqb_spec i j); [lia|]. destruct (Nat.eqb l i), (Nat.eqb l j); ring.
Qed.

Lemma h_sym i j : h i j = h j i.
Proof. unfold h. rewrite (kernel_sym s g soot k (el b i)) by auto. ring. Qed.

Lemma pairs_sum l : (l < ns)%nat ->
  Sum ns (fun i => sumR (map (fun j => pairD i j l) (seq i (ns - i)))) = coagAt k g b n c l.
Proof.
  intros Hl. unfold pairD. cbv zeta.
  rewrite (Sum_tri ns (fun i j => h i j * (credit b (binOf c b (pm i j)) (pm i j) l - (if Nat.eqb l i then 1 else 0) - (if Nat.eqb l j then 1 else 0)))).
  2: { intros i j. rewrite (h_sym i j). unfold pm. rewrite (Rplus_comm (el b i)). ring. }
  unfold coagAt. cbv zeta. fold ns. fold h.
  rewrite (Sum_ext ns _ (fun i => Sum ns (fun j => h i j * credit b (binOf c b (pm i j)) (pm i j) l)
     + (- (if Nat.eqb i l then Sum ns (h l) else 0) + - h i l))).
  - rewrite Sum_add, Sum_add, !Sum_opp, Sum_at by auto.
    rewrite (Sum_ext ns (fun j => h j l) (h l)) by (intros; apply h_sym).
    change (Sum ns (fun i => Sum ns (fun l0 => kernel k g (el b i) (el b l0) * el n i * el n l0 * credit b (binOf c b (el b i + el b l0)) (el b i + el b l0) l)))
      with (Sum ns (fun i => Sum ns (fun j => h i j * credit b (binOf c b (pm i j)) (pm i j) l))).
    change (Sum ns (fun l0 => kernel k g (el b l) (el b l0) * el n l * el n l0)) with (Sum ns (h l)).
    field.
  - intros i Hi.
    rewrite (Sum_ext ns _ (fun j => h i j * credit b (binOf c b (pm i j)) (pm i j) l + (- (if Nat.eqb i l then h l j else 0) + - (if Nat.eqb j l then h i l else 0)))).
    + rewrite Sum_add, Sum_add, !Sum_opp, Sum_at by auto. do 3 f_equal. destruct (Nat.eqb i l); [reflexivity|]. apply Sum_0. reflexivity.
    + intros j Hj. rewrite (Nat.eqb_sym l i), (Nat.eqb_sym l j).
      destruct (Nat.eqb_spec i l) as [->|E1]; destruct (Nat.eqb_spec j l) as [->|E2]; ring.
Qed.

Lemma coag_val : fits c b ->
  sectCoag (N:=XR) (with_f (mC k) (mF k)) s ns mb nv (Fin c) = Ok (vec ns (coagAt k g b n c)).
Proof.
  intros HF. unfold sectCoag. rewrite zeros_vec.
  rewrite (foldM_vec (fun i l => sumR (map (fun j => pairD i j l) (seq i (ns - i))))).
  - f_equal. apply vec_ext. intros l Hl. rewrite Rplus_0_l. exact (pairs_sum l Hl).
  - intros i f Hi. apply in_seq in Hi. rewrite (foldM_vec (pairD i)); [reflexivity|].
    intros j f2 Hj. apply in_seq in Hj. apply pair_val; try lia. unfold inRange, pm. apply HF; unfold ns in *; lia.
Qed.

(** conversely the call is undefined when an index does not fit *)
Lemma foldM_ok_all {A B} (F : B -> A -> res B) l : forall a v, foldM F l a = Ok v -> forall x, In x l -> exists a1 v1, F a1 x = Ok v1.
Proof.
  induction l as [|y l IH]; intros a v E x Hx; [destruct Hx|]. cbn [foldM] in E.
  destruct (F a y) as [w| |] eqn:Ey; cbn [bind] in E; try discriminate. destruct Hx as [->|Hx]; [eauto|]. exact (IH _ _ E x Hx).
Qed.
Lemma coag_fits v : sectCoag (N:=XR) (with_f (mC k) (mF k)) s ns mb nv (Fin c) = Ok v -> fits c b.
Proof.
  intros E.
  assert (O : forall i j, (i <= j)%nat -> (j < ns)%nat -> inRange (c * ln (pm i j / el b 0))).
  { intros i j Hij Hj. unfold sectCoag in E.
    destruct (foldM_ok_all _ _ _ _ E i) as (a1 & v1 & E1); [apply in_seq; lia|].
    destruct (foldM_ok_all _ _ _ _ E1 j) as (a2 & v2 & E2); [apply in_seq; lia|].
    unfold sectPair in E2. rewrite arg_val in E2 by lia. cbv zeta in E2.
    destruct (Rlt_dec (-1) (c * ln (pm i j / el b 0))) as [A|A].
    - destruct (Rlt_dec (c * ln (pm i j / el b 0)) (IZR (2 ^ 64))) as [B|B]; [split; assumption|].
      rewrite trunc_none in E2 by (intros (_ & X); exact (B X)). discriminate E2.
    - rewrite trunc_none in E2 by (intros (X & _); exact (A X)). discriminate E2. }
  intros i j Hi Hj. destruct (Nat.le_ge_cases i j); [now apply O|].
  pose proof (O j i H Hi) as X. unfold pm in X. rewrite Rplus_comm in X. exact X.
Qed.

(** *** balances *)
Lemma coag_mass : Sum ns (fun l => el b l * coagAt k g b n c l) = 0.
Proof.
  unfold coagAt. cbv zeta. fold ns. fold h.
  set (Q := Sum ns (fun i => Sum ns (fun j => h i j * el b i))).
  rewrite (Sum_ext ns _ (fun l => 1 / 2 * Sum ns (fun i => Sum ns (fun j => h i j * (el b l * credit b (binOf c b (pm i j)) (pm i j) l))) + - Sum ns (fun j => h l j * el b l))).
  - rewrite Sum_add, Sum_opp, Sum_scal. fold Q.
    rewrite (Sum_swap ns ns (fun l i => Sum ns (fun j => h i j * (el b l * credit b (binOf c b (pm i j)) (pm i j) l)))).
    rewrite (Sum_ext ns _ (fun i => Sum ns (fun j => h i j * el b i) + Sum ns (fun j => h j i * el b j))).
    + rewrite Sum_add. fold Q. rewrite (Sum_swap ns ns (fun i j => h j i * el b j)). fold Q. field.
    + intros i Hi. rewrite (Sum_swap ns ns). rewrite <- Sum_add. apply Sum_ext. intros j Hj.
      rewrite Sum_scal. unfold ns. rewrite (credit_mass b G). rewrite (h_sym j i). unfold pm. ring.
  - intros l Hl. unfold Rminus. rewrite Rmult_plus_distr_l. apply f_equal2.
    + change (fun i => Sum ns (fun l0 => kernel k g (el b i) (el b l0) * el n i * el n l0 * credit b (binOf c b (el b i + el b l0)) (el b i + el b l0) l))
        with (fun i => Sum ns (fun j => h i j * credit b (binOf c b (pm i j)) (pm i j) l)).
      rewrite <- Rmult_assoc, (Rmult_comm (el b l)), Rmult_assoc. f_equal. rewrite <- Sum_scal. apply Sum_ext. intros i _.
      rewrite <- Sum_scal. apply Sum_ext. intros j _. ring.
    + change (Sum ns (fun l0 => kernel k g (el b l) (el b l0) * el n l * el n l0)) with (Sum ns (h l)).
      rewrite Sum_scalr. ring.
Qed.
Lemma coag_number : Sum ns (coagAt k g b n c) =
  - (1 / 2 * Sum ns (fun i => Sum ns (h i)))
  + 1 / 2 * Sum ns (fun i => Sum ns (fun j => if Nat.leb (lastBin b) (binOf c b (pm i j)) then h i j * (pm i j / el b (lastBin b) - 1) else 0)).
Proof.
  unfold coagAt. cbv zeta. fold ns. fold h.
  rewrite (Sum_ext ns _ (fun l => 1 / 2 * Sum ns (fun i => Sum ns (fun j => h i j * credit b (binOf c b (pm i j)) (pm i j) l)) + - Sum ns (h l))) by reflexivity.
  rewrite Sum_add, Sum_opp, Sum_scal.
  rewrite (Sum_swap ns ns (fun l i => Sum ns (fun j => h i j * credit b (binOf c b (pm i j)) (pm i j) l))).
  rewrite (Sum_ext ns _ (fun i => Sum ns (h i) + Sum ns (fun j => if Nat.leb (lastBin b) (binOf c b (pm i j)) then h i j * (pm i j / el b (lastBin b) - 1) else 0))).
  - rewrite Sum_add. field.
  - intros i Hi. rewrite (Sum_swap ns ns). rewrite <- Sum_add. apply Sum_ext. intros j Hj.
    rewrite Sum_scal. unfold ns. rewrite (credit_number b G). destruct (Nat.leb (lastBin b) (binOf c b (pm i j))); ring.
Qed.
End Coag.
End Bins.

