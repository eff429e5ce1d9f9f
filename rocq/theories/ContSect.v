(** Lemmas for C82: whole calls of the sectional model. *)
From Coq Require Import ZArith List Bool Reals Lra Lia.
From Verif Require Import Num Defs State Coag Nucl Growth Oxid Tar SootModel Qmom Calls XR XRLemmas SpecChem SpecCoag SpecValid SpecRates SpecGas SpecState SpecPah SpecPsd SpecSites SpecCont
  CoagProofs MiscProofs ValidProofs RateProofs PsdProofs PahProofs MonoProofs MonoMain MonoCases RichProofs HeatProofs SitesProofs ContProofs ContMain ContCases ContLogn SpecSect SectProofs SectCases SectBins SectMain SectFinal.
Import ListNotations.
Local Open Scope R_scope.

Lemma cv_sumR {A} (l : list A) (f : nat -> A -> R) (f' : A -> R) : (forall x, In x l -> Un_cv (fun n => f n x) (f' x)) ->
  Un_cv (fun n => sumR (map (f n) l)) (sumR (map f' l)).
Proof.
  induction l as [|x l IH]; intros H; cbn [map]; [apply cv_const|]. unfold sumR. cbn [fold_right].
  apply (CV_plus (fun n => f n x) (fun n => sumR (map (f n) l))); [apply H; now left|apply IH; intros; apply H; now right].
Qed.
Lemma cv_Sum ns (f : nat -> nat -> R) f' : (forall j, (j < ns)%nat -> Un_cv (fun n => f n j) (f' j)) -> Un_cv (fun n => Sum ns (f n)) (Sum ns f').
Proof. intros H. apply cv_sumR. intros j Hj. apply in_seq in Hj. apply H. lia. Qed.

Section Sect.
Context (G : nat -> gas) (g : gas) (HG : gasTo G g) (s : state (N:=XR)) (b : list R) (GB : goodBins b) (Q : nat -> list R) (q : list R) (V : valid s g q).
Context (LQ : forall n, length (Q n) = length b) (Lq : length q = length b) (CQ : forall j, (j < length b)%nat -> Un_cv (fun n => el (Q n) j) (el q j)).
Context (PQ : forall n, 0 < number (Q n)) (Pq : 0 < number q).
Let ns := length b.
Let T0 : 0 < gT g. Proof. apply V. Qed.
Let C0 : 0 < gCMin g. Proof. apply V. Qed.

Lemma number_Sum x : length x = ns -> number x = Sum ns (el x).
Proof. intros L. unfold number, Sum. rewrite <- L. f_equal. symmetry. apply map_nth_all. Qed.
Lemma mass_Sum x : length x = ns -> mass b x = Sum ns (fun j => el x j * el b j).
Proof. intros L. unfold mass, Sum. rewrite dot_seq by exact L. rewrite L. reflexivity. Qed.
Lemma cnumber : Un_cv (fun n => number (Q n)) (number q).
Proof. apply (cv_ext _ (fun n => Sum ns (el (Q n))) _ (Sum ns (el q))); [intros; now apply number_Sum|now apply number_Sum|]. apply (cv_Sum ns (fun n => el (Q n))). exact CQ. Qed.
Lemma cmass : Un_cv (fun n => mass b (Q n)) (mass b q).
Proof.
  apply (cv_ext _ (fun n => Sum ns (fun j => el (Q n) j * el b j)) _ (Sum ns (fun j => el q j * el b j))); [intros; now apply mass_Sum|now apply mass_Sum|].
  apply (cv_Sum ns (fun n j => el (Q n) j * el b j)). intros j Hj. specialize (CQ j Hj). cvs.
Qed.
Lemma mass_pos : 0 < mass b q.
Proof.
  assert (NN : forall x, In x q -> 0 <= x) by apply V. rewrite mass_Sum by exact Lq. rewrite (number_Sum q Lq) in Pq.
  assert (B0 : 0 < el b 0) by apply GB.
  apply Rlt_le_trans with (el b 0 * Sum ns (el q)); [now apply Rmult_lt_0_compat|].
  assert (BL : forall j, (j < ns)%nat -> el b 0 <= el b j).
  { induction j as [|j IH]; intros Hj; [lra|]. specialize (IH ltac:(lia)). destruct GB as (_ & _ & K). specialize (K j Hj). lra. }
  assert (PE : forall j, (j < ns)%nat -> 0 <= el q j) by (intros j Hj; apply NN; unfold el; apply nth_In; lia).
  revert BL PE. unfold Sum. clearbody ns. clear. intros BL PE.
  assert (K : forall l, (forall j, In j l -> (j < ns)%nat) -> el b 0 * sumR (map (el q) l) <= sumR (map (fun j => el q j * el b j) l)).
  { induction l as [|j l IH]; intros H; [unfold sumR; cbn; lra|]. unfold sumR in *. cbn [map fold_right]. specialize (IH ltac:(intros; apply H; now right)).
    specialize (BL j ltac:(apply H; now left)). specialize (PE j ltac:(apply H; now left)). nra. }
  apply K. intros j Hj. apply in_seq in Hj. lia.
Qed.

Lemma ckernelB k x y : 0 < mF k -> Un_cv (fun n => kernel k (G n) x y) (kernel k g x y).
Proof.
  intros F. destruct (Req_dec x massCutoff) as [->|Nx].
  { unfold kernel. destruct (Rlt_dec massCutoff massCutoff); [lra|]. apply cv_const. }
  destruct (Req_dec y massCutoff) as [->|Ny].
  { unfold kernel. destruct (Rlt_dec massCutoff massCutoff); [lra|]. destruct (Rlt_dec massCutoff x); apply cv_const. }
  apply (ckernel G g HG s q V k (fun _ => x) (fun _ => y)); auto; apply cv_const.
Qed.
Context (k : mechs) (NP : mN k <> N_PAH) (NG : mG k <> G_HACA) (NO : mO k <> O_HACA) (PF : 0 < mF k).
Lemma ckg : Un_cv (fun n => kgrow k (G n) (number (Q n)) (mass b (Q n))) (kgrow k g (number q) (mass b q)).
Proof. unfold kgrow. apply cgrowF; auto; [apply (conc_nneg _ _ _ V)|exact mass_pos|exact cnumber|exact cmass]. Qed.
Lemma cko : Un_cv (fun n => koxid k (G n) (number (Q n)) (mass b (Q n))) (koxid k g (number q) (mass b q)).
Proof. unfold koxid. apply coxid; auto. intros sp. apply (press_nneg _ _ _ V). Qed.
Lemma carea j : (j < ns)%nat -> Un_cv (fun n => binArea b (Q n) j) (binArea b q j).
Proof. intros Hj. specialize (CQ j Hj). unfold binArea. cvs. Qed.
Lemma cup (r : nat -> nat -> R) r' j : (j < ns)%nat -> (forall l, (l < ns)%nat -> Un_cv (fun n => r n l) (r' l)) -> Un_cv (fun n => moveUp b (r n) j) (moveUp b r' j).
Proof.
  intros Hj H. unfold moveUp. fold ns. apply (CV_plus (fun n => if Nat.eqb j 0 then 0 else r n (j - 1)%nat / (el b j - el b (j - 1)))).
  - destruct (Nat.eqb_spec j 0); [apply cv_const|]. pose proof (H (j - 1)%nat ltac:(lia)) as X. destruct GB as (_ & _ & K). specialize (K (j - 1)%nat ltac:(fold ns; lia)). replace (S (j - 1)) with j in K by lia. cvs. lra.
  - destruct (Nat.eqb_spec (S j) ns).
    + pose proof (H j Hj) as X. pose proof (bins_pos b GB j Hj) as P. cvs. lra.
    + pose proof (H j Hj) as X. destruct GB as (_ & _ & K). specialize (K j ltac:(fold ns; lia)). apply CV_opp. cvs. lra.
Qed.
Lemma cdown (r : nat -> nat -> R) r' j : (j < ns)%nat -> (forall l, (l < ns)%nat -> Un_cv (fun n => r n l) (r' l)) -> Un_cv (fun n => moveDown b (r n) j) (moveDown b r' j).
Proof.
  intros Hj H. unfold moveDown. fold ns. apply (CV_minus (fun n => if Nat.eqb (S j) ns then 0 else r n (S j) / (el b (S j) - el b j))).
  - destruct (Nat.eqb_spec (S j) ns); [apply cv_const|]. pose proof (H (S j) ltac:(lia)) as X. destruct GB as (_ & _ & K). specialize (K j ltac:(fold ns; lia)). cvs. lra.
  - destruct (Nat.eqb_spec j 0).
    + pose proof (H 0%nat ltac:(lia)) as X. pose proof (bins_pos b GB 0%nat ltac:(fold ns; lia)) as P. cvs. lra.
    + pose proof (H j Hj) as X. destruct GB as (_ & _ & K). specialize (K (j - 1)%nat ltac:(fold ns; lia)). replace (S (j - 1)) with j in K by lia. cvs. lra.
Qed.
Lemma cpair i l : (i < ns)%nat -> (l < ns)%nat -> Un_cv (fun n => kernel k (G n) (el b i) (el b l) * el (Q n) i * el (Q n) l) (kernel k g (el b i) (el b l) * el q i * el q l).
Proof. intros Hi Hl. pose proof (CQ i Hi) as X. pose proof (CQ l Hl) as Y. pose proof (ckernelB k (el b i) (el b l) PF) as Z. cvs. Qed.
Lemma ccoag c j : (j < ns)%nat -> Un_cv (fun n => coagAt k (G n) b (Q n) c j) (coagAt k g b q c j).
Proof.
  intros Hj. unfold coagAt. fold ns. cbv zeta. apply (CV_minus (fun n => 1 / 2 * Sum ns (fun i => Sum ns (fun l => kernel k (G n) (el b i) (el b l) * el (Q n) i * el (Q n) l * credit b (binOf c b (el b i + el b l)) (el b i + el b l) j)))).
  - apply (CV_mult (fun _ => 1 / 2)); [apply cv_const|].
    apply (cv_Sum ns (fun n i => Sum ns (fun l => kernel k (G n) (el b i) (el b l) * el (Q n) i * el (Q n) l * credit b (binOf c b (el b i + el b l)) (el b i + el b l) j))).
    intros i Hi. apply (cv_Sum ns (fun n l => kernel k (G n) (el b i) (el b l) * el (Q n) i * el (Q n) l * credit b (binOf c b (el b i + el b l)) (el b i + el b l) j)).
    intros l Hl. apply (CV_mult (fun n => kernel k (G n) (el b i) (el b l) * el (Q n) i * el (Q n) l)); [now apply cpair|apply cv_const].
  - apply (cv_Sum ns (fun n l => kernel k (G n) (el b j) (el b l) * el (Q n) j * el (Q n) l)). intros l Hl. now apply cpair.
Qed.
Lemma csrc c j : (j < ns)%nat -> Un_cv (fun n => sectSource k (G n) b (Q n) c (nucl k (G n) (dimerHits k (G n) b (Q n))) j) (sectSource k g b q c (nucl k g (dimerHits k g b q)) j).
Proof.
  intros Hj. assert (IP : isP k = false) by (unfold isP; destruct (mN k); congruence).
  assert (CJ : Un_cv (fun n => Jnuc k (G n)) (Jnuc k g)) by now apply cnucl. pose proof avo_pos as AP.
  assert (CM : Un_cv (fun n => nucMass (G n)) (nucMass g)). { assert (E : Un_cv (fun n => gCMin (G n)) (gCMin g)) by apply HG. unfold nucMass. cvs. lra. }
  pose proof (bins_pos b GB 0%nat ltac:(destruct GB; lia)) as B0.
  unfold sectSource. cbv zeta.
  apply (CV_plus (fun n => (if Nat.eqb j 0 then oN1 (nucl k (G n) (dimerHits k (G n) b (Q n))) / el b 0 else 0)
    + moveUp b (fun l => kgrow k (G n) (number (Q n)) (mass b (Q n)) * binArea b (Q n) l) j
    + moveUp b (condensed k (G n) b (Q n) (nucl k (G n) (dimerHits k (G n) b (Q n)))) j
    + moveDown b (fun l => koxid k (G n) (number (Q n)) (mass b (Q n)) * binArea b (Q n) l) j)); [|now apply ccoag].
  apply (CV_plus (fun n => (if Nat.eqb j 0 then oN1 (nucl k (G n) (dimerHits k (G n) b (Q n))) / el b 0 else 0)
    + moveUp b (fun l => kgrow k (G n) (number (Q n)) (mass b (Q n)) * binArea b (Q n) l) j
    + moveUp b (condensed k (G n) b (Q n) (nucl k (G n) (dimerHits k (G n) b (Q n)))) j)).
  2:{ apply (cdown (fun n l => koxid k (G n) (number (Q n)) (mass b (Q n)) * binArea b (Q n) l)); auto. intros l Hl. pose proof cko as X. pose proof (carea l Hl) as Y. cvs. }
  apply (CV_plus (fun n => (if Nat.eqb j 0 then oN1 (nucl k (G n) (dimerHits k (G n) b (Q n))) / el b 0 else 0)
    + moveUp b (fun l => kgrow k (G n) (number (Q n)) (mass b (Q n)) * binArea b (Q n) l) j)).
  2:{ apply (cup (fun n => condensed k (G n) b (Q n) (nucl k (G n) (dimerHits k (G n) b (Q n))))); auto. intros l Hl. unfold condensed, nucl. rewrite IP. cbn [oConc oMass].
      apply (cv_ext _ (fun _ => 0) _ 0); [intros; ring|ring|apply cv_const]. }
  apply (CV_plus (fun n => if Nat.eqb j 0 then oN1 (nucl k (G n) (dimerHits k (G n) b (Q n))) / el b 0 else 0)).
  2:{ apply (cup (fun n l => kgrow k (G n) (number (Q n)) (mass b (Q n)) * binArea b (Q n) l)); auto. intros l Hl. pose proof ckg as X. pose proof (carea l Hl) as Y. cvs. }
  destruct (Nat.eqb j 0); [|apply cv_const]. unfold nucl, oN1. rewrite IP. cbn [oJ oGas]. cvs. lra.
Qed.
Lemma ctotal : Un_cv (fun n => totalArea b (Q n)) (totalArea b q).
Proof. apply (cv_Sum ns (fun n => binArea b (Q n))). exact carea. Qed.
End Sect.

Lemma C82_sect_ (m : model (N:=XR)) k st eig c F (G : nat -> gas) g (St : nat -> state (N:=XR)) s b (Q : nat -> list R) q :
  isSect m b F -> goodBins b -> located st F c -> fits c b -> hasAll m k -> okAll k -> mN k <> N_PAH -> mG k <> G_HACA -> mO k <> O_HACA ->
  (forall n, valid (St n) (G n) (Q n) /\ length (Q n) = length b /\ 0 < number (Q n)) -> valid s g q -> length q = length b -> 0 < number q ->
  gasTo G g -> (forall j, (j < length b)%nat -> Un_cv (fun n => el (Q n) j) (el q j)) ->
  exists (a : nat -> nat -> R) (d : nat -> gasSp -> R) a' d',
    (forall n, exists st' m' s', setSourceTerms st eig m (St n) = Ok (st', m', s') /\ soots m' = map (fun j => Fin (a n j)) (seq 0 (length b)) /\ holdsGas (gases m') (d n)) /\
    (exists st' m' s', setSourceTerms st eig m s = Ok (st', m', s') /\ soots m' = map (fun j => Fin (a' j)) (seq 0 (length b)) /\ holdsGas (gases m') d') /\
    (forall j, (j < length b)%nat -> Un_cv (fun n => a n j) (a' j)) /\ forall sp, Un_cv (fun n => d n sp) (d' sp).
Proof.
  intros HS GB HC FT HM OM NP NG NO HV V Lq Pq HG CQ.
  assert (RUN : forall s g q, valid s g q -> length q = length b -> exists st' m' s', setSourceTerms st eig m s = Ok (st', m', s') /\
    soots m' = map (fun j => Fin (sectSource k g b q c (nucl k g (dimerHits k g b q)) j)) (seq 0 (length b)) /\
    holdsGas (gases m') (fun sp => nuclGas (mN k) (Jnuc k g * nucMass g) sp + growGas (mG k) (kgrow k g (number q) (mass b q) * totalArea b q) sp + oxidGas (mO k) (koxid k g (number q) (mass b q) * totalArea b q) sp)).
  { clear - HS GB HC FT HM OM NP NG NO. intros s g q V Lq. assert (RG : regular k g (number q) (mass b q)) by (intros [?|?]; contradiction).
    assert (IP : isP k = false) by (unfold isP; destruct (mN k); congruence).
    destruct (sect_run m s g k b q F HS GB HM OM V Lq RG st c HC eig (fun _ => FT)) as (m' & E & S1 & S2 & _). eexists _, m', _. split; [exact E|]. split; [exact S1|].
    unfold gasBudget, nuclPart, oN1, nucl in S2. rewrite IP in S2. cbn [oJ oGas] in S2. exact S2. }
  assert (VV : forall n, valid (St n) (G n) (Q n)) by (intros n; apply HV). assert (LQ : forall n, length (Q n) = length b) by (intros n; apply HV). assert (PQ : forall n, 0 < number (Q n)) by (intros n; apply HV).
  eexists (fun n j => sectSource k (G n) b (Q n) c (nucl k (G n) (dimerHits k (G n) b (Q n))) j), (fun n sp => _), (fun j => sectSource k g b q c (nucl k g (dimerHits k g b q)) j), (fun sp => _).
  split; [intros n; exact (RUN _ _ _ (VV n) (LQ n))|]. split; [exact (RUN _ _ _ V Lq)|].
  assert (PF : 0 < mF k) by apply OM. assert (T0 : 0 < gT g) by apply V. assert (C0 : 0 < gCMin g) by apply V. pose proof avo_pos as AP.
  split; [intros j Hj; now apply (csrc G g HG s b GB Q q V LQ Lq CQ PQ Pq k NP NG NO PF c j)|]. intros sp.
  assert (CJ : Un_cv (fun n => Jnuc k (G n)) (Jnuc k g)) by now apply cnucl.
  assert (CM : Un_cv (fun n => nucMass (G n)) (nucMass g)). { assert (E : Un_cv (fun n => gCMin (G n)) (gCMin g)) by apply HG. unfold nucMass. cvs. lra. }
  pose proof (ckg G g HG s b GB Q q V LQ Lq CQ PQ Pq k NG) as X. pose proof (cko G g HG s b Q q V k NO) as Y. pose proof (ctotal b Q q CQ) as Z.
  cbv beta. apply (CV_plus (fun n => nuclGas (mN k) (Jnuc k (G n) * nucMass (G n)) sp + growGas (mG k) (kgrow k (G n) (number (Q n)) (mass b (Q n)) * totalArea b (Q n)) sp)).
  - apply (CV_plus (fun n => nuclGas (mN k) (Jnuc k (G n) * nucMass (G n)) sp)); [apply cnuclGas; cvs|apply cgrowGas; cvs].
  - apply coxidGas. cvs.
Qed.

Definition kSect := mkMechs N_LL G_LL O_NSC_NEOH C_FUCHS 1.
Lemma hotOf_any t soot : 0 < t -> (forall x, In x soot -> 0 <= x) -> valid (hotOf t soot) (hotGas t) soot.
Proof. intros T H. destruct (hot_state t soot T H) as (s & C & V). unfold hotOf. rewrite C. exact V. Qed.
Lemma C82_sect_case_ : exists (m : model (N:=XR)) (t : nat -> R) (Q : nat -> list R), constructEnum P_SECT 3 N_LL G_LL O_NSC_NEOH C_FUCHS 0 T_NONE (Fin 2) 100 = Ok m /\
  isSect m (geometric 100 2 3) 2 /\ goodBins (geometric 100 2 3) /\ located None 2 (/ ln 2) /\ fits (/ ln 2) (geometric 100 2 3) /\ hasAll m kSect /\ okAll kSect /\
  (forall n, valid (hotOf (t n) (Q n)) (hotGas (t n)) (Q n) /\ length (Q n) = length (geometric 100 2 3) /\ 0 < number (Q n)) /\
  valid (hotOf 1800 [1; 2; 3]) (hotGas 1800) [1; 2; 3] /\ 0 < number [1; 2; 3] /\ gasTo (fun n => hotGas (t n)) (hotGas 1800) /\
  (forall j, (j < 3)%nat -> Un_cv (fun n => el (Q n) j) (el [1; 2; 3] j)) /\ t 0%nat <> 1800 /\ el (Q 0%nat) 0 <> 1.
Proof.
  destruct (constructEnum (N:=XR) P_SECT 3 N_LL G_LL O_NSC_NEOH C_FUCHS 0 T_NONE (Fin 2) 100) as [m| |] eqn:E; try discriminate.
  destruct (C28e 3 N_LL G_LL O_NSC_NEOH C_FUCHS 0 T_NONE 2 100 m ltac:(lia) ltac:(lra) E) as (_ & _ & _ & IS & GB & HM).
  assert (DA : doubleAbove1 2). { unfold doubleAbove1. assert (/ 2 ^ 52 < 1) by (rewrite <- Rinv_1; apply Rinv_lt_contravar; [|apply Rlt_pow_R1; [lra|lia]]; rewrite Rmult_1_l; apply pow_lt; lra). lra. }
  assert (SN : sane 3) by (split; [lia|]; vm_compute; discriminate).
  pose proof cv_1n as C. assert (PN : forall n, 0 < / INR (S n)) by (intros n; apply Rinv_0_lt_compat, lt_0_INR; lia).
  assert (X : forall c, Un_cv (fun n => c + / INR (S n)) c). { intros c. apply (cv_ext _ (fun n => c + / INR (S n)) _ (c + 0)); [reflexivity|ring|]. cvs. }
  exists m, (fun n => 1800 + / INR (S n)), (fun n => [1 + / INR (S n); 2 + / INR (S n); 3]). split; [reflexivity|]. split; [exact IS|]. split; [exact GB|].
  split; [apply own_located; [exact DA|left; reflexivity]|]. split; [apply geo_fits; auto; lia|]. split; [exact HM|]. split; [split; [left; unfold kSect; okm|unfold kSect; okm]|].
  split. { intros n. specialize (PN n). split; [|split; [reflexivity|unfold number, sumR; cbn [fold_right]; lra]]. apply hotOf_any; [lra|]. intros x [<-|[<-|[<-|[]]]]; lra. }
  split; [apply hotOf_any; [lra|]; intros x [<-|[<-|[<-|[]]]]; lra|]. split; [unfold number, sumR; cbn [fold_right]; lra|].
  split; [apply (gasTo_hot (fun n => 1800 + / INR (S n))); apply X|]. split; [|cbn [el nth INR]; unfold el; cbn [nth]; lra].
  intros [|[|[|j]]] Hj; unfold el; cbn [nth]; try apply X; [apply cv_const|lia].
Qed.
