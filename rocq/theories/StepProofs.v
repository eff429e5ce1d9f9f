(** Lemmas for C73 and C74. *)
From Coq Require Import ZArith List Reals Lra Lia.
From Verif Require Import Num Defs State Nucl Growth Oxid Coag Tar SootModel Qmom Calls XR SpecChem SpecCoag SpecValid SpecRates SpecGas
  SpecPah SpecPsd SpecSect SpecStep XRLemmas ValidProofs PsdProofs PahProofs MonoMain MonoCases SectProofs SectMain SectCases SectBins SectFinal SignsProofs RateProofs.
Import ListNotations.
Local Open Scope R_scope.

(** ** one size *)
Section One.
Context (b n : list R) (p : nat) (N0 : R) (Ln : length n = length b) (O : oneSize n p N0).
Lemma one_p : el n p = N0.
Proof. destruct O as (A & B). rewrite B by auto. now rewrite Nat.eqb_refl. Qed.
Lemma one_sum (f : nat -> R) : Sum (length b) (fun j => f j * el n j) = f p * N0.
Proof.
  destruct O as (A & B). rewrite (Sum_one (length b) p); [now rewrite one_p|lia|].
  intros j Hj Ne. rewrite B by lia. destruct (Nat.eqb_spec j p); [contradiction|ring].
Qed.
Lemma sum_Sum (l : list R) : sumR l = Sum (length l) (el l).
Proof.
  unfold Sum. f_equal. unfold el. induction l as [|x l IH]; [reflexivity|]. cbn [length seq map nth]. f_equal. rewrite <- seq_shift, map_map. exact IH.
Qed.
Lemma dot_Sum (l1 : list R) : forall l2, length l1 = length l2 -> dot l1 l2 = Sum (length l2) (fun j => el l2 j * el l1 j).
Proof.
  intros l2. revert l1. induction l2 as [|y l2 IH]; intros [|x l1] E; try discriminate; [reflexivity|].
  rewrite Sum_first by (cbn; lia). cbn [length]. replace (S (length l2) - 1)%nat with (length l2) by lia.
  cbn [length] in E. assert (length l1 = length l2) as E' by lia. specialize (IH l1 E').
  transitivity (x * y + dot l1 l2); [reflexivity|]. rewrite IH. unfold el. cbn [nth]. ring.
Qed.
Lemma one_number : number n = N0.
Proof.
  unfold number. rewrite sum_Sum, Ln. rewrite (Sum_ext _ _ (fun j => 1 * el n j)) by (intros; ring). rewrite (one_sum (fun _ => 1)). ring.
Qed.
Lemma one_mass : mass b n = el b p * N0.
Proof. unfold mass. rewrite dot_Sum by auto. apply (one_sum (el b)). Qed.
Lemma one_area : totalArea b n = N0 * sphere (el b p).
Proof.
  unfold totalArea, binArea. rewrite (Sum_ext _ _ (fun j => sphere (el b j) * el n j)) by (intros; ring). rewrite (one_sum (fun j => sphere (el b j))). ring.
Qed.
Lemma one_pairs (f : nat -> nat -> R) : Sum (length b) (fun i => Sum (length b) (fun j => f i j * el n i * el n j)) = f p p * N0 ^ 2.
Proof.
  rewrite (Sum_ext _ _ (fun i => f i p * N0 * el n i)).
  - rewrite (one_sum (fun i => f i p * N0)). ring.
  - intros i _. rewrite (one_sum (fun j => f i j * el n i)). ring.
Qed.
Lemma one_at j : (j < length b)%nat -> el n j = if Nat.eqb j p then N0 else 0.
Proof. intros H. destruct O as (_ & B). apply B. lia. Qed.
End One.

Lemma fins_inj (q q' : list R) : map Fin q = map Fin q' -> q = q'.
Proof.
  revert q'. induction q as [|x q IH]; intros [|y q'] E; try discriminate; auto.
  assert (H1 := f_equal (fun l => match l with Fin a :: _ => a | _ => 0 end) E). cbn in H1. assert (H2 := f_equal (fun l => tl l) E). cbn [map tl] in H2. f_equal; auto.
Qed.
Lemma holds_eq v w f : holdsGas v f -> holdsGas w f -> v = w.
Proof.
  intros (A1 & B1) (A2 & B2). apply nth_ext with (d := Fin 0) (d' := Fin 0); [congruence|]. intros i Hi.
  assert (E : nth_error v i = nth_error w i).
  { rewrite A1 in Hi. assert (exists sp, gasIdx sp = i) as (sp & <-).
    { do 11 (destruct i as [|i]; [first [now exists O2|now exists O_|now exists H2|now exists H_|now exists OH|now exists H2O|now exists CO|now exists C2H2|now exists C6H6|now exists C_|now exists CO2]|]). lia. }
    rewrite B1, B2. reflexivity. }
  rewrite (nth_error_nth' v (Fin 0)) in E by lia. rewrite (nth_error_nth' w (Fin 0)) in E by lia. congruence.
Qed.

Lemma C73_ (mS mM : model (N:=XR)) s s' g k c0 F ns n p N0 st eig : (0 < c0)%Z -> doubleAbove1 F -> sane ns ->
  let b := geometric c0 F ns in let x := el b p in let o := nucl k g (N0 * kernel k g (dimerMass g) x) in
  isSect mS b F -> hasAll mS k -> okAll k -> ownConst st F ->
  sm_psd mM = P_MONO -> hasAll mM k -> noTar mM -> length (wts s') = 1%nat -> length (absc s') = 1%nat ->
  0 < N0 -> length n = ns -> oneSize n p N0 -> valid s g n -> valid s' g [N0; N0 * x] -> regular k g N0 (N0 * x) ->
  exists st' rS rM t t' q q0 q1, setSourceTerms st eig mS s = Ok (st', rS, t) /\ setSourceTerms st eig mM s' = Ok (st, rM, t') /\
    soots rS = map Fin q /\ length q = ns /\ soots rM = [Fin q0; Fin q1] /\
    mass b q = q1 /\ gases rS = gases rM /\ (pahs mS = pahs mM -> pahs rS = pahs rM) /\
    number q - q0 =
      (oN1 o / el b 0 - oJ o)
      + (if Nat.eqb (S p) ns then (kgrow k g N0 (N0 * x) * sphere x + kernel k g (oMass o) x * oConc o * oMass o) * N0 / x else 0)
      - (if Nat.eqb p 0 then koxid k g N0 (N0 * x) * sphere x * N0 / x else 0)
      + (if Rle_dec (el b (ns - 1)) (2 * x) then 1 / 2 * kernel k g x x * N0 ^ 2 * (2 * x / el b (ns - 1) - 1) else 0).
Proof.
  intros Hc HF Hs b x o HS HMS OK HO PM HMM NT W A PN Ln ON V V' RG.
  assert (EL : length b = ns) by apply geo_len. pose proof (G_geo c0 F ns Hc HF Hs) as GB. fold b in GB.
  assert (Ln' : length n = length b) by congruence.
  assert (En : number n = N0) by (eapply one_number; eauto). assert (Em : mass b n = N0 * x) by (rewrite (one_mass b n p N0 Ln' ON); unfold x; ring).
  assert (Hp : (p < ns)%nat) by (destruct ON; lia). assert (Px : 0 < x) by (apply (bins_pos b GB); lia).
  destruct (C31_own_ mS s g k c0 F ns n st eig Hc HF Hs HS HMS OK V Ln ltac:(fold b; rewrite En, Em; exact RG) HO) as (rS & t & st' & E & _).
  pose proof (own_located st F HF HO) as LOC.
  assert (RG' : regular k g (number n) (mass b n)) by (rewrite En, Em; exact RG).
  destruct (C29_ mS rS s t g k b n F (/ ln F) st st' eig HS GB HMS OK V Ln' RG' LOC E) as (q & Q1 & Q2 & Q3 & Q4 & Q5).
  destruct (C30_ mS rS s t g k b n F (/ ln F) st st' eig HS GB HMS OK V Ln' RG' LOC E) as (q' & Q6 & _ & Q8).
  assert (q' = q) by (apply fins_inj; congruence). subst q'.
  assert (EX : N0 * x / N0 = x) by (field; lra).
  destruct (C22_ mM s' g k N0 (N0 * x) st eig PM HMM OK NT V' PN RG W A) as (rM & t' & E' & R1 & R2 & R3). cbv zeta in R1, R2. rewrite EX in R1, R2. fold o in R1, R2.
  assert (EH : dimerHits k g b n = N0 * kernel k g (dimerMass g) x).
  { unfold dimerHits. rewrite (one_sum b n p N0 Ln' ON (fun j => kernel k g (dimerMass g) (el b j))). fold x. ring. }
  rewrite EH in Q3, Q4, Q8. fold o in Q3, Q4, Q8. rewrite En, Em in Q3, Q4, Q8.
  rewrite (one_area b n p N0 Ln' ON) in Q3, Q4. fold x in Q3, Q4.
  exists st', rS, rM, t, t', q. do 2 eexists. split; [exact E|]. split; [exact E'|]. split; [exact Q1|]. split; [congruence|]. split; [exact R1|].
  split.
  { rewrite Q3. rewrite (one_sum b n p N0 Ln' ON (fun j => kernel k g (oMass o) (el b j))). fold x. ring. }
  split; [exact (holds_eq _ _ _ Q4 R2)|]. split; [intros EP; rewrite Q5, R3, EP; reflexivity|].
  rewrite Q8. rewrite (one_pairs b n p N0 Ln' ON (fun i j => kernel k g (el b i) (el b j))). fold x.
  assert (EB : lastBin b = (ns - 1)%nat) by (unfold lastBin; congruence). destruct Hs as (S1 & S2).
  assert (C1 : Sum (length b) (fun i => Sum (length b) (fun j => if Nat.leb (lastBin b) (binOf (/ ln F) b (el b i + el b j))
          then kernel k g (el b i) (el b j) * el n i * el n j * ((el b i + el b j) / el b (lastBin b) - 1) else 0))
     = (if Rle_dec (el b (ns - 1)) (2 * x) then kernel k g x x * (2 * x / el b (ns - 1) - 1) else 0) * N0 ^ 2).
  { rewrite (Sum_ext _ _ (fun i => Sum (length b) (fun j => (if Nat.leb (lastBin b) (binOf (/ ln F) b (el b i + el b j))
          then kernel k g (el b i) (el b j) * ((el b i + el b j) / el b (lastBin b) - 1) else 0) * el n i * el n j))).
    2: { intros i _. apply Sum_ext. intros j _. destruct (Nat.leb _ _); ring. }
    rewrite (one_pairs b n p N0 Ln' ON (fun i j => if Nat.leb (lastBin b) (binOf (/ ln F) b (el b i + el b j))
          then kernel k g (el b i) (el b j) * ((el b i + el b j) / el b (lastBin b) - 1) else 0)). fold x. rewrite EB. f_equal.
    replace (x + x) with (2 * x) by ring. destruct (C31_bracket c0 F ns Hc HF (conj S1 S2) p p Hp Hp) as (B1 & B2). cbv zeta in B1, B2. fold b x in B1, B2. rewrite EB in B1, B2.
    replace (x + x) with (2 * x) in B1, B2 by ring.
    destruct (Nat.leb_spec (ns - 1) (binOf (/ ln F) b (2 * x))) as [L|L], (Rle_dec (el b (ns - 1)) (2 * x)) as [R|R]; try reflexivity.
    - exfalso. apply R. now apply B2.
    - exfalso. destruct (B1 L) as ((_ & B3) & _). assert (el b (S (binOf (/ ln F) b (2 * x))) <= el b (ns - 1)); [|lra].
      destruct (Nat.eq_dec (S (binOf (/ ln F) b (2 * x))) (ns - 1)) as [->|Ne]; [lra|]. apply Rlt_le, (bins_lt b GB); lia. }
  rewrite C1. rewrite EB.
  assert (C2 : (kgrow k g N0 (N0 * x) * binArea b n (ns - 1) + condensed k g b n o (ns - 1)) / el b (ns - 1)
     = if Nat.eqb (S p) ns then (kgrow k g N0 (N0 * x) * sphere x + kernel k g (oMass o) x * oConc o * oMass o) * N0 / x else 0).
  { unfold binArea, condensed. rewrite (one_at b n p N0 Ln' ON (ns - 1)) by lia. destruct (Nat.eqb_spec (S p) ns) as [Q|Q].
    - replace (ns - 1)%nat with p by lia. rewrite Nat.eqb_refl. fold x. field. lra.
    - destruct (Nat.eqb_spec (ns - 1) p); [lia|]. unfold Rdiv. ring. }
  assert (C3 : koxid k g N0 (N0 * x) * binArea b n 0 / el b 0 = if Nat.eqb p 0 then koxid k g N0 (N0 * x) * sphere x * N0 / x else 0).
  { unfold binArea. rewrite (one_at b n p N0 Ln' ON 0) by lia. destruct (Nat.eqb_spec p 0) as [Q|Q].
    - rewrite Q at 1. cbn [Nat.eqb]. unfold x. rewrite Q. field. assert (0 < el b 0) by (apply (bins_pos b GB); lia). lra.
    - destruct p; [contradiction|]. cbn [Nat.eqb]. unfold Rdiv. ring. }
  rewrite C2, C3. destruct (Rle_dec (el b (ns - 1)) (2 * x)); ring.
Qed.

(** ** the length of a step *)
Section Loss.
Context (c0 : Z) (F : R) (ns : nat) (Hc : (0 < c0)%Z) (HF : doubleAbove1 F) (Hs : sane ns).
Context (s : state (N:=XR)) (g : gas) (k : mechs) (n : list R) (V : valid s g n) (OM : okAll k) (Ln : length n = ns).
Let b := geometric c0 F ns.
Let c := / ln F.
Let GB : goodBins b. Proof. now apply G_geo. Qed.
Let EL : length b = ns. Proof. apply geo_len. Qed.
Lemma up_ge r j : (j < ns)%nat -> (forall l, 0 <= r l) ->
  - (if Nat.eqb (S j) (length b) then 0 else r j / (el b (S j) - el b j)) <= moveUp b r j.
Proof.
  intros Hj Hr. unfold moveUp.
  assert (0 <= (if Nat.eqb j 0 then 0 else r (j - 1)%nat / (el b j - el b (j - 1)))).
  { destruct (Nat.eqb_spec j 0); [lra|]. apply Rmult_le_pos; auto. apply Rlt_le, Rinv_0_lt_compat.
    pose proof (bins_lt b GB (j - 1) j ltac:(lia) ltac:(lia)). lra. }
  destruct (Nat.eqb (S j) (length b)); [|lra].
  assert (0 <= r j / el b j); [|lra]. apply Rmult_le_pos; auto. apply Rlt_le, Rinv_0_lt_compat, (bins_pos b GB). lia.
Qed.
Lemma down_ge r j : (j < ns)%nat -> (forall l, 0 <= r l) ->
  - (r j / (if Nat.eqb j 0 then el b 0 else el b j - el b (j - 1))) <= moveDown b r j.
Proof.
  intros Hj Hr. unfold moveDown.
  assert (0 <= (if Nat.eqb (S j) (length b) then 0 else r (S j) / (el b (S j) - el b j))).
  { destruct (Nat.eqb_spec (S j) (length b)); [lra|]. apply Rmult_le_pos; auto. apply Rlt_le, Rinv_0_lt_compat.
    pose proof (bins_lt b GB j (S j) ltac:(lia) ltac:(lia)). lra. }
  destruct (Nat.eqb_spec j 0) as [->|]; lra.
Qed.
Lemma coag_ge j : (j < ns)%nat -> - (el n j * Sum (length b) (fun l => kernel k g (el b j) (el b l) * el n l)) <= coagAt k g b n c j.
Proof.
  intros Hj. pose proof OM as (_ & _ & _ & _ & OC & OF). unfold coagAt. cbv zeta. rewrite EL.
  assert (E : Sum ns (fun l => kernel k g (el b j) (el b l) * el n j * el n l) = el n j * Sum ns (fun l => kernel k g (el b j) (el b l) * el n l)).
  { rewrite <- Sum_scal. apply Sum_ext. intros; ring. }
  rewrite E. match goal with |- _ <= 1 / 2 * ?S - _ => assert (0 <= S); [|lra] end.
  apply Sum_nneg. intros i Hi. apply Sum_nneg. intros l Hl. apply Rmult_le_pos.
  - repeat apply Rmult_le_pos; try apply (SectBins.nel_nn s g n V). eapply kernel_nneg; eauto.
  - apply (credit_nneg c0 F ns Hc HF Hs); auto.
Qed.
Let o := nucl k g (dimerHits k g b n).
Lemma loss_ge j : (j < ns)%nat -> - (sectLoss k g b n o j * el n j) <= sectSource k g b n c o j.
Proof.
  intros Hj. pose proof OM as (_ & _ & _ & _ & OC & OF).
  assert (HI : 0 <= dimerHits k g b n). { apply Sum_nneg. intros l _. apply Rmult_le_pos; [|apply (SectBins.nel_nn s g n V)]. eapply kernel_nneg; eauto. }
  pose proof (kg_nn s g k n V (number n) (mass b n)) as KG. pose proof (ko_nn s g k n V (number n) (mass b n)) as KO.
  assert (BN : forall l, 0 <= binArea b n l) by (intros l; unfold binArea; apply Rmult_le_pos; [apply (SectBins.nel_nn s g n V)|apply SectBins.sphere_nn]).
  pose proof (up_ge (fun l => kgrow k g (number n) (mass b n) * binArea b n l) j Hj ltac:(intros; now apply Rmult_le_pos)) as U1.
  assert (CN : forall l, 0 <= condensed k g b n o l).
  { intros l. unfold condensed. repeat apply Rmult_le_pos; [eapply kernel_nneg; eauto|apply (SectBins.nel_nn s g n V)|eapply oConc_nn; eauto|eapply mass_nn; eauto]. }
  pose proof (up_ge (condensed k g b n o) j Hj CN) as U2.
  pose proof (down_ge (fun l => koxid k g (number n) (mass b n) * binArea b n l) j Hj ltac:(intros; now apply Rmult_le_pos)) as D1.
  pose proof (coag_ge j Hj) as C1.
  assert (N1 : 0 <= (if Nat.eqb j 0 then oN1 o / el b 0 else 0)).
  { destruct (Nat.eqb j 0); [|lra]. apply Rmult_le_pos; [eapply oN1_nn; eauto|]. apply Rlt_le, Rinv_0_lt_compat, (bins_pos b GB). lia. }
  unfold sectSource, sectLoss. cbv zeta. set (M0 := number n) in *. set (M1 := mass b n) in *.
  set (u1 := moveUp b (fun l => kgrow k g M0 M1 * binArea b n l) j) in *. set (u2 := moveUp b (condensed k g b n o) j) in *.
  set (d1 := moveDown b (fun l => koxid k g M0 M1 * binArea b n l) j) in *. set (c1 := coagAt k g b n c j) in *.
  match type of C1 with - (el n j * ?S) <= _ => set (sk := S) in * end.
  cbv beta in U1, D1. unfold binArea in U1, D1. unfold condensed in U2.
  destruct (Nat.eqb (S j) (length b)); unfold Rdiv in *.
  - match goal with |- - ((0 + ?a * ?s * ?i + sk) * el n j) <= _ => replace (- ((0 + a * s * i + sk) * el n j)) with (- (a * (el n j * s) * i) + - (el n j * sk)) by ring end. lra.
  - match goal with |- - (((?u * ?s + ?v * ?w * ?x) * ?i + ?a * ?s * ?i2 + sk) * el n j) <= _ =>
      replace (- (((u * s + v * w * x) * i + a * s * i2 + sk) * el n j)) with (- (u * (el n j * s) * i) + - (v * el n j * w * x * i) + - (a * (el n j * s) * i2) + - (el n j * sk)) by ring end. lra.
Qed.
End Loss.

Lemma step_nn dt y q l : 0 <= dt -> 0 <= y -> - (l * y) <= q -> dt * l <= 1 -> 0 <= y + dt * q.
Proof.
  intros D Y Q L. assert (- (dt * l * y) <= dt * q). { replace (- (dt * l * y)) with (dt * - (l * y)) by ring. now apply Rmult_le_compat_l. }
  assert (dt * l * y <= 1 * y) by (apply Rmult_le_compat_r; auto). lra.
Qed.
Lemma in_euler dt y q : length y = length q -> forall z, In z (euler dt y q) -> exists j, (j < length y)%nat /\ z = el y j + dt * el q j.
Proof.
  intros E z H. unfold euler in H. apply in_map_iff in H. destruct H as ((a & c) & <- & H).
  destruct (In_nth _ _ (0, 0) H) as (j & Hj & Ej). rewrite combine_length, <- E, Nat.min_id in Hj. exists j. split; [exact Hj|].
  rewrite combine_nth in Ej by auto. unfold el. assert (nth j y 0 = a) as -> by congruence. assert (nth j q 0 = c) as -> by congruence. reflexivity.
Qed.

Lemma C74_sect_ m s g k c0 F ns n st eig : (0 < c0)%Z -> doubleAbove1 F -> sane ns ->
  let b := geometric c0 F ns in
  isSect m b F -> hasAll m k -> okAll k -> valid s g n -> length n = ns -> regular k g (number n) (mass b n) -> ownConst st F ->
  let loss := sectLoss k g b n (nucl k g (dimerHits k g b n)) in
  exists st' m' s' q, setSourceTerms st eig m s = Ok (st', m', s') /\ soots m' = map Fin q /\ length q = ns /\
    (forall j, (j < ns)%nat -> - (loss j * el n j) <= el q j) /\
    forall dt, 0 <= dt -> (forall j, (j < ns)%nat -> dt * loss j <= 1) -> forall y, In y (euler dt n q) -> 0 <= y.
Proof.
  intros Hc HF Hs b HS HM OK V Ln RG HO loss.
  destruct (C31_own_ m s g k c0 F ns n st eig Hc HF Hs HS HM OK V Ln RG HO) as (m' & s' & st' & E & _ & _ & _ & Q).
  exists st', m', s'. eexists. split; [exact E|]. split; [exact Q|]. match type of Q with _ = map Fin ?l => set (q := l) in * end.
  assert (Lq : length q = ns) by (unfold q; now rewrite map_length, seq_length). split; [exact Lq|].
  assert (B : forall j, (j < ns)%nat -> - (loss j * el n j) <= el q j).
  { intros j Hj. unfold q. rewrite el_seq by auto. now apply (loss_ge c0 F ns Hc HF Hs s g k n V OK). }
  split; [exact B|]. intros dt D L y I. destruct (in_euler dt n q ltac:(congruence) y I) as (j & Hj & ->). rewrite Ln in Hj.
  apply (step_nn dt (el n j) (el q j) (loss j)); auto. apply (SectBins.nel_nn s g n V).
Qed.

Section StepMono.
Context (m : model (N:=XR)) (s : state (N:=XR)) (g : gas) (k : mechs) (M0 M1 : R) (st : option xr) (eig : Qmom.eigSolver (N:=XR)).
Context (PM : sm_psd m = P_MONO) (HM : hasAll m k) (OK : okAll k) (NT : noTar m) (V : valid s g [M0; M1]) (PN : 0 < M0) (RG : regular k g M0 M1).
Context (W : length (wts s) = 1%nat) (A : length (absc s) = 1%nat).
Lemma C74_mono_ : exists m' s' q0 q1, setSourceTerms st eig m s = Ok (st, m', s') /\ soots m' = [Fin q0; Fin q1] /\
    - (monoLoss0 k g M0 M1 * M0) <= q0 /\ - (monoLoss1 k g M0 M1 * M1) <= q1 /\
    (mN k = N_NONE -> q0 = - (monoLoss0 k g M0 M1 * M0)) /\
    forall dt, 0 <= dt -> dt * monoLoss0 k g M0 M1 <= 1 -> dt * monoLoss1 k g M0 M1 <= 1 -> forall y, In y (euler dt [M0; M1] [q0; q1]) -> 0 <= y.
Proof.
  destruct (C22_ m s g k M0 M1 st eig PM HM OK NT V PN RG W A) as (m' & s' & E & Q & _). cbv zeta in Q.
  set (x := M1 / M0) in *. set (i := M0 * kernel k g (dimerMass g) x) in *. set (o := nucl k g i) in *.
  pose proof OK as (_ & _ & _ & _ & OC & OF).
  assert (P1 : 0 <= M1) by (apply (v_sootpos _ _ _ V); cbn; auto).
  assert (HI : 0 <= i) by (apply Rmult_le_pos; [lra|eapply kernel_nneg; eauto]).
  assert (N1 : 0 <= oN1 o) by (eapply oN1_nn; eauto).
  assert (J : 0 <= oJ o).
  { unfold o, nucl. destruct (isP k) eqn:EP; cbn [oJ]; [|eapply nuclFormula_nneg; eauto].
    unfold pahNuclRate, dimerConc. destruct (Rlt_dec 0 (pahTotal g)) as [H|H]; [|lra].
    pose proof (betaSelf_pos (gT g) (dimerMass g) (v_Tpos _ _ _ V) (dimerMass_pos s g _ V H)) as B.
    apply Rmult_le_pos; [lra|]. apply pow2_ge_0. }
  pose proof (kg_nn s g k _ V M0 M1) as KG. pose proof (ko_nn s g k _ V M0 M1) as KO. pose proof (SectBins.sphere_nn x) as SX.
  exists m', s'. do 2 eexists. split; [exact E|]. split; [exact Q|].
  assert (B0 : - (monoLoss0 k g M0 M1 * M0) <= oJ o - 1 / 2 * kernel k g x x * M0 ^ 2) by (unfold monoLoss0; fold x; lra).
  assert (B1 : - (monoLoss1 k g M0 M1 * M1) <= oN1 o + kernel k g (oMass o) x * M0 * oConc o * oMass o + (kgrow k g M0 M1 - koxid k g M0 M1) * (M0 * sphere x)).
  { assert (E1 : monoLoss1 k g M0 M1 * M1 = koxid k g M0 M1 * (M0 * sphere x)).
    { unfold monoLoss1. fold x. destruct (Rlt_dec 0 M1) as [Z|Z]; [field; lra|]. assert (M1 = 0) by lra.
      assert (x = 0) as -> by (unfold x; rewrite H; unfold Rdiv; ring). unfold sphere. destruct (Rlt_dec 0 0); [lra|]. ring. }
    rewrite E1. assert (0 <= kernel k g (oMass o) x * M0 * oConc o * oMass o).
    { repeat apply Rmult_le_pos; [eapply kernel_nneg; eauto|lra|eapply oConc_nn; eauto|eapply mass_nn; eauto]. }
    assert (0 <= kgrow k g M0 M1 * (M0 * sphere x)) by (repeat apply Rmult_le_pos; lra). lra. }
  split; [exact B0|]. split; [exact B1|]. split.
  { intros EN. assert (oJ o = 0) as ->. { unfold o, nucl, isP. rewrite EN. cbn [oJ]. unfold Jnuc. rewrite EN. reflexivity. }
    unfold monoLoss0. fold x. ring. }
  intros dt D L0 L1 y [<-|[<-|[]]]; cbn [fst snd]; [apply (step_nn dt M0 _ _ D (Rlt_le _ _ PN) B0 L0)|apply (step_nn dt M1 _ _ D P1 B1 L1)].
Qed.
(** without nucleation the bound on the number is the exact one *)
Lemma C74_sharp_ : mN k = N_NONE -> exists m' s' q0 q1, setSourceTerms st eig m s = Ok (st, m', s') /\ soots m' = [Fin q0; Fin q1] /\
    forall dt, 0 <= M0 + dt * q0 <-> dt * monoLoss0 k g M0 M1 <= 1.
Proof.
  intros EN. destruct C74_mono_ as (m' & s' & q0 & q1 & E & Q & _ & _ & Z & _). exists m', s', q0, q1. split; [exact E|]. split; [exact Q|].
  intros dt. rewrite (Z EN). replace (M0 + dt * - (monoLoss0 k g M0 M1 * M0)) with (M0 * (1 - dt * monoLoss0 k g M0 M1)) by ring. split; intros H.
  - apply Rmult_le_reg_l with M0; [exact PN|]. lra.
  - apply Rmult_le_pos; lra.
Qed.
End StepMono.

(** ** cases *)
Lemma C73_case_ nm : nm = N_LL \/ nm = N_PAH -> exists (mS mM : model (N:=XR)) s s' g k n N0, let b := geometric 100 2 4 in
  isSect mS b 2 /\ hasAll mS k /\ okAll k /\ sm_psd mM = P_MONO /\ hasAll mM k /\ noTar mM /\ length (wts s') = 1%nat /\ length (absc s') = 1%nat /\
  0 < N0 /\ length n = 4%nat /\ oneSize n 1 N0 /\ valid s g n /\ valid s' g [N0; N0 * el b 1] /\ regular k g N0 (N0 * el b 1) /\
  doubleAbove1 2 /\ SpecSect.sane 4 /\ ownConst None 2 /\ mN k = nm /\ mC k = C_FM /\ massCutoff < el b 1 /\ 2 * el b 1 < el b 3 /\ pahs mS = pahs mM /\ gCMin g = 100.
Proof.
  intros Hn. assert (Hn' : nm = N_LL \/ nm = N_PAH \/ nm = N_NONE) by tauto.
  assert (exists m, constructEnum (N:=XR) P_SECT 4 nm G_LL O_LL C_FM 0 T_NONE (Fin 2) 100 = Ok m) as (m & E0) by (destruct Hn as [->| ->]; eexists; reflexivity).
  destruct (C28_enum _ _ _ _ _ _ _ _ _ _ (eq_refl : (0 < 100)%Z) (ltac:(lra) : 1 < 2) E0) as (A & B & C).
  destruct (sect_state [0; 1; 0; 0] eq_refl) as (s & V). { intros x [<-|[<-|[<-|[<-|[]]]]]; lra. }
  pose proof (ok_sect nm G_LL O_LL Hn' ltac:(auto) ltac:(auto)) as D.
  set (b := geometric 100 2 4). assert (G : goodBins b) by (apply geo_good; [lia|lia|lra]).
  assert (P1 : 0 < el b 1) by (apply (bins_pos b G); unfold b; rewrite geo_len; lia).
  destruct (demo_any (newState 2 0) [1; 1 * el b 1] [] eq_refl eq_refl eq_refl) as (s' & _ & V' & _ & EW & EA & _); [intros y [<-|[<-|[]]]; lra|intros ? []|].
  assert (exists mM, constructEnum (N:=XR) P_MONO 2 nm G_LL O_LL C_FM 0 T_NONE (nZ 2) 100 = Ok mM) as (mM & E) by (destruct Hn as [->| ->]; eexists; reflexivity).
  destruct (built _ _ _ _ _ _ _ _ _ _ _ E) as (H & Hp & _ & Ht & _ & HSo & _).
  exists m, mM, s, s', demoGas, (mkMechs nm G_LL O_LL C_FM 1), [0; 1; 0; 0], 1. cbv zeta. fold b.
  do 3 (split; [assumption|]). split; [exact Hp|]. split; [exact H|]. split; [exact Ht|]. rewrite EW, EA. split; [reflexivity|]. split; [reflexivity|]. split; [lra|]. split; [reflexivity|].
  split. { split; [cbn; lia|]. intros [|[|[|[|j]]]] Hj; cbn in Hj |- *; auto; lia. }
  split; [exact V|]. split; [exact V'|]. split; [now apply reg_sect; auto|]. split; [exact double2|]. split; [exact sane4|]. split; [left; reflexivity|].
  split; [reflexivity|]. split; [reflexivity|]. pose proof (cut_100 2) as Q. fold b in Q.
  pose proof (bins_lt b G 0 1 ltac:(lia) ltac:(unfold b; rewrite geo_len; lia)). split; [lra|].
  pose proof unit_pos. split; [unfold b; rewrite !geo_el by lia; cbn [pow]; nra|].
  destruct (built _ _ _ _ _ _ _ _ _ _ _ E0) as (_ & _ & _ & _ & _ & HSo' & _). split; [unfold pahs; rewrite HSo, HSo'; reflexivity|reflexivity].
Qed.
Lemma C73_same_ (mS mM : model (N:=XR)) s s' g k c0 F ns n p N0 st eig : (0 < c0)%Z -> doubleAbove1 F -> SpecSect.sane ns ->
  let b := geometric c0 F ns in let x := el b p in
  isSect mS b F -> hasAll mS k -> okAll k -> ownConst st F ->
  sm_psd mM = P_MONO -> hasAll mM k -> noTar mM -> length (wts s') = 1%nat -> length (absc s') = 1%nat ->
  0 < N0 -> length n = ns -> oneSize n p N0 -> valid s g n -> valid s' g [N0; N0 * x] -> regular k g N0 (N0 * x) ->
  mN k = N_NONE \/ isP k = false /\ gCMin g = IZR c0 -> (0 < p)%nat -> (S p < ns)%nat -> 2 * x < el b (ns - 1) ->
  exists st' rS rM t t' q q0 q1, setSourceTerms st eig mS s = Ok (st', rS, t) /\ setSourceTerms st eig mM s' = Ok (st, rM, t') /\
    soots rS = map Fin q /\ soots rM = [Fin q0; Fin q1] /\ number q = q0 /\ mass b q = q1 /\ gases rS = gases rM.
Proof.
  intros Hc HF Hs b x HS HMS OK HO PM HMM NT W A PN Ln ON V V' RG NU P1 P2 P3.
  destruct (C73_ mS mM s s' g k c0 F ns n p N0 st eig Hc HF Hs HS HMS OK HO PM HMM NT W A PN Ln ON V V' RG) as (st' & rS & rM & t & t' & q & q0 & q1 & E & E' & Q & _ & R & QM & QG & _ & QN).
  fold b in QN. fold x in QN. exists st', rS, rM, t, t', q, q0, q1. split; [exact E|]. split; [exact E'|]. split; [exact Q|]. split; [exact R|].
  split; [|split; [exact QM|exact QG]].
  destruct (Nat.eqb_spec (S p) ns); [lia|]. destruct (Nat.eqb_spec p 0); [lia|]. destruct (Rle_dec (el b (ns - 1)) (2 * x)); [lra|].
  match type of QN with _ = ?a - ?b + 0 - 0 + 0 => assert (a - b = 0); [|lra] end.
  assert (B0 : el b 0 = IZR c0 * (massC / avogadro)) by (unfold b; destruct Hs; rewrite geo_el by lia; cbn [pow]; ring).
  pose proof unit_pos. assert (0 < IZR c0) by (now apply (IZR_lt 0)). assert (0 < el b 0) by (rewrite B0; now apply Rmult_lt_0_compat).
  destruct NU as [NN|(NP & EC)].
  - unfold oN1, nucl, isP. rewrite NN. cbn [oJ oGas]. unfold Jnuc. rewrite NN. cbn [nuclFormula]. unfold Rdiv. ring.
  - unfold oN1, nucl. rewrite NP. cbn [oJ oGas]. assert (nucMass g = el b 0) as ->. { unfold nucMass. rewrite EC, B0. unfold Rdiv. ring. }
    field. lra.
Qed.
Lemma C74_case_ : exists (m : model (N:=XR)) s g k M0 M1,
  sm_psd m = P_MONO /\ hasAll m k /\ okAll k /\ mN k = N_NONE /\ noTar m /\ valid s g [M0; M1] /\ 0 < M0 /\ regular k g M0 M1 /\
  length (wts s) = 1%nat /\ length (absc s) = 1%nat /\ 0 < monoLoss0 k g M0 M1.
Proof.
  destruct (demo_any (newState 2 0) [1; 1] [] eq_refl eq_refl eq_refl in11) as (s & _ & V & _ & EW & EA & _); [intros ? []|].
  destruct (constructEnum (N:=XR) P_MONO 2 N_NONE G_LL O_LL C_FM 0 T_NONE (nZ 2) 100) as [m| |] eqn:E; try discriminate.
  destruct (built _ _ _ _ _ _ _ _ _ _ _ E) as (H & Hp & _ & Ht & _).
  exists m, s, demoGas, (mkMechs N_NONE G_LL O_LL C_FM 1), 1, 1. pose proof cut_small.
  split; [exact Hp|]. split; [exact H|]. split; [apply ok_sect; auto|].
  split; [reflexivity|]. split; [exact Ht|]. split; [exact V|]. split; [lra|].
  split; [intros [K|K]; discriminate|]. rewrite EW, EA. split; [reflexivity|]. split; [reflexivity|].
  unfold monoLoss0. replace (1 / 1) with 1 by field. assert (0 < kernel (mkMechs N_NONE G_LL O_LL C_FM 1) demoGas 1 1); [|lra].
  eapply kernel_pos; eauto; cbn; try lra; discriminate.
Qed.
