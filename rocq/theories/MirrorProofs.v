(** Proofs for C90: the quadrature method and moments that belong to no population. *)
From Coq Require Import ZArith List Bool Reals Lra Lia Permutation.
From Verif Require Import Num Defs State Binomial Coag Nucl Growth Oxid Tar SootModel Mono Qmom Calls XR XRLemmas NumLaws SpecState SpecBinomial
  SpecChem SpecCoag SpecValid SpecRates SpecGas SpecPah SpecPsd SpecSect SpecQmom SpecStep SpecMirror CoagProofs StateXR ValidProofs InterpProofs GasProofs RateProofs PsdProofs PahProofs MonoProofs MonoTar MonoMain MonoCases ChemAll SectProofs SectMain SectFinal QmomProofs QmomRun QmomMain GaussProofs GaussMain QmomFinal QmomCases QmomSame ScaleMain StepProofs.
Import ListNotations.
Local Open Scope R_scope.

(** ** the mirror image *)
Lemma mirror_el M r : (r < 4)%nat -> el (mirror M) r = 2 * (el M 0 * (el M 1 / el M 0) ^ r) - el M r.
Proof. intros H. unfold mirror. now rewrite el_seq. Qed.
Lemma mirror_0 M : el (mirror M) 0 = el M 0. Proof. rewrite mirror_el by lia. cbn [pow]. ring. Qed.
Lemma mirror_1 M : 0 < el M 0 -> el (mirror M) 1 = el M 1. Proof. intros. rewrite mirror_el by lia. cbn [pow]. field. lra. Qed.

Section Values.
Context (M : list R) (P : 0 < el M 0).
Let mu := el M 1 / el M 0.
Let v := el M 2 - mu * el M 1.
Let t := el M 3 - mu * el M 2.
Lemma a0 : aW (el M) 0 = mu. Proof. reflexivity. Qed.
Lemma s0 j : sg (el M) 0 j = el M j. Proof. reflexivity. Qed.
Lemma s11 : sg (el M) 1 1 = v. Proof. rewrite sg_S, b_0, a0, !s0. unfold v. ring. Qed.
Lemma s12 : sg (el M) 1 2 = t. Proof. rewrite sg_S, b_0, a0, !s0. unfold t. ring. Qed.
Lemma a1 : aW (el M) 1 = - mu + t / v. Proof. rewrite a_S, s11, s12, !s0. unfold mu, Rdiv. ring. Qed.
Lemma b1 : bW (el M) 1 = v / el M 0. Proof. now rewrite b_S, s11, s0. Qed.
End Values.
Lemma wh_val M : 0 < el M 0 -> el M 0 * el M 2 <> el M 1 ^ 2 ->
  let mu := el M 1 / el M 0 in let v := el M 2 - mu * el M 1 in
  wheelerAB (N:=XR) (map Fin M) 2 = ([Fin mu; Fin (- mu + (el M 3 - mu * el M 2) / v)], [Fin (v / el M 0)]) /\ v <> 0.
Proof.
  intros P N mu v. assert (NV : v <> 0).
  { intros Z. apply N. unfold v, mu in Z. apply (Rmult_eq_reg_l (/ el M 0)); [|apply Rinv_neq_0_compat; lra].
    replace (/ el M 0 * (el M 0 * el M 2)) with (el M 2) by (field; lra). replace (/ el M 0 * el M 1 ^ 2) with (el M 1 / el M 0 * el M 1) by (field; lra). lra. }
  split; [|exact NV]. rewrite wheelerAB_val; [|lia|].
  - cbn [seq map Nat.sub]. rewrite a0, a1, b1. reflexivity.
  - intros [|[|i]] Hi; [rewrite s0; lra|rewrite s11; exact NV|lia].
Qed.
Lemma abs_opp a : @nabs XR (Fin (- a)) = @nabs XR (Fin a).
Proof. change (Fin (Rabs (- a)) = Fin (Rabs a)). now rewrite Rabs_Ropp. Qed.
Lemma wheeler_mirror eig M : 0 < el M 0 -> el M 0 * el M 2 <> el M 1 ^ 2 ->
  wheeler (N:=XR) eig (map Fin (mirror M)) 2 = wheeler (N:=XR) eig (map Fin M) 2.
Proof.
  intros P N. pose proof (mirror_0 M) as E0. pose proof (mirror_1 M P) as E1.
  assert (E2 : el (mirror M) 2 = 2 * (el M 1 / el M 0 * el M 1) - el M 2) by (rewrite mirror_el by lia; cbn [pow]; field; lra).
  assert (E3 : el (mirror M) 3 = 2 * (el M 1 / el M 0 * (el M 1 / el M 0 * el M 1)) - el M 3) by (rewrite mirror_el by lia; cbn [pow]; field; lra).
  assert (N' : el (mirror M) 0 * el (mirror M) 2 <> el (mirror M) 1 ^ 2).
  { rewrite E0, E1, E2. intros Q. apply N. replace (el M 0 * (2 * (el M 1 / el M 0 * el M 1) - el M 2)) with (2 * el M 1 ^ 2 - el M 0 * el M 2) in Q by (field; lra). lra. }
  destruct (wh_val M P N) as (W & NV). destruct (wh_val (mirror M) ltac:(rewrite E0; exact P) N') as (W' & NV').
  cbv zeta in *. unfold wheeler. rewrite W, W'. rewrite E0, E1, E2, E3 in *. set (mu := el M 1 / el M 0) in *. set (v := el M 2 - mu * el M 1) in *.
  assert (A : (2 * (mu * (mu * el M 1)) - el M 3 - mu * (2 * (mu * el M 1) - el M 2)) / (2 * (mu * el M 1) - el M 2 - mu * el M 1) = (el M 3 - mu * el M 2) / v).
  { replace (2 * (mu * el M 1) - el M 2 - mu * el M 1) with (- v) by (unfold v; ring). replace (2 * (mu * (mu * el M 1)) - el M 3 - mu * (2 * (mu * el M 1) - el M 2)) with (- (el M 3 - mu * el M 2)) by ring. field. exact NV. }
  rewrite A. replace ((2 * (mu * el M 1) - el M 2 - mu * el M 1) / el M 0) with (- (v / el M 0)) by (unfold v; field; lra).
  cbn [map]. rewrite abs_opp.
  assert (EN : @nth (@num XR) 0 (map Fin (mirror M)) (@nZ XR 0) = @nth (@num XR) 0 (map Fin M) (@nZ XR 0)).
  { change (@nZ XR 0) with (Fin 0). rewrite !nth_fin. change (nth 0 (mirror M) 0) with (el (mirror M) 0). change (nth 0 M 0) with (el M 0). now rewrite E0. }
  rewrite EN. reflexivity.
Qed.
Lemma nodes_mirror eig M (w a : list xr) : length M = 4%nat -> 0 < el M 0 -> el M 0 * el M 2 <> el M 1 ^ 2 ->
  getWtsAbs (N:=XR) eig (map Fin (mirror M)) w a = getWtsAbs (N:=XR) eig (map Fin M) w a.
Proof.
  intros L P N. assert (L' : length (mirror M) = 4%nat) by (unfold mirror; now rewrite map_length, seq_length).
  unfold getWtsAbs. rewrite !vget_fin by lia. rewrite !map_length, L, L'. change (nth 0 (mirror M) 0) with (el (mirror M) 0). change (nth 0 M 0) with (el M 0).
  rewrite mirror_0. assert (D : downselect (N:=XR) eig (map Fin (mirror M)) (Nat.div 4 2) = downselect (N:=XR) eig (map Fin M) (Nat.div 4 2)).
  { change (Nat.div 4 2) with 2%nat. cbn [downselect]. rewrite wheeler_mirror by auto. rewrite !vget_fin by lia.
    change (nth 0 (mirror M) 0) with (el (mirror M) 0). change (nth 0 M 0) with (el M 0). change (nth 1 (mirror M) 0) with (el (mirror M) 1). change (nth 1 M 0) with (el M 1).
    now rewrite mirror_0, mirror_1. }
  rewrite D. reflexivity.
Qed.

Lemma mirror_l m s s2 g k M eig st : readyQmom m s g k M 2 -> readyQmom m s2 g k (mirror M) 2 -> 0 < el M 0 -> el M 0 * el M 2 <> el M 1 ^ 2 ->
  exists m1 m2 s1' s2' w x, setSourceTerms st eig m s = Ok (st, m1, s1') /\ setSourceTerms st eig m s2 = Ok (st, m2, s2') /\
    nodesAre s1' w x /\ nodesAre s2' w x /\ soots m1 = soots m2 /\ gases m1 = gases m2 /\ pahs m1 = pahs m2.
Proof.
  intros R1 R2 P N. assert (HC : mC k = C_NONE \/ (2 <= 17)%nat) by (right; lia).
  destruct (r_nodes m s g k M 2 eig R1) as (w & x & EN & Lw & Lx & NW & NX & NO & _).
  destruct (r_nodes m s2 g k (mirror M) 2 eig R2) as (w2 & x2 & EN2 & Lw2 & Lx2 & NW2 & NX2 & NO2 & _).
  assert (Q : w2 = w /\ x2 = x).
  { pose proof R1 as (_ & _ & _ & _ & L & _). unfold nodesOf in NO, NO2. rewrite nodes_mirror in NO2 by (auto; lia). rewrite NO in NO2.
    apply (f_equal (fun r => match r with Ok x => x | _ => ([], []) end)) in NO2.
    split; apply map_Fin_inj; [apply (f_equal fst) in NO2|apply (f_equal snd) in NO2]; cbn [fst snd] in NO2; now symmetry. }
  destruct Q as (-> & ->).
  destruct (r_call m s g k M 2 eig st R1 HC w x EN Lw Lx NW NX) as (m1 & s1 & C1 & D1 & S1 & G1 & H1 & _).
  destruct (r_call m s2 g k (mirror M) 2 eig st R2 HC w x EN2 Lw Lx NW NX) as (m2 & s2' & C2 & D2 & S2 & G2 & H2 & _).
  rewrite mirror_0, mirror_1 in S2, G2 by auto.
  exists m1, m2, s1, s2', w, x. split; [exact C1|]. split; [exact C2|]. split; [exact D1|]. split; [exact D2|]. split; [congruence|]. split; [|congruence].
  eapply holds_eq; [exact G1|exact G2].
Qed.

(** ** impossible moments *)
Lemma spread W X : population W X -> nodeMoment W X 1 ^ 2 <= nodeMoment W X 0 * nodeMoment W X 2.
Proof.
  intros (L & PW & PX & _). set (a := nodeMoment W X 0). set (b := nodeMoment W X 1). set (c := nodeMoment W X 2).
  assert (Q : Sum (length W) (fun i => el W i * (a * el X i - b) ^ 2) = a * (a * c - b ^ 2)).
  { transitivity (a ^ 2 * c - 2 * a * b * b + b ^ 2 * a); [|ring]. 
    rewrite (Sum_ext _ _ (fun i => a ^ 2 * (el W i * el X i ^ 2) + (- 2 * a * b * (el W i * el X i ^ 1) + b ^ 2 * (el W i * el X i ^ 0)))) by (intros i _; ring).
    rewrite !Sum_add, !Sum_scal. fold (nodeMoment W X 0) (nodeMoment W X 1) (nodeMoment W X 2). fold a b c. ring. }
  assert (PQ : 0 <= Sum (length W) (fun i => el W i * (a * el X i - b) ^ 2)).
  { apply Sum_nneg. intros i Hi. apply Rmult_le_pos; [|apply pow2_ge_0]. apply Rlt_le, PW. now apply nth_In. }
  destruct W as [|w0 W].
  - unfold a, b, c, nodeMoment. cbn [length]. unfold Sum. cbn. lra.
  - assert (0 < a). { unfold a, nodeMoment. rewrite Sum_first by (cbn; lia). apply Rplus_lt_le_0_compat.
      + cbn [pow]. rewrite Rmult_1_r. apply PW. now left.
      + apply Sum_nneg. intros i Hi. cbn [pow]. rewrite Rmult_1_r. apply Rlt_le, PW. apply nth_In. cbn [length] in *. lia. }
    rewrite Q in PQ. apply Rmult_le_reg_l with a; [assumption|]. lra.
Qed.
Lemma nobody W X M : population W X -> impossible M -> momentsOf W X 4 <> M.
Proof.
  intros P I E. pose proof (spread W X P) as S. rewrite <- E in I. unfold impossible, momentsOf in I. rewrite !el_seq in I by lia. lra.
Qed.

Lemma mirror_side M : 0 < el M 0 -> (el M 1 ^ 2 < el M 0 * el M 2 <-> impossible (mirror M)).
Proof.
  intros P. unfold impossible. rewrite mirror_0, mirror_1, mirror_el by (auto; lia).
  replace (el M 0 * (2 * (el M 0 * (el M 1 / el M 0) ^ 2) - el M 2)) with (2 * el M 1 ^ 2 - el M 0 * el M 2) by (field; lra). split; lra.
Qed.

(** ** explicit steps *)
Lemma gone k g M0 M1 w x r : growthOnly k -> qmomSource k g M0 M1 w x (nucl k g (nodeHits k g w x)) r = kgrow k g M0 M1 * areaCoef * INR r * fracMoment w x (INR r - 1 / 3).
Proof.
  intros (Hn & Ho & Hc). unfold qmomSource. assert (S : smoluchowski k g w x r = 0).
  { unfold smoluchowski. rewrite Sum_0; [ring|]. intros i _. apply Sum_0. intros j _. rewrite kernel_none by auto. ring. }
  assert (O : koxid k g M0 M1 = 0) by (unfold koxid; rewrite Ho; reflexivity).
  assert (U : nucl k g (nodeHits k g w x) = mkOut (Jnuc k g) g 0 0) by (unfold nucl, isP; rewrite Hn; reflexivity).
  assert (J : Jnuc k g = 0) by (unfold Jnuc; rewrite Hn; reflexivity).
  rewrite U, S, O, J. unfold condense. cbn [oJ oConc oMass oGas]. ring.
Qed.
Lemma euler_el dt y q r : (r < length y)%nat -> length q = length y -> el (euler dt y q) r = el y r + dt * el q r.
Proof.
  intros H L. unfold euler, el. rewrite (nth_indep _ 0 (0 + dt * 0)) by (rewrite map_length, combine_length; lia).
  change (0 + dt * 0) with ((fun p => fst p + dt * snd p) (0, 0)). rewrite map_nth, combine_nth by auto. reflexivity.
Qed.
Lemma quadratic c B D : 0 < B -> 0 < D -> let z := (c + sqrt (c ^ 2 + B ^ 2 * D)) / B ^ 2 in
  0 < z /\ forall y, 0 <= y -> (D + 2 * y * c - y ^ 2 * B ^ 2 < 0 <-> z < y).
Proof.
  intros PB PD z. assert (P2 : 0 < B ^ 2) by (apply pow_lt; auto). assert (PP : 0 < B ^ 2 * D) by (apply Rmult_lt_0_compat; auto).
  pose proof (pow2_ge_0 c). set (q := sqrt (c ^ 2 + B ^ 2 * D)) in *.
  assert (Q2 : q * q = c ^ 2 + B ^ 2 * D) by (apply sqrt_sqrt; lra). assert (Q0 : 0 <= q) by apply sqrt_pos.
  assert (QC : Rabs c < q). { rewrite <- sqrt_Rsqr_abs. apply sqrt_lt_1; unfold Rsqr; lra. }
  assert (Q1 : - q < c < q) by (unfold Rabs in QC; destruct (Rcase_abs c); lra).
  assert (Z : 0 < z) by (apply Rdiv_lt_0_compat; lra). split; [exact Z|]. intros y Hy.
  assert (E : B ^ 2 * (D + 2 * y * c - y ^ 2 * B ^ 2) = (q + c - y * B ^ 2) * (q - c + y * B ^ 2)).
  { replace ((q + c - y * B ^ 2) * (q - c + y * B ^ 2)) with (q * q - (c - y * B ^ 2) ^ 2) by ring. rewrite Q2. ring. }
  assert (U : 0 < q - c + y * B ^ 2) by (pose proof (Rmult_le_pos y (B ^ 2) Hy (Rlt_le _ _ P2)); lra).
  assert (V : z * B ^ 2 = c + q) by (unfold z; field; lra). split; intros I.
  - destruct (Rlt_le_dec z y); [assumption|exfalso]. assert (y * B ^ 2 <= z * B ^ 2) by (apply Rmult_le_compat_r; lra).
    assert (0 <= (q + c - y * B ^ 2) * (q - c + y * B ^ 2)) by (apply Rmult_le_pos; lra). rewrite <- E in H1.
    assert (B ^ 2 * (D + 2 * y * c - y ^ 2 * B ^ 2) < B ^ 2 * 0) by (apply Rmult_lt_compat_l; lra). lra.
  - assert (z * B ^ 2 < y * B ^ 2) by (apply Rmult_lt_compat_r; lra). apply Rmult_lt_reg_l with (B ^ 2); [exact P2|]. rewrite E, Rmult_0_r.
    assert (0 < (y * B ^ 2 - (q + c)) * (q - c + y * B ^ 2)) by (apply Rmult_lt_0_compat; lra). lra.
Qed.
Lemma strict_spread W X : population W X -> (2 <= length X)%nat -> nodeMoment W X 1 ^ 2 < nodeMoment W X 0 * nodeMoment W X 2 /\ 0 < nodeMoment W X 0.
Proof.
  intros PO L. destruct (pop_realizable W X 2 PO L) as (A & _). pose proof PO as (LW & PW & PX & _).
  assert (EM : forall r, (r < 4)%nat -> el (momentsOf W X (2 * 2)) r = nodeMoment W X r) by (intros; unfold momentsOf; apply el_seq; auto).
  assert (P : 0 < nodeMoment W X 0).
  { pose proof (A [1; 0] eq_refl ltac:(exists 1; split; [now left|lra])) as H. rewrite !Sum_2 in H. cbn [Nat.add] in H. rewrite !EM in H by lia. unfold el in H. cbn [nth] in H. lra. }
  split; [|exact P].
  pose proof (A [- nodeMoment W X 1; nodeMoment W X 0] eq_refl ltac:(exists (nodeMoment W X 0); split; [right; now left|lra])) as H.
  rewrite !Sum_2 in H. cbn [Nat.add] in H. rewrite !EM in H by lia. unfold el in H. cbn [nth] in H.
  apply Rmult_lt_reg_l with (nodeMoment W X 0); [exact P|]. lra.
Qed.
Lemma step_l m s g k W X eig st : population W X -> (2 <= length X)%nat -> readyQmom m s g k (momentsOf W X 4) 2 -> growthOnly k -> honest eig 2 ->
  let M := momentsOf W X 4 in let K := kgrow k g (el M 0) (el M 1) * areaCoef in 0 < K ->
  exists m' s' w x q, setSourceTerms st eig m s = Ok (st, m', s') /\ nodesAre s' w x /\ population w x /\ momentsOf w x 4 = M /\ soots m' = map Fin q /\
    0 < longest K M w x /\ forall dt, 0 <= dt ->
      (forall r, (r < 4)%nat -> 0 < el (euler dt M q) r) /\ (impossible (euler dt M q) <-> longest K M w x < dt).
Proof.
  intros PO L RD GO HE M K PK.
  destruct (C34_pop_l m s g k W X 2 eig st PO L RD (or_introl (proj2 (proj2 GO))) HE) as (m' & s' & w & x & C & ND & Lw & PW & MM & _).
  destruct (C35_l m s g k M 2 eig st st m' s' w x RD C ND) as (_ & SO). destruct (strict_spread W X PO L) as (VP & P0).
  assert (EM : forall r, (r < 4)%nat -> el M r = nodeMoment W X r) by (intros; unfold M, momentsOf; apply el_seq; auto).
  pose proof PW as (Lx & Pw & Px & _).
  assert (PP : forall i, (i < length w)%nat -> 0 < el w i /\ 0 < el x i) by (intros i Hi; split; [apply Pw|apply Px]; apply nth_In; lia).
  set (q := map (fun r => K * INR r * surf w x (INR r - 1)) (seq 0 4)).
  assert (Q : soots m' = map Fin q).
  { rewrite SO. unfold q. rewrite map_map. apply map_ext. intros r. rewrite gone by auto. f_equal. unfold K, surf. rewrite frac_pos by auto. rewrite Lw.
    f_equal. apply Sum_ext. intros i _. replace (INR r - 1 + 2 / 3) with (INR r - 1 / 3) by field. reflexivity. }
  assert (SP : forall j, 0 < surf w x j).
  { intros j. unfold surf. rewrite Sum_2. destruct (PP 0%nat ltac:(lia)), (PP 1%nat ltac:(lia)). apply Rplus_lt_0_compat; apply Rmult_lt_0_compat; auto; apply exp_pos. }
  assert (LM : length M = 4%nat) by apply momentsOf_len. assert (LQ : length q = 4%nat) by (unfold q; now rewrite map_length, seq_length).
  set (c := el M 0 * surf w x 1 - el M 1 * surf w x 0). set (D := el M 0 * el M 2 - el M 1 ^ 2).
  destruct (quadratic c (surf w x 0) D (SP 0) ltac:(unfold D; rewrite !EM by lia; lra)) as (Z & QU).
  assert (LO : longest K M w x = (c + sqrt (c ^ 2 + surf w x 0 ^ 2 * D)) / surf w x 0 ^ 2 / K).
  { unfold longest. cbv zeta. fold c D. pose proof (SP 0). field. split; lra. }
  exists m', s', w, x, q. split; [exact C|]. split; [exact ND|]. split; [exact PW|].
  split; [unfold M, momentsOf; apply map_ext_in; intros r Hr; apply in_seq in Hr; apply MM; lia|]. split; [exact Q|].
  split; [rewrite LO; apply Rdiv_lt_0_compat; auto|]. intros dt Hdt.
  assert (EE : forall r, (r < 4)%nat -> el (euler dt M q) r = el M r + dt * (K * INR r * surf w x (INR r - 1))).
  { intros r Hr. rewrite euler_el by lia. unfold q. now rewrite el_seq. }
  split.
  - intros r Hr. rewrite EE by auto. apply Rplus_lt_le_0_compat.
    + rewrite EM by auto. unfold nodeMoment. pose proof PO as (LW & A & B & _). destruct W as [|w0 W]; [cbn in LW; lia|]. rewrite Sum_first by (cbn; lia). apply Rplus_lt_le_0_compat.
      * apply Rmult_lt_0_compat; [apply A; now left|]. apply pow_lt, B, nth_In. lia.
      * apply Sum_nneg. intros i Hi. apply Rmult_le_pos; [|apply pow_le]; apply Rlt_le; [apply A|apply B]; apply nth_In; cbn [length] in *; lia.
    + apply Rmult_le_pos; [exact Hdt|]. apply Rmult_le_pos; [apply Rmult_le_pos; [lra|apply pos_INR]|apply Rlt_le, SP].
  - unfold impossible. rewrite !EE by lia. change (INR 0) with 0. change (INR 1) with 1. change (INR 2) with 2. replace (1 - 1) with 0 by ring. replace (2 - 1) with 1 by ring.
    rewrite LO. specialize (QU (dt * K) ltac:(apply Rmult_le_pos; lra)). set (z := (c + sqrt (c ^ 2 + surf w x 0 ^ 2 * D)) / surf w x 0 ^ 2) in *.
    assert (H1 : D + 2 * (dt * K) * c - (dt * K) ^ 2 * surf w x 0 ^ 2 = (el M 0 + dt * (K * 0 * surf w x (0 - 1))) * (el M 2 + dt * (K * 2 * surf w x 1)) - (el M 1 + dt * (K * 1 * surf w x 0)) ^ 2) by (unfold D, c; ring).
    assert (H2 : z / K < dt <-> z < dt * K).
    { split; intros I; [apply (Rmult_lt_compat_r K) in I; [|lra]; replace (z / K * K) with z in I by (field; lra); exact I|].
      apply (Rmult_lt_reg_r K); [lra|]. replace (z / K * K) with z by (field; lra). exact I. }
    rewrite H2, <- QU, H1. split; lra.
Qed.

(** ** cases *)
Lemma grow_only_case soot : length soot = 4%nat -> nonneg soot ->
  exists m s, constructEnum P_QMOM 4 N_NONE G_LL O_NONE C_NONE 0 T_NONE (Fin 2) 100 = Ok m /\
    call (newState 4 0) (argsOf demoGas soot []) = SetOk s /\ readyQmom m s demoGas (mkMechs N_NONE G_LL O_NONE C_NONE 1) soot 2.
Proof.
  intros L NN. destruct (constructEnum (N:=XR) P_QMOM (2 * 2) N_NONE G_LL O_NONE C_NONE 0 T_NONE (Fin 2) 100) as [m| |] eqn:E; [|discriminate E|discriminate E].
  destruct (demo_any (newState 4 0) soot []) as (s & C & V & _ & EW & EA & _).
  { cbn. rewrite L. reflexivity. } { reflexivity. } { reflexivity. } { exact NN. } { intros ? []. }
  exists m, s. split; [exact E|]. split; [exact C|]. destruct (quad_enum _ _ _ _ _ _ E) as (H & P1 & P2).
  split; [|split; [exact H|split; [|split; [exact V|split; [exact L|]]]]].
  - split; [exact P1|]. split; [exact P2|]. split; [lia|]. rewrite EW, EA. split; reflexivity.
  - split; [left; unfold gasOnly; cbn; repeat split; discriminate|]. cbn. repeat split; try discriminate; lra.
  - intros [Q|Q]; discriminate Q.
Qed.
Lemma grow_only_rate a b : 0 < a -> 0 < b -> 0 < kgrow (mkMechs N_NONE G_LL O_NONE C_NONE 1) demoGas a b.
Proof.
  intros Ha Hb. unfold kgrow. cbn [mG growFormula]. assert (S : 0 < surface a b).
  { assert (0 < b / a) by (apply Rdiv_lt_0_compat; auto). rewrite surface_sphere by lra. unfold sphere. destruct (Rlt_dec 0 (b / a)); [|lra]. pose proof piC_pos.
    pose proof (diam_pos (b / a)) as PD. apply Rmult_lt_0_compat; [lra|]. apply Rmult_lt_0_compat; [assumption|]. apply pow_lt, PD; lra. }
  destruct (Rlt_dec 0 (surface a b)); [|contradiction]. pose proof (sqrt_lt_R0 _ S).
  assert (0 < molarMass C2H2) by (unfold molarMass, massC, massH; cbn; lra). unfold conc. cbn [gT gRho gY demoGas].
  pose proof massC_pos. mpos.
Qed.
Lemma two_moments : momentsOf [1; 1] [1; 3] 4 = [2; 4; 10; 28].
Proof. unfold momentsOf, nodeMoment. cbn [seq map length]. rewrite !Sum_2. unfold el. cbn [nth]. repeat f_equal; ring. Qed.
Lemma two_mirror : mirror [2; 4; 10; 28] = [2; 4; 6; 4].
Proof. unfold mirror, el. cbn [seq map nth]. repeat f_equal; cbn [pow]; field. Qed.
