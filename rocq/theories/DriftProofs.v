(** Conservation in double precision (C84): the exact balances with the errors of C71. *)
From Coq Require Import ZArith List Bool Reals Lra Lia.
From Coq.Floats Require Import SpecFloat.
From Verif Require Import Num Defs State Nucl Growth Oxid Coag Tar SootModel Mono Calls XR F64 SpecBinomial SpecState SpecChem SpecCoag SpecValid SpecRates SpecGas SpecPsd SpecRound SpecDrift
  ValidProofs RateProofs GasProofs PsdProofs CoagProofs RoundCases RoundFinal.
Import ListNotations.
Local Open Scope R_scope.

(** ** magnitudes of the reaction terms *)
Lemma mm_pos' sp : 0 < molarMass sp.
Proof. destruct sp; unfold molarMass, massC, massH, massO; cbn [atomsC atomsH atomsO]; lra. Qed.
Lemma total_le a b : (forall sp, a sp <= b sp) -> total a <= total b.
Proof. intros H. unfold total. pose proof (H O2). pose proof (H O_). pose proof (H H2). pose proof (H H_). pose proof (H OH). pose proof (H H2O). pose proof (H CO). pose proof (H C2H2). pose proof (H C6H6). pose proof (H C_). pose proof (H CO2). lra. Qed.
Lemma total_ext a b : (forall sp, a sp = b sp) -> total a = total b.
Proof. intros H. unfold total. now rewrite !H. Qed.
Lemma total_scale c a : total (fun sp => c * a sp) = c * total a.
Proof. unfold total. ring. Qed.
Lemma total_sum a b : total (fun sp => a sp + b sp) = total a + total b.
Proof. unfold total. ring. Qed.
Lemma total_abs a : Rabs (total a) <= total (fun sp => Rabs (a sp)).
Proof. unfold total. repeat (eapply Rle_trans; [apply Rabs_triang|]; apply Rplus_le_compat_r). apply Rle_refl. Qed.
Lemma atoms_nn atoms sp : atoms = atomsC \/ atoms = atomsH \/ atoms = atomsO -> 0 <= IZR (atoms sp) <= 6.
Proof. intros [->|[->| ->]]; destruct sp; cbn [atomsC atomsH atomsO]; lra. Qed.

Lemma abs_react nu n x sp : 0 < n -> Rabs (reacts nu n x sp) = Rabs x / (n * massC) * (Rabs (nu sp) * molarMass sp).
Proof.
  intros N. unfold reacts, Rdiv. rewrite !Rabs_mult. rewrite (Rabs_right (molarMass sp)) by (pose proof (mm_pos' sp); lra).
  assert (0 < / (n * massC)) by (apply Rinv_0_lt_compat, Rmult_lt_0_compat; [lra|unfold massC; lra]).
  rewrite (Rabs_right (/ (n * massC))) by lra. ring.
Qed.
Lemma abs_terms nu n x b c : 0 < n -> total (fun sp => Rabs (nu sp) * molarMass sp) <= b * (n * massC) -> total (fun sp => Rabs (nu sp) * IZR (c sp)) <= b * n ->
  total (fun sp => Rabs (reacts nu n x sp)) <= b * Rabs x /\ total (fun sp => Rabs (reacts nu n x sp) / molarMass sp * IZR (c sp)) <= b * (Rabs x / massC).
Proof.
  intros N A B. assert (M : 0 < massC) by (unfold massC; lra). assert (NM : 0 < n * massC) by (apply Rmult_lt_0_compat; lra).
  set (y := Rabs x / (n * massC)). assert (Y : 0 <= y) by (apply Rmult_le_pos; [apply Rabs_pos|apply Rlt_le, Rinv_0_lt_compat; auto]).
  split.
  - rewrite (total_ext _ (fun sp => y * (Rabs (nu sp) * molarMass sp))) by (intros; apply abs_react; auto).
    rewrite total_scale. replace (b * Rabs x) with (y * (b * (n * massC))) by (unfold y; field; lra). apply Rmult_le_compat_l; auto.
  - rewrite (total_ext _ (fun sp => y * (Rabs (nu sp) * IZR (c sp)))).
    2: { intros sp. rewrite abs_react by auto. fold y. field. pose proof (mm_pos' sp). lra. }
    rewrite total_scale. replace (b * (Rabs x / massC)) with (y * (b * n)) by (unfold y; field; lra). apply Rmult_le_compat_l; auto.
Qed.
Ltac rabs := repeat match goal with |- context [Rabs ?r] => first [rewrite (Rabs_right r) by lra|rewrite (Rabs_left r) by lra] end.
Ltac small At := destruct At as [->|[->| ->]]; unfold total, molarMass, massC, massH, massO; cbn [atomsC atomsH atomsO]; rabs; lra.
Definition three (c : gasSp -> Z) : Prop := c = atomsC \/ c = atomsH \/ c = atomsO.
Definition fewFor (f : gasSp -> R) (x : R) : Prop :=
  total (fun sp => Rabs (f sp)) <= 4 * Rabs x /\ forall c, three c -> total (fun sp => Rabs (f sp) / molarMass sp * IZR (c sp)) <= 4 * (Rabs x / massC).
Lemma few_zero x : fewFor (fun _ => 0) x.
Proof.
  pose proof (Rabs_pos x). unfold fewFor, total. rewrite Rabs_R0. split; [lra|]. intros c _. unfold Rdiv. rewrite !Rmult_0_l.
  assert (0 <= Rabs x * / massC) by (apply Rmult_le_pos; [lra|apply Rlt_le, Rinv_0_lt_compat; unfold massC; lra]). lra.
Qed.
Lemma few_react nu n x : 0 < n -> total (fun sp => Rabs (nu sp) * molarMass sp) <= 4 * (n * massC) ->
  (forall c, three c -> total (fun sp => Rabs (nu sp) * IZR (c sp)) <= 4 * n) -> fewFor (reacts nu n x) x.
Proof. intros N A B. split; [apply (abs_terms nu n x 4 atomsC N A (B _ (or_introl eq_refl)))|]. intros c C. apply (abs_terms nu n x 4 c N A (B _ C)). Qed.
Ltac fewR := apply few_react; [lra|unfold total, molarMass, massC, massH, massO; cbn [atomsC atomsH atomsO]; rabs; lra|intros ? At; small At].
Lemma few_nucl c x : fewFor (nuclGas c x) x.
Proof. destruct c; cbn [nuclGas]; try apply few_zero; unfold viaAcetylene; fewR. Qed.
Lemma few_grow c x : fewFor (growGas c x) x.
Proof. destruct c; cbn [growGas]; try apply few_zero; unfold viaAcetylene; fewR. Qed.
Lemma few_oxid c x : fewFor (oxidGas c x) x.
Proof. destruct c; cbn [oxidGas]; try apply few_zero; fewR. Qed.

Lemma idx_any i : (i < 11)%nat -> exists sp, gasIdx sp = i.
Proof.
  intros L. do 11 (destruct i as [|i]; [first [now exists O2|now exists O_|now exists H2|now exists H_|now exists OH|now exists H2O|now exists CO|now exists C2H2|now exists C6H6|now exists C_|now exists CO2]|]). lia.
Qed.

(** ** non-negative rates *)
Section Any.
Context (lm : libm) (AC : accurate lm).
Lemma rates_nn (a : args (F64 lm)) : usual a -> forall k, gasOnly (mN k) -> let g := gasOf a in
  0 <= Jnuc k g * nucMass g /\ (forall M0 M1, 0 <= kgrow k g M0 M1) /\ (forall M0 M1, 0 <= koxid k g M0 M1).
Proof.
  intros (BT & BP & BR & BM & BC & LG & YG & _) k GO g.
  set (g' := mkGas (gT g) (gP g) (gRho g) (gMu g) (gCMin g) (gY g) (fun _ => 0)).
  assert (HY : forall sp, 0 <= gY g sp <= 1).
  { intros sp. unfold g, gasOf. cbn [gY]. assert (I : In (nth (gasIdx sp) (ayGas a) (S754_zero false)) (ayGas a)) by (apply nth_In; rewrite LG; apply gasIdx_lt).
    destruct (YG _ I) as (_ & [->|H]); [lra|]. assert (0 < / 10 ^ 30) by (apply Rinv_0_lt_compat, pow_lt; lra). lra. }
  assert (i6 : 0 < / 10 ^ 6) by (apply Rinv_0_lt_compat, pow_lt; lra). assert (i8 : 0 < / 10 ^ 8) by (apply Rinv_0_lt_compat, pow_lt; lra).
  assert (OG : okGas g').
  { unfold g', g, gasOf, okGas. cbn [gT gP gRho gMu gCMin gY gPah]. destruct BT as (_ & BT). destruct BP as (_ & BP). destruct BR as (_ & BR). destruct BM as (_ & BM). destruct BC as (_ & BC).
    split; [lra|]. split; [lra|]. split; [lra|]. split; [lra|]. split; [lra|]. split; [exact (fun sp => proj1 (HY sp))|intros; lra]. }
  destruct (argsOf_ok g' [] [] OG (fun sp => proj2 (HY sp))) as (s & _ & V & _); [unfold pahVec, allPah; cbn [map fold_left gPah g']; lra|intros ? []|intros ? []|].
  split; [|split].
  - apply Rmult_le_pos.
    + replace (Jnuc k g) with (Jnuc k g'); [eapply nuclFormula_nneg; eauto|]. unfold Jnuc. destruct (mN k); try reflexivity; destruct GO as (? & ?); congruence.
    + unfold nucMass. pose proof avo_pos. destruct OG as (_ & _ & _ & _ & PC & _). change (0 < gCMin g) in PC. apply Rmult_le_pos; [apply Rmult_le_pos; [lra|unfold massC; lra]|apply Rlt_le, Rinv_0_lt_compat; auto].
  - intros M0 M1. replace (kgrow k g M0 M1) with (kgrow k g' M0 M1) by (unfold kgrow; destruct (mG k); reflexivity). eapply growFormula_nneg; eauto.
  - intros M0 M1. replace (koxid k g M0 M1) with (koxid k g' M0 M1) by (unfold koxid; destruct (mO k); reflexivity). eapply oxidFormula_nneg; eauto.
Qed.

(** ** the balances *)
Lemma drift_core N G X k q1 gs : gasOnly (mN k) -> mN k <> N_size -> mG k <> G_size -> mO k <> O_size -> (mN k = N_NONE -> N = 0) -> (mG k = G_NONE -> G = 0) -> (mO k = O_NONE -> X = 0) ->
  0 <= N -> 0 <= G -> 0 <= X -> agreesSum q1 [N; G; - X] ->
  (forall sp, agreesSum (nth (gasIdx sp) gs (S754_zero false)) [nuclGas (mN k) N sp; growGas (mG k) G sp; oxidGas (mO k) X sp]) ->
  Rabs (total (gasRates gs) + sfVal q1) <= / 10 ^ 11 * (N + G + X) /\
  Rabs (element atomsC (gasRates gs) + sfVal q1 / massC) <= / 10 ^ 11 * ((N + G + X) / massC) /\
  Rabs (element atomsH (gasRates gs)) <= / 10 ^ 11 * ((N + G + X) / massC) /\
  Rabs (element atomsO (gasRates gs)) <= / 10 ^ 11 * ((N + G + X) / massC).
Proof.
  intros GO NS GS OS ZN ZG ZX PN PG PX (_ & Q1) HG.
  assert (NP : mN k <> N_PAH) by (destruct (mN k); try discriminate; destruct GO; congruence).
  destruct (nuclGas_bal (mN k) N NP NS ZN) as (n1 & _ & n2 & n3 & n4).
  destruct (growGas_bal (mG k) G GS ZG) as (g1 & _ & g2 & g3 & g4).
  destruct (oxidGas_bal (mO k) X OS ZX) as (o1 & _ & o2 & o3 & o4).
  destruct (few_nucl (mN k) N) as (fn & fn'). destruct (few_grow (mG k) G) as (fg & fg'). destruct (few_oxid (mO k) X) as (fo & fo').
  rewrite (Rabs_right N) in * by lra. rewrite (Rabs_right G) in * by lra. rewrite (Rabs_right X) in * by lra.
  cbn [fold_right] in Q1. rewrite (Rabs_right N), (Rabs_right G), Rabs_Ropp, (Rabs_right X) in Q1 by lra.
  unfold agreesSum in HG. set (e := / 10 ^ 12) in *. assert (E : 0 < e) by (apply Rinv_0_lt_compat, pow_lt; lra). assert (E' : / 10 ^ 11 = 10 * e) by (unfold e; field).
  rewrite E'. clearbody e. assert (M : 0 < massC) by (unfold massC; lra).
  set (nn := nuclGas (mN k) N) in *. set (gg := growGas (mG k) G) in *. set (oo := oxidGas (mO k) X) in *.
  set (d := fun sp => gasRates gs sp - (nn sp + gg sp + oo sp)).
  assert (D : forall sp, Rabs (d sp) <= e * (Rabs (nn sp) + Rabs (gg sp) + Rabs (oo sp))).
  { intros sp. destruct (HG sp) as (_ & H). cbn [fold_right] in H. unfold d, gasRates. rewrite !Rplus_0_r in H.
    replace (nn sp + gg sp + oo sp) with (nn sp + (gg sp + oo sp)) by ring. rewrite Rplus_assoc. exact H. }
  split.
  - assert (T : Rabs (total d) <= e * (4 * (N + G + X))).
    { eapply Rle_trans; [apply total_abs|]. eapply Rle_trans; [apply total_le; exact D|]. rewrite total_scale, total_add. apply Rmult_le_compat_l; lra. }
    assert (EQ : total (gasRates gs) + sfVal q1 = total d + (sfVal q1 - (N + (G + (- X + 0))))).
    { replace (total (gasRates gs)) with (total d + (total nn + total gg + total oo)) by (unfold d, total; ring). rewrite n1, g1, o1. ring. }
    rewrite EQ. eapply Rle_trans; [apply Rabs_triang|]. assert (0 <= e * (N + G + X)) by (apply Rmult_le_pos; lra). lra.
  - assert (EL : forall c, three c -> Rabs (element c d) <= e * (4 * ((N + G + X) / massC)) /\ element c (gasRates gs) = element c d + (element c nn + element c gg + element c oo)).
    { intros c C. split; [|unfold d, element, total, Rdiv; ring]. unfold element. eapply Rle_trans; [apply total_abs|].
      eapply Rle_trans; [apply (total_le _ (fun sp => e * (Rabs (nn sp) / molarMass sp * IZR (c sp) + Rabs (gg sp) / molarMass sp * IZR (c sp) + Rabs (oo sp) / molarMass sp * IZR (c sp))))|].
      - intros sp. pose proof (mm_pos' sp) as MP. pose proof (atoms_nn c sp C) as AN. unfold Rdiv. rewrite !Rabs_mult, (Rabs_right (/ molarMass sp)) by (apply Rle_ge, Rlt_le, Rinv_0_lt_compat; auto).
        rewrite (Rabs_right (IZR (c sp))) by lra. replace (e * _) with (e * (Rabs (nn sp) + Rabs (gg sp) + Rabs (oo sp)) * (/ molarMass sp * IZR (c sp))) by ring.
        rewrite Rmult_assoc. apply Rmult_le_compat_r; [|apply D]. apply Rmult_le_pos; [apply Rlt_le, Rinv_0_lt_compat; auto|lra].
      - rewrite total_scale, total_add. apply Rmult_le_compat_l; [lra|]. pose proof (fn' c C). pose proof (fg' c C). pose proof (fo' c C). unfold Rdiv in *. lra. }
    assert (W : 0 <= (N + G + X) / massC) by (apply Rmult_le_pos; [lra|apply Rlt_le, Rinv_0_lt_compat; auto]). assert (W' : 0 <= e * ((N + G + X) / massC)) by (apply Rmult_le_pos; lra).
    split; [|split].
    + destruct (EL atomsC (or_introl eq_refl)) as (B & ->).
      replace (element atomsC d + _ + _) with (element atomsC d + (sfVal q1 - (N + (G + (- X + 0)))) / massC) by (unfold Rdiv in *; lra).
      eapply Rle_trans; [apply Rabs_triang|]. assert (Rabs ((sfVal q1 - (N + (G + (- X + 0)))) / massC) <= e * ((N + G + X) / massC)); [|lra].
      unfold Rdiv. rewrite Rabs_mult, (Rabs_right (/ massC)) by (apply Rle_ge, Rlt_le, Rinv_0_lt_compat; auto). rewrite <- Rmult_assoc. apply Rmult_le_compat_r; [apply Rlt_le, Rinv_0_lt_compat; auto|]. replace (e * (N + G + X)) with (e * (N + (G + X))) by ring. rewrite !Rplus_0_r in *. exact Q1.
    + destruct (EL atomsH (or_intror (or_introl eq_refl))) as (B & ->). rewrite n3, g3, o3, !Rplus_0_r. lra.
    + destruct (EL atomsO (or_intror (or_intror eq_refl))) as (B & ->). rewrite n4, g4, o4, !Rplus_0_r. lra.
Qed.

Lemma C84_ k (f : spec_float) ns nt F c (m : model (N:=F64 lm)) l g0 s0 g1 m1 s1 (a : args (F64 lm)) s eig :
  smoothMechs k -> mF k = sfVal f -> between (/ 10 ^ 6) (10 ^ 6) f ->
  constructPtr P_MONO ns (newNucl (mN k)) (newGrow (mG k)) (newOxid (mO k)) (set_FM_multiplier (newCoag (mC k)) (f : @num (F64 lm))) nt (newTar T_NONE) F c = Ok m ->
  runActions (g0, m, s0) l = Ok (g1, m1, s1) -> absc s1 <> [] -> wts s1 <> [] ->
  usual a -> 0 < soot0 a -> 3 / 10 ^ 26 <= soot1 a / soot0 a <= 1 -> call s1 a = SetOk s ->
  exists m2 s2 q0 q1 gs, setSourceTerms g1 eig m1 s = Ok (g1, m2, s2) /\ sootSources (sm_sources m2) = [q0; q1] /\ gasSources (sm_sources m2) = gs /\ length gs = 11%nat /\
    (forall x, In x (q0 :: q1 :: gs) -> isDouble x) /\
    Rabs (total (gasRates gs) + sfVal q1) <= / 10 ^ 11 * turnover k a /\
    Rabs (element atomsC (gasRates gs) + sfVal q1 / massC) <= / 10 ^ 11 * (turnover k a / massC) /\
    Rabs (element atomsH (gasRates gs)) <= / 10 ^ 11 * (turnover k a / massC) /\
    Rabs (element atomsO (gasRates gs)) <= / 10 ^ 11 * (turnover k a / massC).
Proof.
  intros SM EF BF CO RU NA NW U P0 BM C.
  destruct (C71_mono_ lm AC k f ns nt F c m l g0 s0 g1 m1 s1 a s eig SM EF BF CO RU NA NW U P0 BM C) as (m2 & s2 & q0 & q1 & gs & R & ES & EG & LG & A0 & A1 & AG).
  exists m2, s2, q0, q1, gs. split; [exact R|]. split; [exact ES|]. split; [exact EG|]. split; [exact LG|]. split.
  { intros x [<-|[<-|I]]; [apply A0|apply A1|]. apply (In_nth _ _ (S754_zero false)) in I. destruct I as (i & Li & <-). assert (Li' : (i < 11)%nat) by (rewrite <- LG; exact Li). clear Li.
    destruct (idx_any i Li') as (sp & <-). apply AG. }
  destruct SM as (GO & NS & _ & GS & _ & _ & _ & OS & _). destruct (rates_nn a U k GO) as (PN & PG & PO).
  assert (PA : 0 <= soot0 a * sphere (soot1 a / soot0 a)).
  { apply Rmult_le_pos; [lra|]. unfold sphere. destruct (Rlt_dec _ _); [|lra]. pose proof piC_pos. apply Rmult_le_pos; [lra|apply pow2_ge_0]. }
  unfold turnover. apply (drift_core _ _ _ k); auto.
  - intros E. unfold Jnuc. rewrite E. cbn [nuclFormula]. ring.
  - intros E. unfold kgrow. rewrite E. cbn [growFormula]. ring.
  - intros E. unfold koxid. rewrite E. cbn [oxidFormula]. ring.
  - apply Rmult_le_pos; auto.
  - apply Rmult_le_pos; auto.
Qed.
End Any.
