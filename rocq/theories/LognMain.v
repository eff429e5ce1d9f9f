(** The lognormal model: kernels as sums of powers and one whole call. *)
From Coq Require Import ZArith List Bool Reals Lra Lia.
From Verif Require Import Num Defs State Coag Nucl Growth Oxid Tar SootModel Logn Qmom Calls XR XRLemmas
  SpecState SpecChem SpecCoag SpecValid SpecRates SpecGas SpecTar SpecPah SpecPsd SpecSect SpecQmom SpecLogn CoagProofs StateXR ValidProofs InterpProofs GasProofs MiscProofs RateProofs PsdProofs PahProofs
  MonoProofs SectProofs ChemAll SectMain LognProofs.
Import ListNotations.
Local Open Scope R_scope.

(** ** kernels *)
Lemma pw a b c : 0 < a -> b = c -> Rpower a b = Rpower a c. Proof. intros _ ->. reflexivity. Qed.
Lemma six_0 a : 0 < a -> Rpower a (sixth 0) = 1.
Proof. intros. unfold sixth. replace (0 / 6) with 0 by field. now apply Rpower_O. Qed.
Lemma co_kernel s g soot a b : valid s g soot -> 0 < a -> 0 < b ->
  kernelOf (coTerms g) a b = betaC (slipLinear (gP g) (gRho g) (gMu g)) (gT g) (gMu g) a b.
Proof.
  intros V Ha Hb. unfold kernelOf, coTerms, tm. cbn [fold_right]. rewrite !six_0 by auto. unfold betaC, slipLinear, knudsen.
  set (u := Rpower a (1 / 3)). set (w := Rpower b (1 / 3)).
  assert (Pu : 0 < u) by apply exp_pos. assert (Pw : 0 < w) by apply exp_pos.
  assert (E1 : forall x, 0 < x -> Rpower x (sixth 2) = Rpower x (1 / 3)) by (intros; f_equal; unfold sixth; lra).
  assert (E2 : forall x, 0 < x -> Rpower x (sixth (-2)) = / Rpower x (1 / 3)) by (intros; rewrite <- Rpower_Ropp; f_equal; unfold sixth; lra).
  assert (E3 : forall x, 0 < x -> Rpower x (sixth (-4)) = / (Rpower x (1 / 3) * Rpower x (1 / 3))).
  { intros. rewrite Rpower_third2, <- Rpower_Ropp. f_equal. unfold sixth. lra. }
  rewrite !E1, !E2, !E3 by auto. fold u w.
  assert (D : forall x, 0 < x -> diam x = Rpower x (1 / 3) / Rpower (piC * sootDensity / 6) (1 / 3)).
  { intros. rewrite diam_split by auto. pose proof piC_pos.
    assert (AB : Rpower (6 / (piC * sootDensity)) (1 / 3) * Rpower (piC * sootDensity / 6) (1 / 3) = 1).
    { rewrite Rpower_mult_distr by (unfold sootDensity; pos). replace (6 / (piC * sootDensity) * (piC * sootDensity / 6)) with 1 by (unfold sootDensity; field; lra). unfold Rpower. now rewrite ln_1, Rmult_0_r, exp_0. }
    pose proof (Rpower_pos (piC * sootDensity / 6) (1 / 3)) as PP. apply (Rmult_eq_reg_r (Rpower (piC * sootDensity / 6) (1 / 3))); [|lra].
    transitivity (Rpower (6 / (piC * sootDensity)) (1 / 3) * Rpower (piC * sootDensity / 6) (1 / 3) * Rpower x (1 / 3)); [ring|]. rewrite AB. field. lra. }
  rewrite !D by auto. fold u w. unfold kC, kSlip. set (c := Rpower (piC * sootDensity / 6) (1 / 3)). assert (Pc : 0 < c) by apply exp_pos.
  pose proof (v_mupos _ _ _ V). field. repeat split; lra.
Qed.
Lemma fm_kernel s g soot f a b : valid s g soot -> 0 < a -> 0 < b ->
  kernelOf (fmTerms f g) a b * sqrt (1 / a + 1 / b) = bFM * (Rpower a (- (1 / 2)) + Rpower b (- (1 / 2))) * betaFM f (gT g) a b.
Proof.
  intros V Ha Hb. unfold kernelOf, fmTerms, tm. cbn [fold_right]. rewrite !six_0 by auto. unfold betaFM. rewrite !diam_split by auto.
  set (u := Rpower a (1 / 6)). set (w := Rpower b (1 / 6)). assert (Pu : 0 < u) by apply exp_pos. assert (Pw : 0 < w) by apply exp_pos.
  assert (P2 : forall x, Rpower x (1 / 3) = Rpower x (1 / 6) * Rpower x (1 / 6)) by (intros; rewrite <- Rpower_plus; f_equal; lra).
  assert (E1 : forall x, Rpower x (sixth 1) = Rpower x (1 / 6)) by (intros; f_equal; unfold sixth; lra).
  assert (E2 : forall x, Rpower x (sixth 2) = Rpower x (1 / 6) * Rpower x (1 / 6)) by (intros; rewrite <- Rpower_plus; f_equal; unfold sixth; lra).
  assert (E4 : forall x, Rpower x (sixth 4) = Rpower x (1 / 6) * Rpower x (1 / 6) * (Rpower x (1 / 6) * Rpower x (1 / 6))) by (intros; rewrite <- !Rpower_plus; f_equal; unfold sixth; lra).
  assert (En1 : forall x, Rpower x (sixth (-1)) = / Rpower x (1 / 6)) by (intros; rewrite <- Rpower_Ropp; f_equal; unfold sixth; lra).
  assert (En3 : forall x, Rpower x (sixth (-3)) = / (Rpower x (1 / 6) * Rpower x (1 / 6) * Rpower x (1 / 6))) by (intros; rewrite <- !Rpower_plus, <- Rpower_Ropp; f_equal; unfold sixth; lra).
  assert (Eh : forall x, Rpower x (- (1 / 2)) = / (Rpower x (1 / 6) * Rpower x (1 / 6) * Rpower x (1 / 6))) by (intros; rewrite <- !Rpower_plus, <- Rpower_Ropp; f_equal; lra).
  rewrite (E1 a), (E1 b), (E2 a), (E2 b), (E4 a), (E4 b), (En1 a), (En1 b), (En3 a), (En3 b), (Eh a), (Eh b), (P2 a), (P2 b). fold u w. unfold kFM. rewrite <- (Rpower_third2 (6 / (piC * sootDensity))).
  set (c := Rpower (6 / (piC * sootDensity)) (1 / 3)).
  pose proof piC_pos. pose proof boltz_pos. pose proof (v_Tpos _ _ _ V).
  rewrite (sqrt_mult (piC * boltzmann * gT g / 2) (1 / a + 1 / b)) by (apply Rlt_le; pos).
  set (q := sqrt (1 / a + 1 / b)). set (r := sqrt (piC * boltzmann * gT g / 2)). field. lra.
Qed.
(** the replaced factor: sqrt(1/a+1/b) <= a^-1/2 + b^-1/2 <= sqrt 2 sqrt(1/a+1/b) *)
Lemma half_power a b : 0 < a -> 0 < b ->
  sqrt (1 / a + 1 / b) <= Rpower a (- (1 / 2)) + Rpower b (- (1 / 2)) <= sqrt 2 * sqrt (1 / a + 1 / b).
Proof.
  intros Ha Hb. set (x := Rpower a (- (1 / 2))). set (y := Rpower b (- (1 / 2))).
  assert (Px : 0 < x) by apply exp_pos. assert (Py : 0 < y) by apply exp_pos.
  assert (E : forall c, 0 < c -> 1 / c = Rpower c (- (1 / 2)) * Rpower c (- (1 / 2))).
  { intros. rewrite <- Rpower_plus. replace (- (1 / 2) + - (1 / 2)) with (- (1 * 1)) by lra. rewrite Rpower_Ropp, Rmult_1_r, Rpower_1 by auto. unfold Rdiv. ring. }
  rewrite (E a Ha), (E b Hb). fold x y. rewrite <- sqrt_mult_alt by lra. split.
  - rewrite <- (sqrt_pow2 (x + y)) by lra. pose proof (Rmult_lt_0_compat _ _ Px Py). pose proof (pow2_ge_0 (x - y)). pose proof (pow2_ge_0 (x + y)). pose proof (pow2_ge_0 x). pose proof (pow2_ge_0 y). apply sqrt_le_1_alt. nra.
  - rewrite <- (sqrt_pow2 (x + y)) by lra. pose proof (Rmult_lt_0_compat _ _ Px Py). pose proof (pow2_ge_0 (x - y)). pose proof (pow2_ge_0 (x + y)). pose proof (pow2_ge_0 x). pose proof (pow2_ge_0 y). apply sqrt_le_1_alt. nra.
Qed.
Lemma fm_bounds s g soot f a b : valid s g soot -> 0 < f -> 0 < a -> 0 < b ->
  bFM * betaFM f (gT g) a b <= kernelOf (fmTerms f g) a b <= bFM * sqrt 2 * betaFM f (gT g) a b.
Proof.
  intros V Hf Ha Hb. pose proof (fm_kernel s g soot f a b V Ha Hb) as E. pose proof (half_power a b Ha Hb) as (H1 & H2).
  pose proof (betaFM_pos s _ _ _ _ (v_gas _ _ _ V) f a b Hf Ha Hb) as PB.
  assert (PS : 0 < sqrt (1 / a + 1 / b)) by (apply sqrt_lt_R0; pos). set (q := sqrt (1 / a + 1 / b)) in *. set (K := kernelOf (fmTerms f g) a b) in *.
  set (h := Rpower a (- (1 / 2)) + Rpower b (- (1 / 2))) in *. set (B := betaFM f (gT g) a b) in *. unfold bFM in *. pose proof Rlt_sqrt2_0. split.
  - apply (Rmult_le_reg_r q); [auto|]. rewrite E. nra.
  - apply (Rmult_le_reg_r q); [auto|]. rewrite E. replace (8536 / 10000 * sqrt 2 * B * q) with (8536 / 10000 * (sqrt 2 * q) * B) by ring. apply Rmult_le_compat_r; [lra|]. nra.
Qed.
(** equal masses: the factor is exactly 0.8536 sqrt 2 *)
Lemma fm_equal s g soot f a : valid s g soot -> 0 < a -> kernelOf (fmTerms f g) a a = bFM * sqrt 2 * betaFM f (gT g) a a.
Proof.
  intros V Ha. pose proof (fm_kernel s g soot f a a V Ha Ha) as E. assert (PS : 0 < sqrt (1 / a + 1 / a)) by (apply sqrt_lt_R0; pos).
  apply (Rmult_eq_reg_r (sqrt (1 / a + 1 / a))); [|lra]. rewrite E.
  assert (Q : Rpower a (- (1 / 2)) + Rpower a (- (1 / 2)) = sqrt 2 * sqrt (1 / a + 1 / a)).
  { set (x := Rpower a (- (1 / 2))). assert (Px : 0 < x) by apply exp_pos.
    assert (EA : 1 / a = x * x). { unfold x. rewrite <- Rpower_plus. replace (- (1 / 2) + - (1 / 2)) with (- (1 * 1)) by lra. rewrite Rpower_Ropp, Rmult_1_r, Rpower_1 by auto. unfold Rdiv. ring. }
    rewrite EA, <- sqrt_mult_alt by lra. rewrite <- (sqrt_pow2 (x + x)) by lra. f_equal. ring. }
  rewrite Q. ring.
Qed.

(** sums of positive terms *)
Lemma mean_pos l f g : l <> [] -> (forall c p q, In (c, p, q) l -> 0 < c) -> (forall z, 0 < f z) -> (forall z, 0 < g z) -> 0 < meanOf l f g.
Proof.
  intros NE P Hf Hg. assert (NN : forall l, (forall c p q, In (c, p, q) l -> 0 < c) -> 0 <= meanOf l f g).
  { clear -Hf Hg. induction l as [|((c, p), q) l IH]; intros P; cbn; [lra|]. assert (0 < c) by (apply (P c p q); now left). pose proof (Hf p). pose proof (Hg q).
    assert (0 < c * f p * g q) by (repeat apply Rmult_lt_0_compat; auto). pose proof (IH ltac:(intros; eapply P; right; eauto)). unfold meanOf in H3. lra. }
  destruct l as [|((c, p), q) l]; [contradiction|]. cbn. assert (0 < c) by (apply (P c p q); now left). pose proof (Hf p). pose proof (Hg q).
  assert (0 < c * f p * g q) by (repeat apply Rmult_lt_0_compat; auto). pose proof (NN l ltac:(intros; eapply P; right; eauto)). unfold meanOf in H3. lra.
Qed.
Lemma mean_nn l f g : (forall c p q, In (c, p, q) l -> 0 <= c) -> (forall z, 0 <= f z) -> (forall z, 0 <= g z) -> 0 <= meanOf l f g.
Proof.
  intros P Hf Hg. induction l as [|((c, p), q) l IH]; cbn; [lra|]. assert (0 <= c) by (apply (P c p q); now left). pose proof (Hf p). pose proof (Hg q).
  assert (0 <= c * f p * g q) by (repeat apply Rmult_le_pos; auto). pose proof (IH ltac:(intros; eapply P; right; eauto)). unfold meanOf in H3. lra.
Qed.
Ltac inlist := repeat match goal with H : In _ (_ :: _) |- _ => destruct H as [H|H] | H : In _ [] |- _ => destruct H | H : tm _ _ _ = _ |- _ => unfold tm in H; injection H as <- _ _ end.
Lemma fm_terms_pos s g soot f c p q : valid s g soot -> 0 < f -> In (c, p, q) (fmTerms f g) -> 0 < c.
Proof. intros V Hf IN. pose proof (kFM_pos s g soot V f Hf). unfold bFM, fmTerms, bFM in *. cbn [In] in IN. assert (0 < kFM f g * (8536 / 10000)) by (apply Rmult_lt_0_compat; lra). repeat destruct IN as [IN|IN]; try (unfold tm in IN; injection IN as <- _ _; lra). destruct IN. Qed.
Lemma co_terms_pos s g soot c p q : valid s g soot -> In (c, p, q) (coTerms g) -> 0 < c.
Proof.
  intros V IN. pose proof (kC_pos s g soot V). pose proof (kSlip_pos s g soot V). assert (0 < kC g * kSlip g) by (apply Rmult_lt_0_compat; lra).
  unfold coTerms in IN. cbn [In] in IN. repeat destruct IN as [IN|IN]; try (unfold tm in IN; injection IN as <- _ _; lra). destruct IN.
Qed.

(** ** values of the model's terms *)
Section Terms.
Context (s : state (N:=XR)) (g : gas) (soot : list R) (V : valid s g soot) (M0 M1 M2 : R) (P0 : 0 <= M0) (P1 : 0 <= M1) (P2 : 0 <= M2).
Let M := mom M0 M1 M2.
Ltac mvals := rewrite ?M_val by auto; xsimp; unfold lossOf, gainOf, hitsOf, meanOf, fmTerms, coTerms, tm, bFM; cbn [fold_right Z.add Z.mul Pos.add Pos.add_carry Pos.succ Z.pos_sub Pos.pred_double Z.succ_double Z.pred_double Z.double Pos.mul];
  unfold M, mom; cbn [Z.eqb Pos.eqb]; f_equal; field.
Lemma C0fm_val K : lognC0fm (N:=XR) (Fin K) (Fin M0) (Fin M1) (Fin M2) = Fin (- (1 / 2 * meanOf [tm (K * bFM) 1 0; tm (2 * (K * bFM)) (-1) 2; tm (K * bFM) (-3) 4; tm (2 * (K * bFM)) 2 (-1); tm (K * bFM) 4 (-3); tm (K * bFM) 0 1] M M)).
Proof. unfold lognC0fm. mvals. Qed.
Lemma C0fm f : lognC0fm (N:=XR) (Fin (kFM f g)) (Fin M0) (Fin M1) (Fin M2) = Fin (- lossOf (fmTerms f g) M).
Proof. rewrite C0fm_val. reflexivity. Qed.
Lemma C2fm f : lognC2fm (N:=XR) (Fin (kFM f g)) (Fin M0) (Fin M1) (Fin M2) = Fin (gainOf (fmTerms f g) M).
Proof. unfold lognC2fm. mvals. Qed.
Lemma C0c : lognC0c (N:=XR) (Fin (kC g)) (Fin (kSlip g)) (Fin M0) (Fin M1) (Fin M2) = Fin (- lossOf (coTerms g) M).
Proof. unfold lognC0c. mvals. Qed.
Lemma C2c : lognC2c (N:=XR) (Fin (kC g)) (Fin (kSlip g)) (Fin M0) (Fin M1) (Fin M2) = Fin (gainOf (coTerms g) M).
Proof. unfold lognC2c. mvals. Qed.
Lemma M_nn z : 0 <= M z. Proof. now apply mom_nn. Qed.
Lemma loss_nn l : (forall c p q, In (c, p, q) l -> 0 < c) -> 0 <= lossOf l M.
Proof. intros H. unfold lossOf. apply Rmult_le_pos; [lra|]. apply mean_nn; auto using M_nn. intros. apply Rlt_le. eauto. Qed.
Lemma gain_nn l : (forall c p q, In (c, p, q) l -> 0 < c) -> 0 <= gainOf l M.
Proof. intros H. unfold gainOf. apply mean_nn; intros; auto using M_nn. apply Rlt_le. eauto. Qed.
Lemma HM_neg a b : 0 <= a -> 0 <= b -> lognHM (N:=XR) (Fin (- a)) (Fin (- b)) = Fin 0.
Proof. intros. unfold lognHM. change (@nltb XR) with xltb. change (@nZ XR 0) with (Fin 0). rewrite !xltb_false by lra. reflexivity. Qed.
Lemma HM_pos a b : 0 <= a -> 0 <= b -> lognHM (N:=XR) (Fin a) (Fin b) = Fin (if Rlt_dec 0 (a + b) then harm a b else 0).
Proof.
  intros. unfold lognHM. change (@nltb XR) with xltb. change (@nZ XR 0) with (Fin 0). destruct (Rlt_dec 0 (a + b)).
  - assert (E : xltb (Fin 0) (Fin a) || xltb (Fin 0) (Fin b) = true).
    { destruct (Rlt_dec 0 a); [rewrite xltb_true by auto; reflexivity|]. rewrite (xltb_true 0 b) by lra. apply orb_true_r. }
    rewrite E. xsimp. reflexivity.
  - rewrite !xltb_false by lra. reflexivity.
Qed.
Lemma coag_val k : okAll k -> momentCoag k ->
  lognCoag (with_f (mC k) (mF k)) s (Fin M0) (Fin M1) (Fin M2) = (Fin (lognC0 k g M), Fin (lognC2 k g M)).
Proof.
  intros (_ & _ & _ & _ & _ & OF) HC. unfold lognCoag. rewrite (kfm_val s g soot V _ (mF k)) by (destruct (mC k); reflexivity).
  rewrite (kc_val s g soot V), (kslip_val s g soot V). rewrite C0fm, C2fm, C0c, C2c.
  pose proof (loss_nn (fmTerms (mF k) g) ltac:(intros; eapply fm_terms_pos; eauto)). pose proof (loss_nn (coTerms g) ltac:(intros; eapply co_terms_pos; eauto)).
  pose proof (gain_nn (fmTerms (mF k) g) ltac:(intros; eapply fm_terms_pos; eauto)). pose proof (gain_nn (coTerms g) ltac:(intros; eapply co_terms_pos; eauto)).
  unfold lognC0, lognC2. destruct HC as [E|[E|E]]; rewrite E; cbn [co_mech with_f set_FM_multiplier newCoag]; [reflexivity|reflexivity|].
  rewrite HM_neg, HM_pos by auto. reflexivity.
Qed.
(** collision integrals with a particle of positive mass *)
Section Dimer.
Context (x : R) (Px : 0 < x) (k : mechs).
Let K1 := hitsOf (fmTerms (mF k) g) x M 0.
Ltac hvals := rewrite ?M_val by auto; xsimp; unfold hitsOf, meanOf, fmTerms, coTerms, tm, bFM; cbn [fold_right Z.add Z.mul Pos.add Pos.add_carry Pos.succ Z.pos_sub Pos.pred_double Z.succ_double Z.pred_double Z.double Pos.mul];
  rewrite ?six_0 by auto; unfold M, mom; cbn [Z.eqb Pos.eqb]; unfold sixth; f_equal;
  replace (1 / 3) with (2 / 6) by lra; replace (2 / 3) with (4 / 6) by lra; 
  replace (- (2 / 6)) with (-2 / 6) by lra; replace (- (4 / 6)) with (-4 / 6) by lra; replace (-5 / 10) with (-3 / 6) by lra; ring.
Lemma Ifm1_val : lognIfm1 (N:=XR) (Fin (kFM (mF k) g)) (Fin x) (Fin M0) (Fin M1) (Fin M2) = Fin (hitsOf (fmTerms (mF k) g) x M 0).
Proof. unfold lognIfm1. hvals. Qed.
Lemma Ic1_val : lognIc1 (N:=XR) (Fin (kC g)) (Fin (kSlip g)) (Fin x) (Fin M0) (Fin M1) (Fin M2) = Fin (hitsOf (coTerms g) x M 0).
Proof. unfold lognIc1. hvals. Qed.
Lemma Ifm2_val : lognIfm2 (N:=XR) (Fin (kFM (mF k) g)) (Fin x) (Fin M0) (Fin M1) (Fin M2) = Fin (2 * hitsOf (fmTerms (mF k) g) x M 1).
Proof. unfold lognIfm2. hvals. Qed.
Lemma Ic2_val : lognIc2 (N:=XR) (Fin (kC g)) (Fin (kSlip g)) (Fin x) (Fin M0) (Fin M1) (Fin M2) = Fin (2 * hitsOf (coTerms g) x M 1).
Proof. unfold lognIc2. hvals. Qed.
End Dimer.
End Terms.
