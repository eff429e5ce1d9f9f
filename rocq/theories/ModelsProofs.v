(** Lemmas for C86: the printed equations of the size models against the code. *)
From Coq Require Import ZArith List Bool Reals Lra Lia.
From Verif Require Import Num Defs State Coag Nucl Growth Oxid Tar SootModel Mono Logn Qmom Sect Calls XR XRLemmas NumLaws
  SpecState SpecChem SpecCoag SpecValid SpecRates SpecGas SpecTar SpecPah SpecPsd SpecSect SpecQmom SpecLogn SpecModels CoagProofs ValidProofs RateProofs PsdProofs PahProofs MonoProofs MonoMain MonoCases ChemAll SectProofs SectMain SectCases SectFinal QmomProofs QmomRun QmomCases QmomFinal QmomSame LognProofs LognMain LognFinal LognCases RichProofs.
Import ListNotations.
Local Open Scope R_scope.

(** ** fractional moments *)
Lemma doc_closure M0 M1 M2 r : 0 < M0 -> 0 < M1 -> 0 < M2 -> closure M0 M1 M2 r = docLognMoment M0 M1 M2 r.
Proof. intros. rewrite closure_pos by auto. unfold docLognMoment, Rpower. rewrite <- !exp_plus. f_equal. field. Qed.
Lemma C86_moment_ M0 M1 M2 r : 0 < M0 -> 0 < M1 -> 0 < M2 ->
  lognMr (N:=XR) (Fin r) (Fin M0) (Fin M1) (Fin M2) = Fin (docLognMoment M0 M1 M2 r) /\
  docLognMoment M0 M1 M2 r = M0 * Rpower (docMedian M0 M1 M2) r * exp (r ^ 2 * docVariance M0 M1 M2 / 2).
Proof.
  intros P0 P1 P2. split; [rewrite Mr_val by lra; f_equal; now apply doc_closure|].
  assert (PS : 0 < M1 ^ 2) by now apply pow_lt. assert (L1 : ln (M1 ^ 2) = 2 * ln M1) by (cbn [pow]; rewrite Rmult_1_r, ln_mult by auto; ring).
  assert (LM : ln (docMedian M0 M1 M2) = 2 * ln M1 - 3 / 2 * ln M0 - 1 / 2 * ln M2).
  { unfold docMedian. rewrite lndiv by (auto; apply Rmult_lt_0_compat; apply exp_pos). rewrite L1. rewrite ln_mult by apply exp_pos. unfold Rpower. rewrite !ln_exp. ring. }
  assert (LV : docVariance M0 M1 M2 = ln M0 + ln M2 - 2 * ln M1) by (unfold docVariance; rewrite lndiv, L1, ln_mult by (auto; apply Rmult_lt_0_compat; auto); ring).
  unfold docLognMoment. rewrite LV. unfold Rpower at 4. rewrite LM. rewrite <- (exp_ln M0) at 2 by auto. unfold Rpower. rewrite <- !exp_plus. f_equal. field.
Qed.
Lemma C86_mono_ (m : model (N:=XR)) s g k M0 M1 st eig :
  sm_psd m = P_MONO -> hasAll m k -> okAll k -> noTar m -> valid s g [M0; M1] -> 0 < M0 -> 0 < M1 -> regular k g M0 M1 ->
  length (wts s) = 1%nat -> length (absc s) = 1%nat -> onlySurface k ->
  exists m' s', setSourceTerms st eig m s = Ok (st, m', s') /\
    soots m' = [Fin 0; Fin ((kgrow k g M0 M1 - koxid k g M0 M1) * (piC * Rpower (6 / (piC * sootDensity)) (2 / 3)) * docMonoMoment M0 M1 (2 / 3))].
Proof.
  intros HP HM OM HT V P0 P1 RG L1 L2 (EN & EC). destruct (mono_full m s g k M0 M1 st eig HP HM OM HT V P0 RG L1 L2) as (m' & E & Q & _).
  do 2 eexists. split; [exact E|]. rewrite Q.
  assert (EO : nucl k g (M0 * kernel k g (dimerMass g) (M1 / M0)) = mkOut 0 g 0 0) by (unfold nucl, isP, Jnuc; rewrite EN; reflexivity).
  assert (K0 : forall a b, kernel k g a b = 0) by (intros; unfold kernel; rewrite EC; destruct (Rlt_dec _ _); [destruct (Rlt_dec _ _)|]; reflexivity).
  rewrite EO. unfold oN1. cbn [oJ oGas oMass oConc]. rewrite !K0. apply f_equal2; [f_equal; ring|]. apply f_equal2; [|reflexivity]. apply (f_equal Fin).
  assert (X : M0 * sphere (M1 / M0) = piC * Rpower (6 / (piC * sootDensity)) (2 / 3) * docMonoMoment M0 M1 (2 / 3)).
  { assert (Y : M0 * Rpower (M1 / M0) (2 / 3) = docMonoMoment M0 M1 (2 / 3)).
    { unfold docMonoMoment, Rpower. rewrite lndiv by auto. rewrite <- (exp_ln M0 P0) at 1. rewrite <- !exp_plus. f_equal. field. }
    rewrite <- areaCoef_sphere by now apply Rdiv_lt_0_compat. rewrite <- Y. unfold areaCoef. replace (1 - 1 / 3) with (2 / 3) by lra. ring. }
  rewrite X. ring.
Qed.

(** ** lognormal coagulation *)
Ltac zs := repeat match goal with |- context [Z.add ?a ?b] => let v := eval compute in (Z.add a b) in change (Z.add a b) with v end.
Lemma mom_doc M0 M1 M2 z : 0 < M0 -> 0 < M1 -> 0 < M2 -> mom M0 M1 M2 z = docLognMoment M0 M1 M2 (IZR z / 6).
Proof.
  intros. unfold mom. destruct (Z.eqb_spec z 0) as [->|]; [|destruct (Z.eqb_spec z 6) as [->|]; [|now apply doc_closure]].
  - rewrite <- doc_closure by auto. replace (0 / 6) with 0 by field. now rewrite closure_0.
  - rewrite <- doc_closure by auto. replace (6 / 6) with 1 by field. now rewrite closure_1.
Qed.
Lemma doc_gt M0 M1 M2 r : 0 < docLognMoment M0 M1 M2 r.
Proof. unfold docLognMoment. repeat apply Rmult_lt_0_compat; apply exp_pos. Qed.
Lemma logn_only (m : model (N:=XR)) s g k c M0 M1 M2 st eig : readyLogn m s g k M0 M1 M2 -> onlyCoag k c ->
  exists m', setSourceTerms st eig m s = Ok (st, m', s) /\ soots m' = [Fin (lognC0 k g (mom M0 M1 M2)); Fin 0; Fin (lognC2 k g (mom M0 M1 M2))].
Proof.
  intros RD (EN & EG & EX & EC). assert (EP : isP k = false) by (unfold isP; now rewrite EN).
  destruct (logn_run m s g k M0 M1 M2 st eig RD ltac:(congruence)) as (m' & E & Q & _). exists m'. unfold outS in E. rewrite EP in E. split; [exact E|]. rewrite Q.
  unfold lognSources, nucl. rewrite EP. unfold Jnuc, kgrow, koxid, oN1. rewrite EN, EG, EX. cbn [oJ oGas map nuclFormula growFormula oxidFormula].
  apply f_equal2; [apply (f_equal Fin); ring|]. apply f_equal2; [apply (f_equal Fin); ring|]. apply f_equal2; [apply (f_equal Fin); ring|reflexivity].
Qed.
Lemma sixths M0 M1 M2 : 0 < M0 -> 0 < M1 -> 0 < M2 -> forall z r, IZR z / 6 = r -> mom M0 M1 M2 z = docLognMoment M0 M1 M2 r.
Proof. intros ? ? ? z r <-. now apply mom_doc. Qed.
Lemma C86_continuum_ (m : model (N:=XR)) s g k M0 M1 M2 st eig : readyLogn m s g k M0 M1 M2 -> onlyCoag k C_CONTINUUM -> 0 < M0 -> 0 < M1 -> 0 < M2 ->
  exists m' r0 r2, setSourceTerms st eig m s = Ok (st, m', s) /\ soots m' = [Fin r0; Fin 0; Fin r2] /\
    r0 = docLognC0 g M0 M1 M2 (1657 / 1000) /\ r2 = docLognC2 g M0 M1 M2 (1657 / 1000) /\
    docLognC0 g M0 M1 M2 (1675 / 1000) < r0 /\ r2 < docLognC2 g M0 M1 M2 (1675 / 1000).
Proof.
  intros RD OC P0 P1 P2. destruct (logn_only m s g k _ M0 M1 M2 st eig RD OC) as (m' & E & Q). exists m'.
  pose proof RD as (_ & _ & _ & _ & V & _). destruct OC as (_ & _ & _ & EC).
  assert (E0 : lognC0 k g (mom M0 M1 M2) = docLognC0 g M0 M1 M2 (1657 / 1000)).
  { unfold lognC0. rewrite EC. unfold lossOf, coTerms, tm, meanOf, docLognC0. cbn [fold_right].
    rewrite (sixths M0 M1 M2 P0 P1 P2 2 (2 / 6)), (sixths M0 M1 M2 P0 P1 P2 (-2) (- (2 / 6))), (sixths M0 M1 M2 P0 P1 P2 (-4) (- (4 / 6))) by field.
    change (mom M0 M1 M2 0) with M0. change (kSlip g) with (docKCslip g (1657 / 1000)). change (kC g) with (docKC g). field. }
  assert (E2 : lognC2 k g (mom M0 M1 M2) = docLognC2 g M0 M1 M2 (1657 / 1000)).
  { unfold lognC2. rewrite EC. unfold gainOf, coTerms, tm, meanOf, docLognC2. cbn [fold_right]. zs.
    rewrite (sixths M0 M1 M2 P0 P1 P2 2 (2 / 6)), (sixths M0 M1 M2 P0 P1 P2 4 (4 / 6)), (sixths M0 M1 M2 P0 P1 P2 8 (8 / 6)) by field.
    change (mom M0 M1 M2 6) with M1. change (kSlip g) with (docKCslip g (1657 / 1000)). change (kC g) with (docKC g). field. }
  rewrite E0, E2 in Q. do 2 eexists. split; [exact E|]. split; [exact Q|]. split; [reflexivity|]. split; [reflexivity|].
  assert (PK : 0 < docKC g).
  { destruct (v_gas _ _ _ V) as (A & B & C & D & _). pose proof boltz_pos. unfold docKC. apply Rdiv_lt_0_compat; [repeat apply Rmult_lt_0_compat|]; lra. }
  assert (PL : docKCslip g (1657 / 1000) < docKCslip g (1675 / 1000)).
  { unfold docKCslip. assert (0 < meanFreePath (gP g) (gRho g) (gMu g) * Rpower (piC * sootDensity / 6) (1 / 3)).
    { destruct (v_gas _ _ _ V) as (A & B & C & D & _). pose proof piC_pos. unfold meanFreePath. apply Rmult_lt_0_compat; [|apply exp_pos]. apply Rmult_lt_0_compat; [apply Rdiv_lt_0_compat; lra|].
      apply sqrt_lt_R0. apply Rdiv_lt_0_compat; [apply Rmult_lt_0_compat; lra|lra]. }
    rewrite !Rmult_assoc. nra. }
  unfold docLognC0, docLognC2. set (a := docKCslip g (1657 / 1000)) in *. set (b := docKCslip g (1675 / 1000)) in *. clearbody a b. set (K := docKC g) in *. clearbody K.
  pose proof (doc_gt M0 M1 M2 (2 / 6)) as G1. pose proof (doc_gt M0 M1 M2 (- (2 / 6))) as G2. pose proof (doc_gt M0 M1 M2 (- (4 / 6))) as G3.
  pose proof (doc_gt M0 M1 M2 (4 / 6)) as G4. pose proof (doc_gt M0 M1 M2 (8 / 6)) as G5.
  set (m1 := docLognMoment M0 M1 M2 (2 / 6)) in *. set (m2 := docLognMoment M0 M1 M2 (- (2 / 6))) in *. set (m3 := docLognMoment M0 M1 M2 (- (4 / 6))) in *.
  set (m4 := docLognMoment M0 M1 M2 (4 / 6)) in *. set (m5 := docLognMoment M0 M1 M2 (8 / 6)) in *. clearbody m1 m2 m3 m4 m5. clear - PK PL G1 G2 G3 G4 G5 P0 P1.
  assert (A : 0 < K * ((b - a) * (M0 * m2 + m1 * m3))) by (repeat apply Rmult_lt_0_compat; try lra; apply Rplus_lt_0_compat; apply Rmult_lt_0_compat; assumption).
  assert (B : 0 < K * ((b - a) * (M1 * m4 + m1 * m5))) by (repeat apply Rmult_lt_0_compat; try lra; apply Rplus_lt_0_compat; apply Rmult_lt_0_compat; assumption).
  split; lra.
Qed.
Lemma C86_fm_ (m : model (N:=XR)) s g k M0 M1 M2 st eig : readyLogn m s g k M0 M1 M2 -> onlyCoag k C_FM -> 0 < M0 -> 0 < M1 -> 0 < M2 ->
  exists m' b, setSourceTerms st eig m s = Ok (st, m', s) /\ soots m' = [Fin (mF k * docLognFM0 g M0 M1 M2 b); Fin 0; Fin (mF k * docLognFM2 g M0 M1 M2 b)] /\
    Rabs (b - docB) < 5 / 10 ^ 5.
Proof.
  intros RD OC P0 P1 P2. destruct (logn_only m s g k _ M0 M1 M2 st eig RD OC) as (m' & E & Q). exists m', bFM.
  pose proof RD as (_ & _ & _ & _ & V & _). destruct OC as (_ & _ & _ & EC).
  assert (EK : kFM (mF k) g = mF k * docKFM g).
  { unfold kFM, docKFM. rewrite <- Rpower_sqrt; [replace (/ 2) with (1 / 2) by lra; unfold enhancement; ring|]. destruct (v_gas _ _ _ V) as (A & _). pose proof piC_pos. pose proof boltz_pos. apply Rdiv_lt_0_compat; [repeat apply Rmult_lt_0_compat; lra|lra]. }
  assert (E0 : lognC0 k g (mom M0 M1 M2) = mF k * docLognFM0 g M0 M1 M2 bFM).
  { unfold lognC0. rewrite EC. unfold lossOf, fmTerms, tm, meanOf, docLognFM0. cbn [fold_right]. rewrite EK.
    rewrite (sixths M0 M1 M2 P0 P1 P2 1 (1 / 6)), (sixths M0 M1 M2 P0 P1 P2 2 (2 / 6)), (sixths M0 M1 M2 P0 P1 P2 (-1) (- (1 / 6))), (sixths M0 M1 M2 P0 P1 P2 (-3) (- (3 / 6))), (sixths M0 M1 M2 P0 P1 P2 4 (4 / 6)) by field.
    change (mom M0 M1 M2 0) with M0. field. }
  assert (E2 : lognC2 k g (mom M0 M1 M2) = mF k * docLognFM2 g M0 M1 M2 bFM).
  { unfold lognC2. rewrite EC. unfold gainOf, fmTerms, tm, meanOf, docLognFM2. cbn [fold_right]. zs. rewrite EK.
    rewrite (sixths M0 M1 M2 P0 P1 P2 7 (7 / 6)), (sixths M0 M1 M2 P0 P1 P2 5 (5 / 6)), (sixths M0 M1 M2 P0 P1 P2 8 (8 / 6)), (sixths M0 M1 M2 P0 P1 P2 3 (3 / 6)), (sixths M0 M1 M2 P0 P1 P2 10 (10 / 6)) by field.
    change (mom M0 M1 M2 6) with M1. field. }
  rewrite E0, E2 in Q. split; [exact E|]. split; [exact Q|].
  assert (S : 14142 / 10000 < sqrt 2 < 14143 / 10000).
  { split; [rewrite <- (sqrt_pow2 (14142 / 10000)) by lra; apply sqrt_lt_1; lra|rewrite <- (sqrt_pow2 (14143 / 10000)) by lra; apply sqrt_lt_1; lra]. }
  unfold docB, bFM. assert (I : 1 / sqrt 2 = sqrt 2 / 2). { assert (H := sqrt_sqrt 2 ltac:(lra)). apply (Rmult_eq_reg_r (sqrt 2)); [|lra]. unfold Rdiv. rewrite Rmult_assoc, Rinv_l by lra. lra. }
  rewrite I. apply Rabs_def1; lra.
Qed.
(** the approximation of the factor *)
Lemma C86_error_ m : 0 < m -> 20 / 100 < docError docB m m /\ 20 / 100 < docError (8536 / 10000) m m.
Proof.
  intros H. assert (S : 14142 / 10000 < sqrt 2 < 14143 / 10000).
  { split; [rewrite <- (sqrt_pow2 (14142 / 10000)) by lra; apply sqrt_lt_1; lra|rewrite <- (sqrt_pow2 (14143 / 10000)) by lra; apply sqrt_lt_1; lra]. }
  assert (E : forall b, docError b m m = Rabs (b * sqrt 2 - 1)).
  { intros b. unfold docError. replace (1 / m + 1 / m) with (2 * / m) by (field; lra). rewrite <- (Rpower_mult_distr 2 (/ m)) by (try apply Rinv_0_lt_compat; lra).
    replace (Rpower 2 (1 / 2)) with (sqrt 2) by (rewrite <- Rpower_sqrt by lra; f_equal; lra).
    assert (I : Rpower (/ m) (1 / 2) = / Rpower m (1 / 2)) by (unfold Rpower; rewrite ln_Rinv by auto; rewrite <- exp_Ropp; f_equal; ring).
    rewrite I. assert (0 < Rpower m (1 / 2)) by apply exp_pos. f_equal. f_equal. apply (Rmult_eq_reg_r (sqrt 2)); [|lra].
    replace (b * sqrt 2 * sqrt 2) with (b * (sqrt 2 * sqrt 2)) by ring. rewrite sqrt_sqrt by lra. field. lra. }
  rewrite !E. unfold docB. assert (I : 1 / sqrt 2 = sqrt 2 / 2). { assert (Q := sqrt_sqrt 2 ltac:(lra)). apply (Rmult_eq_reg_r (sqrt 2)); [|lra]. unfold Rdiv. rewrite Rmult_assoc, Rinv_l by lra. lra. }
  rewrite I. assert (Q := sqrt_sqrt 2 ltac:(lra)). 
  assert (B1 : (sqrt 2 / 2 + 1) / 2 * sqrt 2 = 1 / 2 + sqrt 2 / 2) by (replace ((sqrt 2 / 2 + 1) / 2 * sqrt 2) with (sqrt 2 * sqrt 2 / 4 + sqrt 2 / 2) by field; rewrite Q; field).
  rewrite B1. split; rewrite Rabs_right; lra.
Qed.
Lemma C86_error_most m mu : 0 < m -> 0 < mu -> docError (8536 / 10000) m mu < 21 / 100.
Proof.
  intros H H'. pose proof (half_power m mu H H') as (A & B). unfold docError.
  assert (PS : 0 < sqrt (1 / m + 1 / mu)) by (apply sqrt_lt_R0; apply Rplus_lt_0_compat; apply Rdiv_lt_0_compat; lra).
  replace (Rpower (1 / m + 1 / mu) (1 / 2)) with (sqrt (1 / m + 1 / mu)) by (rewrite <- Rpower_sqrt by (apply Rplus_lt_0_compat; apply Rdiv_lt_0_compat; lra); f_equal; lra).
  rewrite !Rpower_Ropp in A, B. replace (1 / Rpower m (1 / 2)) with (/ Rpower m (1 / 2)) by (unfold Rdiv; ring). replace (1 / Rpower mu (1 / 2)) with (/ Rpower mu (1 / 2)) by (unfold Rdiv; ring).
  set (x := / Rpower m (1 / 2) + / Rpower mu (1 / 2)) in *. clearbody x. set (q := sqrt (1 / m + 1 / mu)) in *. clearbody q.
  assert (S : sqrt 2 < 14143 / 10000) by (rewrite <- (sqrt_pow2 (14143 / 10000)) by lra; apply sqrt_lt_1; lra).
  assert (B' : x <= 14143 / 10000 * q) by nra.
  assert (L : 8536 / 10000 <= 8536 / 10000 * x / q) by (apply (Rmult_le_reg_r q); [auto|]; unfold Rdiv; rewrite (Rmult_assoc _ (/ q)), Rinv_l by lra; lra).
  assert (U : 8536 / 10000 * x / q <= 8536 / 10000 * (14143 / 10000)) by (apply (Rmult_le_reg_r q); [auto|]; unfold Rdiv; rewrite (Rmult_assoc _ (/ q)), Rinv_l by lra; lra).
  apply Rabs_def1; lra.
Qed.

(** ** quadrature *)
Lemma C86_qmom_ m s g k c soot p eig st r m' s' w x : readyQmom m s g k soot p -> onlyCoag k c -> setSourceTerms st eig m s = Ok (r, m', s') -> nodesAre s' w x ->
  nth_error (soots m') 0 = Some (Fin (- (1 / 2) * Sum (length w) (fun i => Sum (length w) (fun j => kernel k g (el x i) (el x j) * el w i * el w j)))).
Proof.
  intros RD (EN & EG & EX & EC) E ND. destruct (C35_l m s g k soot p eig st r m' s' w x RD E ND) as (_ & Q). pose proof RD as ((_ & _ & Hp & _) & _).
  rewrite Q. rewrite nth_error_map. replace (nth_error (seq 0 (2 * p)) 0) with (Some 0%nat) by (destruct p; [lia|reflexivity]). cbn [option_map]. do 2 f_equal.
  unfold qmomSource, nucl, isP, Jnuc, condense, smoluchowski. rewrite EN. cbn [oJ oGas nuclFormula INR pow].
  rewrite (Sum_ext (length w) (fun i => Sum (length w) (fun j => kernel k g (el x i) (el x j) * el w i * el w j * (1 - 1 - 1)))
    (fun i => - Sum (length w) (fun j => kernel k g (el x i) (el x j) * el w i * el w j))).
  - rewrite Sum_opp. ring.
  - intros i _. rewrite <- Sum_opp. apply Sum_ext. intros j _. ring.
Qed.

(** ** sections *)
Section Bins.
Context (b n : list R).
Lemma grow_bin kg j : (2 <= length b)%nat -> docGrowBin b n (fun l => sphere (el b l)) kg j = moveUp b (fun l => kg * binArea b n l) j.
Proof.
  intros L. unfold docGrowBin, moveUp, binArea. destruct (Nat.eqb_spec j 0) as [->|].
  - destruct (Nat.eqb_spec 1 (length b)); [lia|]. unfold Rdiv. ring.
  - destruct (Nat.eqb_spec (S j) (length b)); unfold Rdiv; ring.
Qed.
Lemma oxid_bin ko j : (2 <= length b)%nat -> docOxidBin b n (fun l => sphere (el b l)) ko ko j = moveDown b (fun l => ko * binArea b n l) j.
Proof.
  intros L. unfold docOxidBin, moveDown, binArea. destruct (Nat.eqb_spec (S j) (length b)) as [E|].
  - destruct (Nat.eqb_spec j 0); [lia|]. unfold Rdiv. ring.
  - destruct (Nat.eqb_spec j 0) as [->|]; unfold Rdiv; ring.
Qed.
End Bins.
Lemma only_kernel k g a b : mC k = C_NONE -> kernel k g a b = 0.
Proof. intros EC. unfold kernel. rewrite EC. destruct (Rlt_dec _ _); [destruct (Rlt_dec _ _)|]; reflexivity. Qed.
Lemma up_0 b j : moveUp b (fun _ => 0) j = 0.
Proof. unfold moveUp. destruct (Nat.eqb j 0), (Nat.eqb (S j) (length b)); unfold Rdiv; ring. Qed.
Section Sect.
Context (m m' : model (N:=XR)) (s s' : state (N:=XR)) (g : gas) (k : mechs) (b n : list R) (F c : R) (st st' : option xr) (eig : Qmom.eigSolver (N:=XR)).
Context (HS : isSect m b F) (G : goodBins b) (HM : hasAll m k) (OM : okAll k) (V : valid s g n) (Ln : length n = length b).
Context (RG : regular k g (number n) (mass b n)) (HC : located st F c) (HE : setSourceTerms st eig m s = Ok (st', m', s')).
Let a := fun l => sphere (el b l).
Let kg := kgrow k g (number n) (mass b n).
Let ko := koxid k g (number n) (mass b n).
Lemma C86_sect_ : onlySurface k -> soots m' = map (fun j => Fin (docGrowBin b n a kg j + docOxidBin b n a ko ko j)) (seq 0 (length b)).
Proof.
  intros (EN & EC). destruct (sect_result m m' s s' g k b n F c st st' eig HS G HM OM V Ln RG HC HE) as (Q & _). rewrite Q, map_map. apply map_ext_in. intros j _. f_equal.
  destruct G as (L & _). unfold a. rewrite grow_bin, oxid_bin by assumption. unfold sectSource, nucl, isP, Jnuc. rewrite EN. unfold oN1. cbn [oJ oGas oMass oConc nuclFormula].
  assert (Z : forall l, condensed k g b n (mkOut 0 g 0 0) l = 0) by (intros; unfold condensed; cbn [oMass oConc]; rewrite only_kernel by assumption; ring).
  assert (U : moveUp b (condensed k g b n (mkOut 0 g 0 0)) j = 0) by (unfold moveUp; rewrite !Z; destruct (Nat.eqb j 0), (Nat.eqb (S j) (length b)); unfold Rdiv; ring).
  assert (A : coagAt k g b n c j = 0).
  { unfold coagAt. rewrite (Sum_0 (length b)); [rewrite (Sum_0 (length b)); [ring|]|]; intros l _; [rewrite only_kernel by assumption; ring|]. apply Sum_0. intros q _. rewrite only_kernel by assumption. ring. }
  rewrite U, A. fold kg ko. destruct (Nat.eqb j 0); unfold Rdiv; ring.
Qed.
(** the page prints k_g in the first bin *)
Lemma printed_first : (2 <= length b)%nat -> docOxidBin b n a ko kg 0 = docOxidBin b n a ko ko 0 + (ko - kg) * a 0%nat * el n 0 / el b 0.
Proof. intros L. unfold docOxidBin. destruct (Nat.eqb_spec 1 (length b)); [lia|]. cbn [Nat.eqb]. unfold Rdiv. ring. Qed.
Lemma printed_rest j : j <> 0%nat -> docOxidBin b n a ko kg j = docOxidBin b n a ko ko j.
Proof. intros H. unfold docOxidBin. destruct (Nat.eqb_spec j 0); [contradiction|]. reflexivity. Qed.
Lemma C86_printed_ : 0 < el n 0 -> kg <> ko -> docOxidBin b n a ko kg 0 <> docOxidBin b n a ko ko 0 /\
  Sum (length b) (fun j => el b j * docOxidBin b n a ko ko j) = - (ko * totalArea b n) /\
  Sum (length b) (fun j => el b j * docOxidBin b n a ko kg j) <> - (ko * totalArea b n).
Proof.
  intros H D. pose proof G as (L & B0 & _).
  assert (PA : 0 < a 0%nat). { unfold a, sphere. destruct (Rlt_dec 0 (el b 0)); [|lra]. pose proof piC_pos. pose proof (diam_pos (el b 0)). apply Rmult_lt_0_compat; [lra|]. apply pow_lt. lra. }
  assert (P : (ko - kg) * a 0%nat * el n 0 / el b 0 <> 0).
  { unfold Rdiv. apply Rmult_integral_contrapositive_currified; [|apply Rinv_neq_0_compat; lra]. repeat apply Rmult_integral_contrapositive_currified; lra. }
  rewrite printed_first by assumption. split; [lra|].
  assert (X : Sum (length b) (fun j => el b j * docOxidBin b n a ko ko j) = - (ko * totalArea b n)).
  { rewrite (Sum_ext _ _ (fun j => el b j * moveDown b (fun l => ko * binArea b n l) j)) by (intros j _; unfold a; rewrite oxid_bin by assumption; reflexivity).
    rewrite down_mass by assumption. rewrite Sum_scal. reflexivity. }
  split; [exact X|]. rewrite <- X. rewrite (Sum_first _ (fun j => el b j * docOxidBin b n a ko kg j)), (Sum_first _ (fun j => el b j * docOxidBin b n a ko ko j)) by lia.
  rewrite (Sum_ext (length b - 1) (fun j => el b (S j) * docOxidBin b n a ko kg (S j)) (fun j => el b (S j) * docOxidBin b n a ko ko (S j))) by (intros j _; rewrite printed_rest by lia; reflexivity).
  rewrite printed_first by assumption. intros K. apply P. apply (Rmult_eq_reg_l (el b 0)); lra.
Qed.
End Sect.
(** the printed coagulation is for evenly spaced sections *)
Lemma C86_coag_ c0 F n0 m s g k st eig : (0 < c0)%Z -> 2 <= F -> let b := geometric c0 F 4 in let n := [0; n0; 0; 0] in
  isSect m b F -> hasAll m k -> okAll k -> valid s g n -> onlyCoag k (mC k) -> mC k <> C_NONE -> 0 < n0 -> massCutoff < el b 1 -> ownConst st F ->
  exists m' s' st' q, setSourceTerms st eig m s = Ok (st', m', s') /\ soots m' = map Fin q /\ length q = 4%nat /\ mass b q = 0 /\
    0 < mass b (map (docCoagBin b n (kernel k g)) (seq 0 4)).
Proof.
  intros Hc HF b n HS HM OM V OC NC H0 HB HO.
  assert (HF' : doubleAbove1 F) by (pose proof double2; unfold doubleAbove1 in *; lra).
  assert (RG : regular k g (number n) (mass b n)) by (destruct OC as (_ & E1 & E2 & _); intros [K|K]; congruence).
  assert (G : goodBins b) by (apply geo_good; [lia|assumption|lra]).
  destruct (C31_own_ m s g k c0 F 4 n st eig Hc HF' sane4 HS HM OM V eq_refl RG HO) as (m' & s' & st' & E & _ & _ & _ & _).
  destruct OC as (EN & EG & EX & _).
  destruct (C30_only m m' s s' g k b n F (/ ln F) st st' eig HS G HM OM V eq_refl RG (own_located st F HF' HO) E EN EG EX) as (q & Q1 & Q2 & Q3 & _).
  exists m', s', st', q. do 2 (split; [assumption|]). split; [exact Q2|]. split; [exact Q3|].
  pose proof OM as (_ & _ & _ & _ & OC' & OF). pose proof (kernel_pos s g n k (el b 1) (el b 1) V OF NC OC' HB HB) as PK.
  set (u := massC / avogadro) in *. assert (PU : 0 < u) by exact unit_pos.
  assert (E1 : el b 1 = IZR c0 * F ^ 1 * u) by (apply geo_el; lia). assert (E3 : el b 3 = IZR c0 * F ^ 3 * u) by (apply geo_el; lia).
  assert (X : mass b (map (docCoagBin b n (kernel k g)) (seq 0 4)) = kernel k g (el b 1) (el b 1) * n0 ^ 2 * (el b 3 / 2 - el b 1)).
  { clear - n0. set (beta := kernel k g). clearbody beta. unfold b, geometric. cbn [seq map]. fold (massC / avogadro). generalize (massC / avogadro). intros v.
    set (x0 := IZR c0 * F ^ 0 * v). set (x1 := IZR c0 * F ^ 1 * v). set (x2 := IZR c0 * F ^ 2 * v). set (x3 := IZR c0 * F ^ 3 * v). clearbody x0 x1 x2 x3.
    unfold mass, dot, docCoagBin, Sum, el, n. cbn [seq map nth Nat.sub combine length]. unfold sumR. cbn [fold_right fst snd]. field. }
  rewrite X. assert (0 < n0 ^ 2) by now apply pow_lt. apply Rmult_lt_0_compat; [now apply Rmult_lt_0_compat|].
  assert (P1 : 0 < el b 1) by (pose proof cut_pos; lra). assert (Q : el b 3 = F ^ 2 * el b 1) by (rewrite E1, E3; ring). rewrite Q. assert (4 <= F ^ 2) by nra. nra.
Qed.

(** ** cases *)
Lemma case_logn co M0 M1 M2 : co = C_FM \/ co = C_CONTINUUM -> 0 < M0 -> 0 < M1 -> 0 < M2 ->
  exists (m : model (N:=XR)) s, constructEnum P_LOGN 3 N_NONE G_NONE O_NONE co 0 T_NONE (Fin 2) 100 = Ok m /\
    call (newState 3 0) (argsOf demoGas [M0; M1; M2] []) = SetOk s /\ readyLogn m s demoGas (mkMechs N_NONE G_NONE O_NONE co 1) M0 M1 M2 /\
    onlyCoag (mkMechs N_NONE G_NONE O_NONE co 1) co.
Proof.
  intros Hc P0 P1 P2.
  destruct (constructEnum (N:=XR) P_LOGN 3 N_NONE G_NONE O_NONE co 0 T_NONE (Fin 2) 100) as [m| |] eqn:E.
  2, 3: exfalso; destruct Hc as [->| ->]; discriminate E.
  destruct (demo_any (newState 3 0) [M0; M1; M2] []) as (s & C & V & _); try reflexivity. { apply in3; lra. } { intros ? []. }
  exists m, s. split; [reflexivity|]. split; [exact C|]. destruct (built _ _ _ _ _ _ _ _ _ _ _ E) as (H & Hp & _).
  split; [|repeat split; reflexivity]. do 2 (split; [assumption|]). split; [|split; [|split; [exact V|]]].
  - split; [left; repeat split; discriminate|]. cbn [mN mG mO mC mF]. do 3 (split; [discriminate|]). split; [destruct Hc as [->| ->]; discriminate|lra].
  - unfold momentCoag. cbn [mC]. tauto.
  - intros [H1|H1]; discriminate.
Qed.
Lemma case_surface gr ox : gr = G_LL \/ gr = G_NONE -> ox = O_LL \/ ox = O_NONE ->
  exists (mM mS : model (N:=XR)) s s', let k := mkMechs N_NONE gr ox C_NONE 1 in let b := geometric 100 2 4 in let n := [1; 0; 1; 0] in
  (sm_psd mM = P_MONO /\ hasAll mM k /\ okAll k /\ noTar mM /\ valid s demoGas [1; 1] /\ regular k demoGas 1 1 /\ length (wts s) = 1%nat /\ length (absc s) = 1%nat /\ onlySurface k) /\
  (isSect mS b 2 /\ goodBins b /\ hasAll mS k /\ valid s' demoGas n /\ length n = length b /\ regular k demoGas (number n) (mass b n) /\ located None 2 (/ ln 2) /\
   (gr = G_NONE -> ox = O_LL -> kgrow k demoGas (number n) (mass b n) <> koxid k demoGas (number n) (mass b n)) /\
   forall eig, exists r, setSourceTerms None eig mS s' = Ok r).
Proof.
  intros Hg Ho. set (k := mkMechs N_NONE gr ox C_NONE 1).
  assert (OK : okAll k). { split; [left; repeat split; discriminate|]. unfold k. cbn [mN mG mO mC mF]. split; [discriminate|]. split; [destruct Hg as [->| ->]; discriminate|]. split; [destruct Ho as [->| ->]; discriminate|]. split; [discriminate|lra]. }
  assert (RG : forall x y, regular k demoGas x y) by (intros x y [K|K]; unfold k in K; cbn in K; destruct Hg, Ho; congruence).
  destruct (constructEnum (N:=XR) P_MONO 2 N_NONE gr ox C_NONE 0 T_NONE (nZ 2) 100) as [mM| |] eqn:EM.
  2, 3: exfalso; destruct Hg as [->| ->], Ho as [->| ->]; discriminate EM.
  destruct (constructEnum (N:=XR) P_SECT 4 N_NONE gr ox C_NONE 0 T_NONE (Fin 2) 100) as [mS| |] eqn:ES.
  2, 3: exfalso; destruct Hg as [->| ->], Ho as [->| ->]; discriminate ES.
  destruct (demo_any (newState 2 0) [1; 1] [] eq_refl eq_refl eq_refl in11) as (s & _ & V & _ & EW & EA & _); [intros ? []|].
  destruct (built _ _ _ _ _ _ _ _ _ _ _ EM) as (H & Hp & _ & Ht & _).
  destruct (sect_state [1; 0; 1; 0] eq_refl) as (s' & V'). { intros x [<-|[<-|[<-|[<-|[]]]]]; lra. }
  assert (L12 : 1 < 2) by lra. destruct (C28_enum _ _ _ _ _ _ _ _ _ _ (eq_refl : (0 < 100)%Z) L12 ES) as (A & B & C).
  exists mM, mS, s, s'. cbv zeta. split.
  - do 4 (split; [assumption|]). split; [exact V|]. split; [apply RG|]. rewrite EW, EA. repeat split; reflexivity.
  - do 4 (split; [assumption|]). split; [rewrite geo_len; reflexivity|]. split; [apply RG|]. split; [right; repeat split; lra|]. split.
    + intros -> ->. unfold kgrow, koxid, k. cbn [mG mO growFormula oxidFormula]. unfold conc. cbn [gT gRho gY demoGas].
      pose proof (mm_pos O2). pose proof massC_pos. assert (0 < sqrt 1800) by (apply sqrt_lt_R0; lra). apply Rlt_not_eq. mpos.
    + intros eig. destruct (C31_own_ mS s' demoGas k 100 2 4 _ None eig ltac:(lia) double2 sane4 A C OK V' eq_refl (RG _ _) (or_introl eq_refl)) as (m' & s2 & st' & E & _).
      eexists. exact E.
Qed.
Lemma case_sect F : 2 <= F -> exists (m : model (N:=XR)) s, let k := mkMechs N_NONE G_NONE O_NONE C_FM 1 in
  isSect m (geometric 100 F 4) F /\ hasAll m k /\ okAll k /\ valid s demoGas [0; 1; 0; 0] /\ onlyCoag k (mC k) /\ mC k <> C_NONE /\
  massCutoff < el (geometric 100 F 4) 1 /\ ownConst None F.
Proof.
  intros HF. destruct (sect_built N_NONE G_NONE O_NONE F ltac:(auto) ltac:(auto) ltac:(auto) ltac:(lra)) as (m & A & B & C).
  destruct (sect_state [0; 1; 0; 0] eq_refl) as (s & V). { intros x [<-|[<-|[<-|[<-|[]]]]]; lra. }
  exists m, s. cbv zeta. do 2 (split; [assumption|]). split; [apply ok_sect; auto|]. split; [exact V|]. split; [repeat split; reflexivity|]. split; [discriminate|]. split; [|left; reflexivity].
  pose proof (cut_100 F) as K. destruct B as (_ & _ & B). specialize (B 0%nat ltac:(rewrite geo_len; lia)). lra.
Qed.
