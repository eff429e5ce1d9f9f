(** Lemmas for C82: the collision kernels and whole calls of the monodisperse model. *)
From Coq Require Import ZArith List Bool Reals Lra Lia.
From Verif Require Import Num Defs State Coag Nucl Growth Oxid SootModel Qmom Calls XR XRLemmas SpecChem SpecCoag SpecValid SpecRates SpecGas SpecState SpecPah SpecPsd SpecCont
  CoagProofs MiscProofs ValidProofs RateProofs PsdProofs PahProofs MonoProofs MonoMain MonoCases RichProofs HeatProofs ContProofs.
Import ListNotations.
Local Open Scope R_scope.

(** ** kernels *)
Section Kernels.
Context (G : nat -> gas) (g : gas) (HG : gasTo G g) (s : state (N:=XR)) (soot : list R) (V : valid s g soot).
Let GS : gasState s (gT g) (gP g) (gRho g) (gMu g). Proof. apply V. Qed.
Let T0 : 0 < gT g. Proof. apply V. Qed.
Let Q0 : 0 < gP g. Proof. apply V. Qed.
Let R0 : 0 < gRho g. Proof. apply V. Qed.
Let U0 : 0 < gMu g. Proof. apply V. Qed.
Let cT : Un_cv (fun n => gT (G n)) (gT g). Proof. apply HG. Qed.
Let cP : Un_cv (fun n => gP (G n)) (gP g). Proof. apply HG. Qed.
Let cR : Un_cv (fun n => gRho (G n)) (gRho g). Proof. apply HG. Qed.
Let cM : Un_cv (fun n => gMu (G n)) (gMu g). Proof. apply HG. Qed.

Lemma cdiam (X : nat -> R) x : 0 < x -> Un_cv X x -> Un_cv (fun n => diam (X n)) (diam x).
Proof.
  intros P H. unfold diam. pose proof piC_pos. assert (PS : 0 < piC * sootDensity) by (unfold sootDensity; lra). cvs; try lra. apply Rdiv_lt_0_compat; lra.
Qed.
Lemma cmfp : Un_cv (fun n => meanFreePath (gP (G n)) (gRho (G n)) (gMu (G n))) (meanFreePath (gP g) (gRho g) (gMu g)).
Proof. pose proof piC_pos. unfold meanFreePath. cvs; try lra. left. apply Rdiv_lt_0_compat; [apply Rmult_lt_0_compat|]; lra. Qed.
Section One.
Context (X : nat -> R) (x : R) (Px : 0 < x) (HX : Un_cv X x).
Lemma cknud : Un_cv (fun n => knudsen (gP (G n)) (gRho (G n)) (gMu (G n)) (X n)) (knudsen (gP g) (gRho g) (gMu g) x).
Proof. unfold knudsen. pose proof cmfp as A. pose proof (cdiam X x Px HX) as B. pose proof (diam_pos x). cvs. lra. Qed.
Lemma cslipL : Un_cv (fun n => slipLinear (gP (G n)) (gRho (G n)) (gMu (G n)) (X n)) (slipLinear (gP g) (gRho g) (gMu g) x).
Proof. unfold slipLinear. pose proof cknud as A. cvs. Qed.
Lemma cslipE : Un_cv (fun n => slipExp (gP (G n)) (gRho (G n)) (gMu (G n)) (X n)) (slipExp (gP g) (gRho g) (gMu g) x).
Proof. unfold slipExp. cbv zeta. pose proof cknud as A. pose proof (knudsen_pos _ _ _ _ _ GS x). cvs. lra. Qed.
Lemma cdiff : Un_cv (fun n => diffusivity (gT (G n)) (gP (G n)) (gRho (G n)) (gMu (G n)) (X n)) (diffusivity (gT g) (gP g) (gRho g) (gMu g) x).
Proof.
  unfold diffusivity. pose proof cslipE as A. pose proof (cdiam X x Px HX) as B. pose proof (diam_pos x). pose proof piC_pos. assert (0 < 3 * piC * gMu g) by (apply Rmult_lt_0_compat; lra). cvs; lra.
Qed.
Lemma cspeed : Un_cv (fun n => thermalSpeed (gT (G n)) (X n)) (thermalSpeed (gT g) x).
Proof.
  unfold thermalSpeed. pose proof piC_pos. pose proof boltz_pos. assert (0 < piC * x) by now apply Rmult_lt_0_compat. cvs; try lra. left. apply Rdiv_lt_0_compat; [|lra]. apply Rmult_lt_0_compat; lra.
Qed.
Lemma cfuchsG : Un_cv (fun n => fuchsG (gT (G n)) (gP (G n)) (gRho (G n)) (gMu (G n)) (X n)) (fuchsG (gT g) (gP g) (gRho g) (gMu g) x).
Proof.
  unfold fuchsG. cbv zeta. pose proof cdiff as A. pose proof cspeed as B. pose proof (cdiam X x Px HX) as C. pose proof (diam_pos x) as D. pose proof piC_pos as E.
  pose proof (speed_pos _ _ _ _ _ GS x Px) as F. pose proof (diffusivity_pos _ _ _ _ _ GS x) as K. assert (L : 0 < piC * thermalSpeed (gT g) x) by now apply Rmult_lt_0_compat.
  assert (M : 0 < 8 * diffusivity (gT g) (gP g) (gRho g) (gMu g) x / (piC * thermalSpeed (gT g) x)) by (apply Rdiv_lt_0_compat; lra).
  assert (N : 0 < 3 * diam x * (8 * diffusivity (gT g) (gP g) (gRho g) (gMu g) x / (piC * thermalSpeed (gT g) x))) by (apply Rmult_lt_0_compat; lra).
  assert (O : 0 < diam x ^ 2) by now apply pow_lt. assert (Q : 0 < (8 * diffusivity (gT g) (gP g) (gRho g) (gMu g) x / (piC * thermalSpeed (gT g) x)) ^ 2) by now apply pow_lt.
  cvs; lra.
Qed.
End One.

Section Two.
Context (X Y : nat -> R) (x y : R) (Px : 0 < x) (Py : 0 < y) (HX : Un_cv X x) (HY : Un_cv Y y).
Lemma cFM f : Un_cv (fun n => betaFM f (gT (G n)) (X n) (Y n)) (betaFM f (gT g) x y).
Proof.
  unfold betaFM. pose proof (cdiam X x Px HX) as A. pose proof (cdiam Y y Py HY) as B. pose proof piC_pos. pose proof boltz_pos. cvs; try lra.
  apply Rmult_le_pos; [|apply Rplus_le_le_0_compat; left; apply Rdiv_lt_0_compat; lra]. left. apply Rdiv_lt_0_compat; [|lra]. repeat apply Rmult_lt_0_compat; lra.
Qed.
Lemma cC (C : nat -> R -> R) (c : R -> R) : Un_cv (fun n => C n (X n)) (c x) -> Un_cv (fun n => C n (Y n)) (c y) ->
  Un_cv (fun n => betaC (C n) (gT (G n)) (gMu (G n)) (X n) (Y n)) (betaC c (gT g) (gMu g) x y).
Proof.
  intros H1 H2. unfold betaC. pose proof (cdiam X x Px HX) as A. pose proof (cdiam Y y Py HY) as B. pose proof (diam_pos x). pose proof (diam_pos y). cvs; lra.
Qed.
Lemma cHM f : 0 < f -> Un_cv (fun n => betaHM f (gT (G n)) (gP (G n)) (gRho (G n)) (gMu (G n)) (X n) (Y n)) (betaHM f (gT g) (gP g) (gRho g) (gMu g) x y).
Proof.
  intros Pf. unfold betaHM. pose proof (cFM f) as A. pose proof (cC (fun n => slipExp (gP (G n)) (gRho (G n)) (gMu (G n))) (slipExp (gP g) (gRho g) (gMu g)) (cslipE X x Px HX) (cslipE Y y Py HY)) as B. cbv beta in B.
  pose proof (betaFM_pos _ _ _ _ _ GS f x y Pf Px Py) as P1. pose proof (C_exp_pos _ _ _ _ _ GS x y) as P2. pose proof (Rinv_0_lt_compat _ P1). pose proof (Rinv_0_lt_compat _ P2). cvs; lra.
Qed.
Lemma cFuchs f : 0 < f -> Un_cv (fun n => betaFuchs f (gT (G n)) (gP (G n)) (gRho (G n)) (gMu (G n)) (X n) (Y n)) (betaFuchs f (gT g) (gP g) (gRho g) (gMu g) x y).
Proof.
  intros Pf. unfold betaFuchs. cbv zeta. pose proof (cdiam X x Px HX) as A1. pose proof (cdiam Y y Py HY) as A2. pose proof (cdiff X x Px HX) as A3. pose proof (cdiff Y y Py HY) as A4.
  pose proof (cspeed X x Px HX) as A5. pose proof (cspeed Y y Py HY) as A6. pose proof (cfuchsG X x Px HX) as A7. pose proof (cfuchsG Y y Py HY) as A8.
  pose proof (d12_pos x y) as B1. pose proof (D12_pos _ _ _ _ _ GS x y) as B2. pose proof (c12_pos _ _ _ _ _ GS x y Px Py) as B3.
  pose proof (sqrt_sum_nneg (fuchsG (gT g) (gP g) (gRho g) (gMu g) x) (fuchsG (gT g) (gP g) (gRho g) (gMu g) y)) as B4.
  assert (B5 : 0 < (diam x + diam y) / (diam x + diam y + 2 * sqrt (fuchsG (gT g) (gP g) (gRho g) (gMu g) x ^ 2 + fuchsG (gT g) (gP g) (gRho g) (gMu g) y ^ 2))) by (apply Rdiv_lt_0_compat; lra).
  assert (B6 : 0 < enhancement * f * sqrt (thermalSpeed (gT g) x ^ 2 + thermalSpeed (gT g) y ^ 2) * (diam x + diam y)) by (unfold enhancement; repeat apply Rmult_lt_0_compat; lra).
  assert (B7 : 0 < 8 * (diffusivity (gT g) (gP g) (gRho g) (gMu g) x + diffusivity (gT g) (gP g) (gRho g) (gMu g) y) / (enhancement * f * sqrt (thermalSpeed (gT g) x ^ 2 + thermalSpeed (gT g) y ^ 2) * (diam x + diam y))) by (apply Rdiv_lt_0_compat; lra).
  cvs; try lra; apply Rplus_le_le_0_compat; apply pow2_ge_0.
Qed.
End Two.

Lemma ckernel k (X Y : nat -> R) x y : 0 < mF k -> x <> massCutoff -> y <> massCutoff -> Un_cv X x -> Un_cv Y y ->
  Un_cv (fun n => kernel k (G n) (X n) (Y n)) (kernel k g x y).
Proof.
  intros Pf Nx Ny HX HY. pose proof cut_pos as CP. unfold kernel.
  destruct (Rlt_dec massCutoff x) as [Lx|Gx].
  2:{ destruct (cv_below X x massCutoff ltac:(lra) HX) as (N & E). apply (cv_eventually _ (fun _ => 0)); [|apply cv_const]. exists N. intros n Hn. specialize (E n Hn). destruct (Rlt_dec massCutoff (X n)); [lra|reflexivity]. }
  destruct (Rlt_dec massCutoff y) as [Ly|Gy].
  2:{ destruct (cv_below Y y massCutoff ltac:(lra) HY) as (N & E). apply (cv_eventually _ (fun _ => 0)); [|apply cv_const]. exists N. intros n Hn. specialize (E n Hn). destruct (Rlt_dec massCutoff (X n)), (Rlt_dec massCutoff (Y n)); try reflexivity; lra. }
  destruct (cv_above X x massCutoff Lx HX) as (N1 & E1). destruct (cv_above Y y massCutoff Ly HY) as (N2 & E2).
  assert (Px : 0 < x) by lra. assert (Py : 0 < y) by lra.
  apply (cv_eventually _ (fun n => match mC k with
    | C_FM => betaFM (mF k) (gT (G n)) (X n) (Y n)
    | C_CONTINUUM => betaC (slipLinear (gP (G n)) (gRho (G n)) (gMu (G n))) (gT (G n)) (gMu (G n)) (X n) (Y n)
    | C_HM => betaHM (mF k) (gT (G n)) (gP (G n)) (gRho (G n)) (gMu (G n)) (X n) (Y n)
    | C_FUCHS => betaFuchs (mF k) (gT (G n)) (gP (G n)) (gRho (G n)) (gMu (G n)) (X n) (Y n)
    | C_NONE | C_size => 0
    end)); [exists (max N1 N2); intros n Hn; specialize (E1 n ltac:(lia)); specialize (E2 n ltac:(lia)); destruct (Rlt_dec massCutoff (X n)); [|lra]; destruct (Rlt_dec massCutoff (Y n)); [|lra]; reflexivity|].
  destruct (mC k); try apply cv_const.
  - now apply cFM.
  - apply (cC X Y x y Px Py HX HY (fun n => slipLinear (gP (G n)) (gRho (G n)) (gMu (G n)))); apply cslipL; assumption.
  - now apply cHM.
  - now apply cFuchs.
Qed.
End Kernels.

(** ** whole calls *)
Lemma creacts nu n (X : nat -> R) x sp : n <> 0 -> Un_cv X x -> Un_cv (fun i => reacts nu n (X i) sp) (reacts nu n x sp).
Proof. intros Hn H. unfold reacts. pose proof massC_pos. cvs. apply Rmult_integral_contrapositive. split; [exact Hn|lra]. Qed.
Lemma cnuclGas c X x sp : Un_cv X x -> Un_cv (fun i => nuclGas c (X i) sp) (nuclGas c x sp).
Proof. intros H. destruct c; cbn [nuclGas]; unfold viaAcetylene; try apply cv_const; apply creacts; auto; lra. Qed.
Lemma cgrowGas c X x sp : Un_cv X x -> Un_cv (fun i => growGas c (X i) sp) (growGas c x sp).
Proof. intros H. destruct c; cbn [growGas]; unfold viaAcetylene; try apply cv_const; apply creacts; auto; lra. Qed.
Lemma coxidGas c X x sp : Un_cv X x -> Un_cv (fun i => oxidGas c (X i) sp) (oxidGas c x sp).
Proof. intros H. destruct c; cbn [oxidGas]; try apply cv_const; apply creacts; auto; lra. Qed.

(** the sources of the monodisperse model without HACA, PAH and tar *)
Definition srcN k g M0 M1 : R := Jnuc k g - 1 / 2 * kernel k g (M1 / M0) (M1 / M0) * M0 ^ 2.
Definition burnt k g M0 M1 : R := koxid k g M0 M1 * surface M0 M1.
Definition srcM k g M0 M1 : R := Jnuc k g * nucMass g + (grown (mG k) g (surface M0 M1) - burnt k g M0 M1).
Definition srcG k g M0 M1 sp : R :=
  nuclGas (mN k) (Jnuc k g * nucMass g) sp + growGas (mG k) (grown (mG k) g (surface M0 M1)) sp + oxidGas (mO k) (burnt k g M0 M1) sp.
Lemma mono_src (m : model (N:=XR)) s g k M0 M1 st eig :
  sm_psd m = P_MONO -> hasAll m k -> okAll k -> noTar m -> mN k <> N_PAH -> mG k <> G_HACA -> mO k <> O_HACA -> valid s g [M0; M1] -> 0 < M0 ->
  length (wts s) = 1%nat -> length (absc s) = 1%nat ->
  exists m' s', setSourceTerms st eig m s = Ok (st, m', s') /\ holdsAll m' (srcN k g M0 M1) (srcM k g M0 M1) (srcG k g M0 M1).
Proof.
  intros Hp HM OM HT NP NG NO V P0 LW LA. assert (RG : regular k g M0 M1) by (intros [?|?]; contradiction).
  destruct (mono_full m s g k M0 M1 st eig Hp HM OM HT V P0 RG LW LA) as (m' & E & S1 & S2 & _). eexists m', _. split; [exact E|].
  rewrite <- surface_sphere in * by exact P0. assert (IP : isP k = false) by (unfold isP; destruct (mN k); congruence).
  unfold nucl in S1, S2. rewrite IP in S1, S2. cbn [oJ oGas oMass oConc] in S1, S2.
  assert (EG : kgrow k g M0 M1 * surface M0 M1 = grown (mG k) g (surface M0 M1)) by (unfold kgrow; apply grown_val; [exact NG|apply surface_nneg]).
  split.
  - rewrite S1. unfold srcN, srcM, burnt, oN1. cbn [oJ oGas]. rewrite <- EG. f_equal. do 2 f_equal. ring.
  - unfold gasBudget in S2. rewrite EG in S2. unfold nuclPart, oN1 in S2. rewrite IP in S2. cbn [oJ oGas] in S2. exact S2.
Qed.

Lemma C82_mono_ (m : model (N:=XR)) k st eig (G : nat -> gas) g (St : nat -> state (N:=XR)) s (A0 A1 : nat -> R) M0 M1 :
  sm_psd m = P_MONO -> hasAll m k -> okAll k -> noTar m -> mN k <> N_PAH -> mG k <> G_HACA -> mO k <> O_HACA ->
  (forall n, valid (St n) (G n) [A0 n; A1 n] /\ 0 < A0 n /\ length (wts (St n)) = 1%nat /\ length (absc (St n)) = 1%nat) ->
  valid s g [M0; M1] -> 0 < M0 -> length (wts s) = 1%nat -> length (absc s) = 1%nat ->
  gasTo G g -> Un_cv A0 M0 -> Un_cv A1 M1 -> (mC k <> C_NONE -> M1 / M0 <> massCutoff) ->
  exists (a b : nat -> R) (c : nat -> gasSp -> R) a' b' c',
    (forall n, exists m' s', setSourceTerms st eig m (St n) = Ok (st, m', s') /\ holdsAll m' (a n) (b n) (c n)) /\
    (exists m' s', setSourceTerms st eig m s = Ok (st, m', s') /\ holdsAll m' a' b' c') /\
    Un_cv a a' /\ Un_cv b b' /\ forall sp, Un_cv (fun n => c n sp) (c' sp).
Proof.
  intros Hp HM OM HT NP NG NO HS V P0 LW LA HG H0 H1 HX.
  exists (fun n => srcN k (G n) (A0 n) (A1 n)), (fun n => srcM k (G n) (A0 n) (A1 n)), (fun n => srcG k (G n) (A0 n) (A1 n)), (srcN k g M0 M1), (srcM k g M0 M1), (srcG k g M0 M1).
  split; [intros n; destruct (HS n) as (Vn & Pn & W & A); now apply mono_src|]. split; [now apply mono_src|].
  assert (P1 : 0 <= M1). { destruct V as (_ & _ & _ & _ & _ & _ & _ & _ & _ & K). apply K. right; left; reflexivity. }
  assert (T0 : 0 < gT g) by apply V. assert (C0 : 0 < gCMin g) by apply V. pose proof avo_pos as AP.
  assert (CJ : Un_cv (fun n => Jnuc k (G n)) (Jnuc k g)) by now apply cnucl.
  assert (CM : Un_cv (fun n => nucMass (G n)) (nucMass g)). { assert (E : Un_cv (fun n => gCMin (G n)) (gCMin g)) by apply HG. unfold nucMass. cvs. lra. }
  assert (CS : Un_cv (fun n => surface (A0 n) (A1 n)) (surface M0 M1)) by (apply csurface; auto; intros n; apply HS).
  assert (CG : Un_cv (fun n => grown (mG k) (G n) (surface (A0 n) (A1 n))) (grown (mG k) g (surface M0 M1))) by (apply cgrow; auto; [apply surface_nneg|apply (conc_nneg _ _ _ V)]).
  assert (CB : Un_cv (fun n => burnt k (G n) (A0 n) (A1 n)) (burnt k g M0 M1)). { unfold burnt. assert (Un_cv (fun n => koxid k (G n) (A0 n) (A1 n)) (koxid k g M0 M1)) by (unfold koxid; apply coxid; auto; intros sp; apply (press_nneg _ _ _ V)). cvs. }
  split; [|split].
  - unfold srcN. assert (CK : Un_cv (fun n => kernel k (G n) (A1 n / A0 n) (A1 n / A0 n)) (kernel k g (M1 / M0) (M1 / M0))).
    { destruct (mC k) eqn:EC.
      1:{ unfold kernel. rewrite EC. apply (cv_ext _ (fun _ => 0) _ 0); [intros n|..]; try apply cv_const; repeat match goal with |- context [Rlt_dec ?a ?b] => destruct (Rlt_dec a b) end; reflexivity. }
      all: assert (NC : M1 / M0 <> massCutoff) by (apply HX; discriminate); apply (ckernel G g HG s [M0; M1] V); auto; try apply OM; apply cv_div; auto; lra. }
    cvs.
  - unfold srcM. cvs.
  - intros sp. unfold srcG. apply (CV_plus (fun n => nuclGas (mN k) (Jnuc k (G n) * nucMass (G n)) sp + growGas (mG k) (grown (mG k) (G n) (surface (A0 n) (A1 n))) sp)).
    + apply (CV_plus (fun n => nuclGas (mN k) (Jnuc k (G n) * nucMass (G n)) sp)); [apply cnuclGas; cvs|now apply cgrowGas].
    + now apply coxidGas.
Qed.
