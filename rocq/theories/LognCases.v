(** Lemmas for the lognormal model: meaning of the averaged kernels, monodisperse
    soot, missing PAH or soot, concrete cases (C25-C27, C45). *)
From Coq Require Import ZArith List Bool Reals Lra Lia.
From Verif Require Import Num Defs State Coag Nucl Growth Oxid Tar SootModel Mono Logn Qmom Calls XR XRLemmas NumLaws
  SpecState SpecChem SpecCoag SpecValid SpecRates SpecGas SpecTar SpecPah SpecPsd SpecSect SpecQmom SpecLogn CoagProofs StateXR ValidProofs InterpProofs GasProofs RateProofs PsdProofs PahProofs MonoProofs MonoMain MonoCases ChemAll SectProofs SectMain SectFinal QmomProofs QmomRun QmomCases PahRaw LognProofs LognMain LognFinal.
Import ListNotations.
Local Open Scope R_scope.

(** ** C25 *)
Lemma C25_l M0 M1 M2 : 0 < M0 -> 0 < M1 -> 0 < M2 ->
  exists mu v, lognormalMoment M0 mu v 0 = M0 /\ lognormalMoment M0 mu v 1 = M1 /\ lognormalMoment M0 mu v 2 = M2 /\
    (0 <= v <-> M1 ^ 2 <= M0 * M2) /\
    forall r, lognMr (N:=XR) (Fin r) (Fin M0) (Fin M1) (Fin M2) = Fin (lognormalMoment M0 mu v r).
Proof.
  intros P0 P1 P2. destruct (logn_params M0 M1 M2 P0 P1 P2) as (mu & v & A & B & C & D).
  exists mu, v. do 3 (split; [now symmetry|]). split; [exact D|]. intros r. rewrite Mr_val by lra. f_equal.
  rewrite <- (closure_logn M0 mu v r) by auto. now rewrite <- A, <- B, <- C.
Qed.
Lemma C25_given_l M0 M1 M2 : 0 < M0 -> 0 < M1 -> 0 < M2 ->
  lognMr (N:=XR) (Fin 0) (Fin M0) (Fin M1) (Fin M2) = Fin M0 /\ lognMr (N:=XR) (Fin 1) (Fin M0) (Fin M1) (Fin M2) = Fin M1 /\
  lognMr (N:=XR) (Fin 2) (Fin M0) (Fin M1) (Fin M2) = Fin M2.
Proof. intros. rewrite !Mr_val by lra. now rewrite closure_0, closure_1, closure_2. Qed.
Lemma C25_scale_l c M0 M1 M2 r : 0 < c -> 0 < M0 -> 0 < M1 -> 0 < M2 ->
  exists x, 0 < x /\ lognMr (N:=XR) (Fin r) (Fin M0) (Fin M1) (Fin M2) = Fin x /\
    lognMr (N:=XR) (Fin r) (Fin (c * M0)) (Fin (c * M1)) (Fin (c * M2)) = Fin (c * x).
Proof.
  intros. exists (closure M0 M1 M2 r). split; [now apply closure_gt|]. split; [apply Mr_val; lra|].
  assert (0 < c * M0 /\ 0 < c * M1 /\ 0 < c * M2) as (A & B & C) by (repeat split; apply Rmult_lt_0_compat; auto).
  rewrite Mr_val by lra. now rewrite closure_scale.
Qed.
(** as soon as one moment vanishes every closed moment is 0 *)
Lemma C25_zero_l M0 M1 M2 r : 0 <= M0 -> 0 <= M1 -> 0 <= M2 -> M0 = 0 \/ M1 = 0 \/ M2 = 0 ->
  lognMr (N:=XR) (Fin r) (Fin M0) (Fin M1) (Fin M2) = Fin 0.
Proof.
  intros P0 P1 P2 H. rewrite Mr_val by auto. f_equal. unfold closure.
  destruct (Rlt_dec 0 M0); [|reflexivity]. destruct (Rlt_dec 0 M1); [|reflexivity]. destruct (Rlt_dec 0 M2); [|reflexivity]. exfalso. lra.
Qed.

(** ** what the averages mean: sums over the pairs of a population *)
Lemma mean_population l w x f g : (forall i, (i < length w)%nat -> 0 < el x i) ->
  (forall z, f z = popMoment w x z) -> (forall z, g z = popMoment w x z) ->
  meanOf l f g = Sum (length w) (fun i => Sum (length w) (fun j => el w i * el w j * kernelOf l (el x i) (el x j))).
Proof.
  intros _ Hf Hg. induction l as [|((c, p), q) l IH]; cbn [meanOf fold_right kernelOf].
  - symmetry. apply Sum_0. intros i _. apply Sum_0. intros j _. ring.
  - fold (meanOf l f g). rewrite IH. rewrite Hf, Hg. unfold popMoment at 1. rewrite Rmult_assoc, (Rmult_comm _ (popMoment w x q)), <- Sum_scal, <- Sum_scal, <- Sum_add.
    apply Sum_ext. intros i Hi. unfold popMoment.
    replace (c * (Sum (length w) (fun j => el w j * Rpower (el x j) (sixth q)) * (el w i * Rpower (el x i) (sixth p))))
      with (c * (el w i * Rpower (el x i) (sixth p)) * Sum (length w) (fun j => el w j * Rpower (el x j) (sixth q))) by ring.
    rewrite <- Sum_scal, <- Sum_add. apply Sum_ext. intros j Hj. fold (kernelOf l (el x i) (el x j)). ring.
Qed.
Lemma pop_shift w x z j : (forall i, (i < length w)%nat -> 0 < el x i) -> popMoment w x (z + 6 * j) = Sum (length w) (fun i => el w i * Rpower (el x i) (IZR j) * Rpower (el x i) (sixth z)).
Proof.
  intros PX. unfold popMoment. apply Sum_ext. intros i Hi. rewrite Rmult_assoc, <- Rpower_plus. do 2 f_equal. unfold sixth. rewrite plus_IZR, mult_IZR. field.
Qed.
Lemma loss_population l w x : (forall i, (i < length w)%nat -> 0 < el x i) ->
  lossOf l (popMoment w x) = 1 / 2 * Sum (length w) (fun i => Sum (length w) (fun j => el w i * el w j * kernelOf l (el x i) (el x j))).
Proof. intros PX. unfold lossOf. f_equal. now apply mean_population. Qed.
Lemma gain_population l w x : (forall i, (i < length w)%nat -> 0 < el x i) ->
  gainOf l (popMoment w x) = 1 / 2 * Sum (length w) (fun i => Sum (length w) (fun j => el w i * el w j * kernelOf l (el x i) (el x j) * ((el x i + el x j) ^ 2 - el x i ^ 2 - el x j ^ 2))).
Proof.
  intros PX. unfold gainOf.
  rewrite (mean_population l (map (fun i => el w i * el x i) (seq 0 (length w))) x).
  - rewrite map_length, seq_length. rewrite <- Sum_scal. apply Sum_ext. intros i Hi. rewrite <- Sum_scal. apply Sum_ext. intros j Hj.
    rewrite !el_seq by auto. field.
  - rewrite map_length, seq_length. exact PX.
  - intros z. replace (z + 6)%Z with (z + 6 * 1)%Z by lia. rewrite pop_shift by auto. unfold popMoment. rewrite map_length, seq_length. apply Sum_ext. intros i Hi.
    rewrite el_seq by auto. now rewrite Rpower_1 by auto.
  - intros z. replace (z + 6)%Z with (z + 6 * 1)%Z by lia. rewrite pop_shift by auto. unfold popMoment. rewrite map_length, seq_length. apply Sum_ext. intros i Hi.
    rewrite el_seq by auto. now rewrite Rpower_1 by auto.
Qed.
Lemma hits_population l w x y j : (0 <= j)%Z -> (forall i, (i < length w)%nat -> 0 < el x i) -> 0 < y ->
  hitsOf l y (popMoment w x) j = Sum (length w) (fun i => el w i * Rpower (el x i) (IZR j) * kernelOf l y (el x i)).
Proof.
  intros _ PX Py. unfold hitsOf. induction l as [|((c, p), q) l IH]; cbn [meanOf fold_right kernelOf].
  - symmetry. apply Sum_0. intros i _. ring.
  - fold (meanOf l (fun p => Rpower y (sixth p)) (fun q => popMoment w x (q + 6 * j))). rewrite IH. rewrite pop_shift by auto.
    rewrite <- Sum_scal, <- Sum_add. apply Sum_ext. intros i Hi. fold (kernelOf l y (el x i)). ring.
Qed.

(** ** signs *)
Section Signs.
Context (m : model (N:=XR)) (s : state (N:=XR)) (g : gas) (k : mechs) (M0 M1 M2 : R) (RD : readyLogn m s g k M0 M1 M2).
Context (P0 : 0 < M0) (P1 : 0 < M1) (P2 : 0 < M2).
Let M := mom M0 M1 M2.
Lemma fm_ne f : fmTerms f g <> []. Proof. discriminate. Qed.
Lemma co_ne : coTerms g <> []. Proof. discriminate. Qed.
Lemma signs_l : (mC k = C_FM \/ mC k = C_CONTINUUM -> lognC0 k g M < 0) /\ (mC k = C_HM -> lognC0 k g M = 0) /\ 0 < lognC2 k g M.
Proof.
  destruct RD as (_ & _ & OM & HC & V & _). pose proof OM as (_ & _ & _ & _ & _ & OF).
  assert (PM : forall z, 0 < M z) by (intros; now apply mom_gt).
  assert (L1 : 0 < lossOf (fmTerms (mF k) g) M). { unfold lossOf. apply Rmult_lt_0_compat; [lra|]. apply mean_pos; auto; [discriminate|]. intros c p q. now apply (fm_terms_pos s g _ (mF k) c p q V). }
  assert (L2 : 0 < lossOf (coTerms g) M). { unfold lossOf. apply Rmult_lt_0_compat; [lra|]. apply mean_pos; auto; [discriminate|]. intros c p q. now apply (co_terms_pos s g _ c p q V). }
  assert (L3 : 0 < gainOf (fmTerms (mF k) g) M). { unfold gainOf. apply mean_pos; auto; [discriminate|]. intros c p q. now apply (fm_terms_pos s g _ (mF k) c p q V). }
  assert (L4 : 0 < gainOf (coTerms g) M). { unfold gainOf. apply mean_pos; auto; [discriminate|]. intros c p q. now apply (co_terms_pos s g _ c p q V). }
  unfold lognC0, lognC2. split; [|split].
  - intros [->| ->]; lra.
  - now intros ->.
  - destruct HC as [->|[->| ->]]; auto. destruct (Rlt_dec 0 (gainOf (fmTerms (mF k) g) M + gainOf (coTerms g) M)); [|lra]. now apply harm_pos.
Qed.
End Signs.

(** ** C27: monodisperse soot *)
Lemma mono_moments M0 M1 M2 z : 0 < M0 -> 0 < M1 -> M0 * M2 = M1 ^ 2 -> mom M0 M1 M2 z = M0 * Rpower (M1 / M0) (sixth z).
Proof.
  intros P0 P1 E. assert (P2 : 0 < M2). { assert (0 < M1 ^ 2) by now apply pow_lt. rewrite <- E in H. apply (Rmult_lt_reg_l M0); [assumption|]. lra. }
  assert (L2 : ln M2 = 2 * ln M1 - ln M0).
  { assert (K : ln (M0 * M2) = ln (M1 ^ 2)) by now rewrite E. rewrite ln_mult in K by auto. cbn [pow] in K. rewrite Rmult_1_r, ln_mult in K by auto. lra. }
  assert (G : closure M0 M1 M2 (sixth z) = M0 * Rpower (M1 / M0) (sixth z)).
  { rewrite closure_pos by auto. rewrite <- (exp_ln M0) at 2 by auto. unfold Rpower. rewrite lndiv, L2 by auto. rewrite <- exp_plus. f_equal. field. }
  unfold mom. destruct (Z.eqb_spec z 0) as [->|]; [|destruct (Z.eqb_spec z 6) as [->|]; [|exact G]].
  - rewrite six_0 by (apply Rdiv_lt_0_compat; auto). ring.
  - unfold sixth. replace (6 / 6) with 1 by field. rewrite Rpower_1 by (apply Rdiv_lt_0_compat; auto). field. lra.
Qed.
Lemma mono_loss l M0 M1 M2 : 0 < M0 -> 0 < M1 -> M0 * M2 = M1 ^ 2 ->
  lossOf l (mom M0 M1 M2) = 1 / 2 * kernelOf l (M1 / M0) (M1 / M0) * M0 ^ 2.
Proof.
  intros P0 P1 E. unfold lossOf. rewrite Rmult_assoc. f_equal. induction l as [|((c, p), q) l IH]; cbn [meanOf fold_right kernelOf]; [ring|].
  fold (meanOf l (mom M0 M1 M2) (mom M0 M1 M2)). rewrite IH, !mono_moments by auto. fold (kernelOf l (M1 / M0) (M1 / M0)). ring.
Qed.
Lemma mono_surface M0 M1 M2 : 0 < M0 -> 0 < M1 -> M0 * M2 = M1 ^ 2 -> areaCoef * mom M0 M1 M2 4 = surface M0 M1.
Proof.
  intros P0 P1 E. rewrite mono_moments, surface_sphere by auto.
  replace (areaCoef * (M0 * Rpower (M1 / M0) (sixth 4))) with (M0 * (areaCoef * Rpower (M1 / M0) (sixth 4))) by ring. f_equal.
  rewrite <- areaCoef_sphere by now apply Rdiv_lt_0_compat. do 2 f_equal. unfold sixth. field.
Qed.
(** same gas, same mechanisms: the monodisperse and the lognormal model *)
Lemma C27_l (mL mM : model (N:=XR)) s s' g k M0 M1 M2 st eig :
  readyLogn mL s g k M0 M1 M2 -> isP k = false -> 0 < M0 -> 0 < M1 -> M0 * M2 = M1 ^ 2 -> massCutoff < M1 / M0 ->
  sm_psd mM = P_MONO -> hasAll mM k -> noTar mM -> valid s' g [M0; M1] -> length (wts s') = 1%nat -> length (absc s') = 1%nat ->
  exists rL rM t t' J A K a2, setSourceTerms st eig mL s = Ok (st, rL, t) /\ setSourceTerms st eig mM s' = Ok (st, rM, t') /\ J = Jnuc k g /\
    K = 1 / 2 * kernel k g (M1 / M0) (M1 / M0) * M0 ^ 2 /\ (mC k = C_FM \/ mC k = C_CONTINUUM -> 0 < K) /\
    soots rM = [Fin (J - K); Fin A] /\
    (mC k = C_CONTINUUM -> soots rL = [Fin (J - K); Fin A; a2]) /\
    (mC k = C_FM -> soots rL = [Fin (J - bFM * sqrt 2 * K); Fin A; a2]) /\
    (mC k = C_HM -> soots rL = [Fin J; Fin A; a2]).
Proof.
  intros RD EP P0 P1 E CUT HP HM HT V Lw La. pose proof RD as (_ & _ & OM & HC & VL & RG).
  assert (Pm : 0 < M1 / M0) by now apply Rdiv_lt_0_compat.
  destruct (logn_run mL s g k M0 M1 M2 st eig RD ltac:(congruence)) as (rL & EL & SL & _).
  pose proof (mono_exact mM s' g k M0 M1 st eig HP HM OM HT V RG P0 Lw La) as EM. cbv zeta in EM.
  eexists. eexists. eexists. eexists. eexists. eexists. eexists. eexists. split; [exact EL|]. split; [exact EM|]. split; [reflexivity|]. split; [reflexivity|].
  split. { intros _. apply Rmult_lt_0_compat; [|now apply pow_lt]. apply Rmult_lt_0_compat; [lra|]. pose proof OM as (_ & _ & _ & _ & OC & OF). apply (kernel_pos s g _ k _ _ VL); auto. unfold momentCoag in HC. destruct HC as [H|[H|H]]; rewrite H; discriminate. }
  split.
  { unfold soots, finish. cbn [sm_sources with_sources sootSources]. unfold monoSources, nucl. rewrite EP. cbn [oJ]. unfold oN1. cbn [oMass oConc oJ oGas]. reflexivity. }
  assert (SS : (kgrow k g M0 M1 - koxid k g M0 M1) * areaCoef * mom M0 M1 M2 4 = (kgrow k g M0 M1 - koxid k g M0 M1) * surface M0 M1) by (rewrite <- (mono_surface M0 M1 M2) by auto; ring).
  assert (KK : kernel k g (M1 / M0) (M1 / M0) = match mC k with C_FM => betaFM (mF k) (gT g) (M1 / M0) (M1 / M0) | C_CONTINUUM => betaC (slipLinear (gP g) (gRho g) (gMu g)) (gT g) (gMu g) (M1 / M0) (M1 / M0) | _ => kernel k g (M1 / M0) (M1 / M0) end).
  { unfold kernel. destruct (Rlt_dec massCutoff (M1 / M0)); [|contradiction]. destruct (mC k); reflexivity. }
  rewrite SL. unfold lognSources, nucl. rewrite EP. cbn [oJ oMass oConc oGas]. unfold oN1. cbn [oJ oGas]. rewrite SS. cbn [map].
  split; [|split]; intros EC; unfold lognC0; rewrite EC in *.
  - rewrite mono_loss, (co_kernel s g _ _ _ VL) by auto. rewrite KK. apply f_equal2; [f_equal; ring|]. apply f_equal2; [f_equal; ring|]. reflexivity.
  - rewrite mono_loss, (fm_equal s g _ _ _ VL) by auto. rewrite KK. apply f_equal2; [f_equal; field|]. apply f_equal2; [f_equal; ring|]. reflexivity.
  - apply f_equal2; [f_equal; ring|]. apply f_equal2; [f_equal; ring|]. reflexivity.
Qed.
Lemma fm_factor : 1207 / 1000 < bFM * sqrt 2 < 1208 / 1000.
Proof.
  unfold bFM. assert (1.4141 < sqrt 2 < 1.4143).
  { split; [apply Rsqr_incrst_0|apply Rsqr_incrst_0]; unfold Rsqr; rewrite ?sqrt_sqrt; try lra; apply sqrt_pos. }
  lra.
Qed.

(** ** C45: PAH nucleation without PAH, or without soot *)
Definition big (v : xr) : Prop := v = PInf \/ v = NaN.
Lemma big_mul a v : 0 <= a -> big v -> big (xmul (Fin a) v).
Proof. intros H [->| ->]; cbn [xmul]; [|now right]. destruct (Rtotal_order a 0) as [|[->|]]; [lra|rewrite signed_0; now right|rewrite signed_pos by lra; now left]. Qed.
Lemma big_add v w : big v -> big w -> big (xadd v w). Proof. intros [->| ->] [->| ->]; cbn; unfold big; auto. Qed.
Lemma big_addr a v : big v -> big (xadd (Fin a) v). Proof. intros [->| ->]; cbn; unfold big; auto. Qed.
Lemma big_addl a v : big v -> big (xadd v (Fin a)). Proof. intros [->| ->]; cbn; unfold big; auto. Qed.
Lemma big_harm v w : big v -> big w -> xdiv (xmul v w) (xadd v w) = NaN. Proof. intros [->| ->] [->| ->]; reflexivity. Qed.
Lemma big_harm0 v w : big v -> big w -> xdiv (xmul (Fin 0) (xmul v w)) (xadd v w) = NaN.
Proof. intros [->| ->] [->| ->]; cbn [xmul xdiv xadd]; rewrite ?signed_0; reflexivity. Qed.

Lemma xmulF a b : xmul (Fin a) (Fin b) = Fin (a * b). Proof. reflexivity. Qed.
Lemma xaddF a b : xadd (Fin a) (Fin b) = Fin (a + b). Proof. reflexivity. Qed.
Section Zero.
Context (M0 M1 M2 : R) (P0 : 0 <= M0) (P1 : 0 <= M1) (P2 : 0 <= M2).
Lemma cl_nn z : 0 <= closure M0 M1 M2 (sixth z). Proof. apply closure_nn. Qed.
Ltac nnc := repeat (apply Rmult_le_pos); auto using cl_nn; try lra.
Ltac bigs := repeat first [assumption | apply big_addr | apply big_addl | apply big_add | apply big_mul; [nnc|] | now left].
Lemma lit5 : rlit (-5) (-1) = - (1 / 2). Proof. unfold rlit. cbn. negs. field. Qed.
Ltac pw0 := match goal with |- context [xpow (Fin 0) (Fin ?b)] => first
  [ replace (xpow (Fin 0) (Fin b)) with (Fin 0) by (symmetry; apply xpow_0pos; lra)
  | replace (xpow (Fin 0) (Fin b)) with PInf by (symmetry; apply xpow_0neg; negs; lra) ] end.
Ltac prep := rewrite ?M_val by auto; xcbn; xconst; rewrite ?lit5; unfold rlit; rewrite ?xdiv_fin by lra; cbn [xopp]; repeat pw0; rewrite ?xmulF, ?xaddF.
Lemma Ifm1_0 K : 0 <= K -> big (lognIfm1 (N:=XR) (Fin K) (Fin 0) (Fin M0) (Fin M1) (Fin M2)).
Proof. intros HK. unfold lognIfm1. prep. bigs. Qed.
Lemma Ifm2_0 K : 0 <= K -> big (lognIfm2 (N:=XR) (Fin K) (Fin 0) (Fin M0) (Fin M1) (Fin M2)).
Proof. intros HK. unfold lognIfm2. prep. bigs. Qed.
Lemma Ic1_0 K S : 0 <= K -> 0 <= S -> big (lognIc1 (N:=XR) (Fin K) (Fin S) (Fin 0) (Fin M0) (Fin M1) (Fin M2)).
Proof. intros HK HS. unfold lognIc1. prep. bigs. Qed.
Lemma Ic2_0 K S : 0 <= K -> 0 <= S -> big (lognIc2 (N:=XR) (Fin K) (Fin S) (Fin 0) (Fin M0) (Fin M1) (Fin M2)).
Proof. intros HK HS. unfold lognIc2. prep. bigs. Qed.
End Zero.

Section Poison.
Context (m : model (N:=XR)) (s : state (N:=XR)) (g : gas) (k : mechs) (M0 M1 M2 : R) (RD : readyLogn m s g k M0 M1 M2) (EP : isP k = true).
Let HP : sm_psd m = P_LOGN. Proof. apply RD. Qed.
Let HM : hasAll m k. Proof. apply RD. Qed.
Let OM : okAll k. Proof. apply RD. Qed.
Let HC : momentCoag k. Proof. apply RD. Qed.
Let V : valid s g [M0; M1; M2]. Proof. apply RD. Qed.
Let RG : regular k g M0 M1. Proof. apply RD. Qed.
Let P0 : 0 <= M0. Proof. apply (v_sootpos _ _ _ V). cbn; auto. Qed.
Let P1 : 0 <= M1. Proof. apply (v_sootpos _ _ _ V). cbn; auto. Qed.
Let P2 : 0 <= M2. Proof. apply (v_sootpos _ _ _ V). cbn; auto. Qed.
Let OF : 0 < mF k. Proof. apply OM. Qed.
Lemma class_pah : nu_class (sm_nucl m) = N_PAH /\ nu_mech (sm_nucl m) = N_PAH /\ isPAH m = true.
Proof. destruct HM as (A & _). rewrite EP in A. destruct A as (A & B & _). unfold isPAH. rewrite B. auto. Qed.
Lemma coll_is s' x a b : sootVar s' = sootVar s -> lognIfm1 (N:=XR) (getKfm (with_f (mC k) (mF k)) s') x (Fin M0) (Fin M1) (Fin M2) = a ->
  lognIc1 (N:=XR) (getKc s') (getKcp s') x (Fin M0) (Fin M1) (Fin M2) = b -> collLOGN m s' x = Ok (xdiv (xmul a b) (xadd a b), []).
Proof.
  intros E1 <- <-. unfold collLOGN. destruct class_pah as (_ & _ & ->). cbn [negb]. rewrite E1, (v_soot _ _ _ V). cbn [map vget nth_error bind].
  assert (EC : sm_coag m = with_f (mC k) (mF k)) by (destruct HM as (_ & _ & _ & E); exact E). rewrite EC. reflexivity.
Qed.
Lemma outS_P : outS k g s = with_cMin s (Fin (pahCMin g)). Proof. unfold outS. now rewrite EP. Qed.

(** no PAH at all *)
Lemma logn_nopah st eig : noPah g -> exists m', setSourceTerms st eig m s = Ok (st, m', outS k g s) /\
  soots m' = [Fin (lognC0 k g (mom M0 M1 M2)); NaN; NaN] /\ pahs m' = map (fun _ => Fin 0) allPah.
Proof.
  intros HN. pose proof (outS_valid k s g _ 0 V) as V2.
  assert (EM : dimerMass g = 0). { unfold dimerMass. rewrite (pahTotal_none g HN). destruct (Rlt_dec 0 0); lra. }
  assert (EN : dimerConc g 0 = 0). { unfold dimerConc. rewrite (pahTotal_none g HN). destruct (Rlt_dec 0 0); lra. }
  assert (EO : oMass (nucl k g 0) = 0 /\ oConc (nucl k g 0) = 0 /\ oJ (nucl k g 0) = 0).
  { unfold nucl. rewrite EP. cbn [oMass oConc oJ]. unfold pahNuclRate. rewrite EN. repeat split; auto. ring. }
  destruct EO as (O1 & O2 & O3).
  set (gg := oGas (nucl k g 0)) in *.
  assert (KP : 0 <= kFM (mF k) gg) by (apply Rlt_le; eapply kFM_pos; eauto).
  assert (CP : 0 <= kC gg) by (apply Rlt_le; eapply kC_pos; eauto).
  assert (SP : 0 <= kSlip gg) by (apply Rlt_le; eapply kSlip_pos; eauto).
  assert (EJ : runNucl (collLOGN m) m s = Ok (Fin (oJ (nucl k g 0)), outM k g m 0 [], outS k g s)).
  { unfold runNucl, nuclRate. destruct class_pah as (-> & _). unfold outM. rewrite EP, O3.
    rewrite (nuclPAH_none s g _ (collLOGN m) (sm_nucl m) (xdiv _ _) [] V HN (coll_is _ _ _ _ eq_refl eq_refl eq_refl)). cbn [bind]. now rewrite outS_P. }
  destruct (call_part m s g k M0 M1 M2 0 HM OM HC V RG HP st eig EJ) as (m' & A & B & _ & C & _). exists m'. split; [exact A|]. split.
  - rewrite B. clear A B C. rewrite (outM_isPAH k g m 0 [] HM), EP. destruct (outM_dimer k g m 0 [] EP) as (D1 & D2). rewrite D1, D2, O1, O2, O3.
    rewrite (coag2 m g k 0 [] HM). rewrite (kfm_val _ _ _ V2 _ (mF k)) by reflexivity. rewrite (kc_val _ _ _ V2), (kslip_val _ _ _ V2). fold gg.
    change (@nmul XR (Fin 0) (Fin 0)) with (Fin (0 * 0)). rewrite Rmult_0_r. change (@ndiv XR) with xdiv. change (@nmul XR) with xmul. change (@nadd XR) with xadd.
    rewrite !big_harm0 by auto using Ifm1_0, Ifm2_0, Ic1_0, Ic2_0. cbn [xadd]. rewrite Rplus_0_l. reflexivity.
  - rewrite C. unfold pahSourcesOf. rewrite EP. apply map_ext. intros sp. rewrite pahLoss0 by apply HN. f_equal. ring.
Qed.

(** PAH but no soot *)
Lemma logn_nosoot st eig : somePah g -> M0 = 0 -> exists m', setSourceTerms st eig m s = Ok (st, m', outS k g s) /\ soots m' = [NaN; NaN; NaN].
Proof.
  intros HS Z0. pose proof (outS_valid k s g _ 0 V) as V2. pose proof (pahTotal_some s g _ V HS) as PT. pose proof (dimerMass_pos s g _ V PT) as PD.
  assert (MZ : forall z, mom M0 M1 M2 z = 0 \/ z = 6%Z).
  { intros z. unfold mom. destruct (Z.eqb_spec z 0); [auto|]. destruct (Z.eqb_spec z 6); [auto|]. left. unfold closure. destruct (Rlt_dec 0 M0); [lra|reflexivity]. }
  assert (H1 : hitsOf (fmTerms (mF k) (oGas (nucl k g 0))) (dimerMass g) (mom M0 M1 M2) 0 = 0).
  { unfold hitsOf, meanOf, fmTerms, tm. cbn [fold_right Z.add Z.mul]. repeat match goal with |- context [mom M0 M1 M2 ?z] => destruct (MZ z) as [->|Q]; [|discriminate Q] end. ring. }
  assert (H3 : hitsOf (coTerms (oGas (nucl k g 0))) (dimerMass g) (mom M0 M1 M2) 0 = 0).
  { unfold hitsOf, meanOf, coTerms, tm. cbn [fold_right Z.add Z.mul]. repeat match goal with |- context [mom M0 M1 M2 ?z] => destruct (MZ z) as [->|Q]; [|discriminate Q] end. ring. }
  assert (EC : collLOGN m (with_cMin s (Fin (pahCMin g))) (Fin (dimerMass g)) = Ok (NaN, [])).
  { rewrite outS_P in V2. rewrite (coll_is _ _ (Fin 0) (Fin 0)); [|reflexivity| |].
    - cbn [xmul xadd]. rewrite Rmult_0_r, Rplus_0_r, xdiv_0, signed_0. reflexivity.
    - rewrite (kfm_val _ _ _ V2 _ (mF k)) by reflexivity. rewrite (Ifm1_val _ M0 M1 M2 P0 P1 P2 _ PD k), H1. reflexivity.
    - rewrite (kc_val _ _ _ V2), (kslip_val _ _ _ V2). rewrite (Ic1_val _ M0 M1 M2 P0 P1 P2 _ PD), H3. reflexivity. }
  destruct (nuclPAH_nan s g _ (collLOGN m) (sm_nucl m) [] V HS EC) as (nu & EN & EM & _).
  destruct class_pah as (CL & ME & _).
  set (m2 := outM k g m 0 []). set (m3 := storeNucl m nu (Some [])).
  destruct (storeNucl_rest m nu (Some [])) as (R1 & R2 & R3 & R4 & R5 & _ & R7 & _). fold m3 in R1, R2, R3, R4, R5, R7.
  destruct (outM_rest k g m 0 []) as (Q1 & Q2 & Q3 & Q4 & Q5 & _ & Q7 & _). fold m2 in Q1, Q2, Q3, Q4, Q5, Q7.
  assert (EG : growOn m3 = growOn m2) by (unfold growOn; now rewrite R3, Q3).
  assert (EO : oxidOn m3 = oxidOn m2) by (unfold oxidOn; now rewrite R4, Q4).
  assert (EV : viewOf m3 = viewOf m2) by (unfold viewOf; now rewrite R1, R2, R7, Q1, Q2, Q7).
  assert (ON : nuclOn m3 = true). { unfold nuclOn, m3. rewrite storeNucl_nucl, EM, ME. reflexivity. }
  pose proof (grow_part m s g k M0 M1 M2 0 HM V RG HP) as GP. pose proof (oxid_part m s g k M0 M1 M2 0 HM V RG HP) as XP.
  pose proof (coag_part m s g k M0 M1 M2 0 HM OM HC V) as CP. fold m2 in GP, XP, CP.
  eexists. split.
  - unfold setSourceTerms. rewrite HP. unfold setSourceTermsLOGN. rewrite (v_soot _ _ _ V). cbn [map vget nth_error bind].
    unfold runNucl, nuclRate. rewrite CL, EN. cbn [bind]. fold m3. rewrite <- outS_P. rewrite EG, EO, EV, ON. rewrite R3, <- Q3, R4, <- Q4. rewrite GP. cbn [bind]. rewrite XP. cbn [bind].
    rewrite R5, <- Q5, CP. reflexivity.
  - unfold soots, finish. cbn [sm_sources with_sources sootSources]. reflexivity.
Qed.

(** PAH and particles, but no soot mass *)
Lemma logn_nomass st eig : somePah g -> 0 < M0 -> M1 = 0 -> exists m' a b, setSourceTerms st eig m s = Ok (st, m', outS k g s) /\ soots m' = [Fin a; Fin b; NaN].
Proof.
  intros SP Z0 Z1. pose proof (pahTotal_some s g _ V SP) as PT. pose proof (dimerMass_pos s g _ V PT) as PD.
  set (i := lognHits k g (dimerMass g) (mom M0 M1 M2) 0).
  assert (Hi : 0 < i) by (apply (hits_gt s g k M0 M1 M2); auto). pose proof (outS_valid k s g _ i V) as V2.
  assert (EJ : runNucl (collLOGN m) m s = Ok (Fin (oJ (nucl k g i)), outM k g m i [], outS k g s)).
  { apply (runNucl_all _ m s g [M0; M1; M2] k i []); auto; [lra|]. intros _. rewrite outS_P in V2.
    rewrite (coll_is (with_cMin s (Fin (pahCMin g))) (Fin (dimerMass g)) _ _ eq_refl eq_refl eq_refl).
    destruct (hm1_val _ _ k M0 M1 M2 (dimerMass g) V2 OF PD Z0) as (A & B & C). change (@nmul XR) with xmul in A. change (@nadd XR) with xadd in B. rewrite A, B.
    rewrite xdiv_fin by (apply Rgt_not_eq; exact C). f_equal. f_equal. f_equal. exact (lognHits_out k g i (dimerMass g) (mom M0 M1 M2) 0). }
  destruct (call_part m s g k M0 M1 M2 i HM OM HC V RG HP st eig EJ) as (m' & A & B & _). exists m'.
  rewrite (outM_isPAH k g m i [] HM), EP in B. destruct (outM_dimer k g m i [] EP) as (D1 & D2). rewrite D1, D2, (coag2 m g k i [] HM) in B.
  assert (EM : oMass (nucl k g i) = dimerMass g) by (unfold nucl; rewrite EP; reflexivity). rewrite EM in B.
  destruct (hm1_val _ _ k M0 M1 M2 (dimerMass g) V2 OF PD Z0) as (A1 & B1 & C1). rewrite A1, B1 in B.
  assert (MZ : forall z, mom M0 M1 M2 z = 0 \/ z = 0%Z).
  { intros z. unfold mom. destruct (Z.eqb_spec z 0); [auto|]. destruct (Z.eqb_spec z 6); [auto|]. left. unfold closure. destruct (Rlt_dec 0 M0); [|reflexivity]. destruct (Rlt_dec 0 M1); [lra|reflexivity]. }
  assert (H1 : hitsOf (fmTerms (mF k) (oGas (nucl k g i))) (dimerMass g) (mom M0 M1 M2) 1 = 0).
  { unfold hitsOf, meanOf, fmTerms, tm. cbn [fold_right Z.add Z.mul Pos.add Pos.add_carry Pos.succ Z.pos_sub Pos.pred_double Z.succ_double Z.pred_double Z.double Pos.mul]. repeat match goal with |- context [mom M0 M1 M2 ?z] => destruct (MZ z) as [->|Q]; [|discriminate Q] end. ring. }
  assert (H3 : hitsOf (coTerms (oGas (nucl k g i))) (dimerMass g) (mom M0 M1 M2) 1 = 0).
  { unfold hitsOf, meanOf, coTerms, tm. cbn [fold_right Z.add Z.mul Pos.add Pos.add_carry Pos.succ Z.pos_sub Pos.pred_double Z.succ_double Z.pred_double Z.double Pos.mul]. repeat match goal with |- context [mom M0 M1 M2 ?z] => destruct (MZ z) as [->|Q]; [|discriminate Q] end. ring. }
  rewrite (kfm_val _ _ _ V2 _ (mF k)) in B by reflexivity. rewrite (kc_val _ _ _ V2), (kslip_val _ _ _ V2) in B.
  rewrite (Ifm2_val _ M0 M1 M2 P0 P1 P2 _ PD k), H1 in B. rewrite (Ic2_val _ M0 M1 M2 P0 P1 P2 _ PD), H3 in B.
  change (@ndiv XR) with xdiv in B. change (@nmul XR) with xmul in B. change (@nadd XR) with xadd in B. cbn [xmul xadd] in B. rewrite xdiv_fin in B by (apply Rgt_not_eq; exact C1).
  replace (2 * 0 + 2 * 0) with 0 in B by ring. replace (2 * 0 * (2 * 0)) with 0 in B by ring. rewrite xdiv_0, Rmult_0_r, signed_0 in B. cbn [xadd] in B.
  eexists. eexists. split; [exact A|]. exact B.
Qed.
End Poison.

(** ** cases *)
Lemma in3 a b c : 0 <= a -> 0 <= b -> 0 <= c -> forall y, In y [a; b; c] -> 0 <= y.
Proof. intros A B C y [<-|[<-|[<-|[]]]]; assumption. Qed.
Lemma logn_case nm co M0 M1 M2 : nm = N_LL \/ nm = N_PAH -> co = C_FM \/ co = C_CONTINUUM \/ co = C_HM -> 0 <= M0 -> 0 <= M1 -> 0 <= M2 ->
  exists (m : model (N:=XR)) s, constructEnum P_LOGN 3 nm G_LL O_LL co 0 T_NONE (Fin 2) 100 = Ok m /\
    call (newState 3 0) (argsOf demoGas [M0; M1; M2] []) = SetOk s /\ readyLogn m s demoGas (mkMechs nm G_LL O_LL co 1) M0 M1 M2.
Proof.
  intros Hn Hc P0 P1 P2.
  destruct (constructEnum (N:=XR) P_LOGN 3 nm G_LL O_LL co 0 T_NONE (Fin 2) 100) as [m| |] eqn:E.
  2, 3: exfalso; destruct Hn as [->| ->], Hc as [->|[->| ->]]; discriminate E.
  destruct (demo_any (newState 3 0) [M0; M1; M2] []) as (s & C & V & _); try reflexivity. { now apply in3. } { intros ? []. }
  exists m, s. split; [reflexivity|]. split; [exact C|]. destruct (built _ _ _ _ _ _ _ _ _ _ _ E) as (H & Hp & _).
  do 2 (split; [assumption|]). split; [|split; [|split; [exact V|]]].
  - split; [destruct Hn as [->| ->]; [left; repeat split; discriminate|right; reflexivity]|]. cbn [mN mG mO mC mF]. split; [destruct Hn as [->| ->]; discriminate|]. split; [discriminate|]. split; [discriminate|].
    split; [destruct Hc as [->|[->| ->]]; discriminate|lra].
  - exact Hc.
  - intros [H1|H1]; discriminate.
Qed.
Lemma logn_mono_case co : co = C_FM \/ co = C_CONTINUUM \/ co = C_HM -> exists (mL mM : model (N:=XR)) s s' g k M0 M1 M2,
  readyLogn mL s g k M0 M1 M2 /\ isP k = false /\ 0 < M0 /\ 0 < M1 /\ M0 * M2 = M1 ^ 2 /\ massCutoff < M1 / M0 /\
  sm_psd mM = P_MONO /\ hasAll mM k /\ noTar mM /\ valid s' g [M0; M1] /\ length (wts s') = 1%nat /\ length (absc s') = 1%nat /\ mC k = co.
Proof.
  intros Hc. destruct (logn_case N_LL co 1 1 1 (or_introl eq_refl) Hc) as (mL & s & _ & _ & RD); try lra.
  destruct (constructEnum (N:=XR) P_MONO 2 N_LL G_LL O_LL co 0 T_NONE (nZ 2) 100) as [mM| |] eqn:E.
  2, 3: exfalso; destruct Hc as [->|[->| ->]]; discriminate E.
  destruct (demo_any (newState 2 0) [1; 1] [] eq_refl eq_refl eq_refl in11) as (s' & _ & V & _ & EW & EA & _); [intros ? []|].
  destruct (built _ _ _ _ _ _ _ _ _ _ _ E) as (H & Hp & _ & Ht & _). pose proof cut_small.
  exists mL, mM, s, s', demoGas, (mkMechs N_LL G_LL O_LL co 1), 1, 1, 1.
  split; [exact RD|]. split; [reflexivity|]. do 2 (split; [lra|]). split; [ring|]. split; [lra|]. do 3 (split; [assumption|]). split; [exact V|]. rewrite EW, EA. repeat split; reflexivity.
Qed.
Lemma hm_never_lost (m : model (N:=XR)) s g k M0 M1 M2 st eig : readyLogn m s g k M0 M1 M2 -> isP k = false -> mC k = C_HM ->
  exists m' a b, setSourceTerms st eig m s = Ok (st, m', s) /\ soots m' = [Fin (Jnuc k g); Fin a; Fin b].
Proof.
  intros RD EP EC. destruct (logn_run m s g k M0 M1 M2 st eig RD ltac:(congruence)) as (m' & E & S & _). exists m'.
  unfold outS in E. rewrite EP in E. unfold lognSources, lognC0, nucl in S. rewrite EP, EC in S. cbn [map oJ] in S. rewrite Rplus_0_r in S.
  eexists. eexists. split; [exact E|exact S].
Qed.
Lemma demo_pah : somePah demoGas. Proof. exists C10H8. cbn. lra. Qed.
