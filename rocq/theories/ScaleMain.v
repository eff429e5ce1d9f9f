(** How the sources depend on the amount of soot. *)
From Coq Require Import ZArith List Bool Reals Lra Lia.
From Verif Require Import Num Defs State Coag Nucl Growth Oxid Tar SootModel Mono Qmom Momic Calls XR XRLemmas NumLaws SpecConfig SpecChem SpecCoag SpecValid SpecRates SpecGas SpecPah SpecPsd SpecSect SpecQmom SpecBinomial SpecLogn SpecMomic SpecFrame SpecFinite SpecScale SpecSigns
  ConfigProofs CoagProofs StateXR ValidProofs InterpProofs GasProofs RateProofs PsdProofs PahProofs PahMain MonoProofs MonoMain ChemAll SectProofs SectMain SectBins SectCases SectFinal QmomProofs QmomRun QmomMain QmomFinal LognProofs LognMain LognFinal MomicProofs MomicMain MomicRun MomicFinal FrameMain FiniteMomic StateProofs FiniteMain SignsProofs.
Import ListNotations.
Local Open Scope R_scope.

Lemma el_scaled a l j : el (scaled a l) j = a * el l j.
Proof. unfold el, scaled. revert j. induction l as [|x l IH]; intros [|j]; cbn [map nth]; try ring. apply IH. Qed.
Lemma scaled_len a l : length (scaled a l) = length l. Proof. apply map_length. Qed.
Lemma scaled_nn a l : 0 < a -> (forall y, In y l -> 0 <= y) -> forall y, In y (scaled a l) -> 0 <= y.
Proof. intros P H y Hy. apply in_map_iff in Hy. destruct Hy as (x & <- & Hx). apply Rmult_le_pos; [lra|auto]. Qed.
Lemma scaled_pos a l : 0 < a -> (forall y, In y l -> 0 < y) -> forall y, In y (scaled a l) -> 0 < y.
Proof. intros P H y Hy. apply in_map_iff in Hy. destruct Hy as (x & <- & Hx). apply Rmult_lt_0_compat; [lra|auto]. Qed.
Lemma sum_scaled a l : sumR (scaled a l) = a * sumR l.
Proof. unfold sumR, scaled. induction l as [|x l IH]; cbn [map fold_right]; [ring|]. rewrite IH. ring. Qed.
Lemma dot_scaled a l b : dot (scaled a l) b = a * dot l b.
Proof.
  unfold dot, sumR, scaled. revert b. induction l as [|x l IH]; intros [|y b]; cbn [map combine fold_right]; try ring. rewrite IH. cbn [fst snd]. ring.
Qed.
Lemma ltl a x : 0 < a -> (0 < a * x <-> 0 < x).
Proof. intros P. split; intros H; [|now apply Rmult_lt_0_compat]. apply (Rmult_lt_reg_l a); lra. Qed.

Lemma lel a x : 0 < a -> (0 <= a * x <-> 0 <= x). Proof. intros P. split; intros; nra. Qed.
Lemma lezl a x : 0 < a -> (a * x <= 0 <-> x <= 0). Proof. intros P. split; intros; nra. Qed.
Lemma ltzl a x : 0 < a -> (a * x < 0 <-> x < 0). Proof. intros P. split; intros; nra. Qed.

Section Rates.
Context (k : mechs) (g : gas) (a : R) (P : 0 < a).
Lemma ratio x y : a * x / (a * y) = x / y.
Proof. unfold Rdiv. destruct (Req_dec y 0) as [->|N]; [|field; lra]. rewrite Rmult_0_r. 
  assert (E : a * x * / 0 = a * (x * / 0)) by ring. rewrite E. assert (Z : / 0 = 0) by exact Rinv_0. rewrite Z. ring. Qed.
Lemma surface_scaled M0 M1 : surface (a * M0) (a * M1) = a * surface M0 M1.
Proof.
  unfold surface. rewrite ratio. destruct (Rlt_dec 0 (a * M0)) as [A|A], (Rlt_dec 0 M0) as [B|B]; try (rewrite ltl in A by auto; contradiction); [|ring].
  destruct (Rlt_dec 0 (a * M1)) as [C|C], (Rlt_dec 0 M1) as [D|D]; try (rewrite ltl in C by auto; contradiction); ring.
Qed.
Lemma sites_scaled M0 M1 : activeSites g (a * M0) (a * M1) = activeSites g M0 M1.
Proof.
  unfold activeSites. cbv zeta. rewrite ratio. destruct (Rlt_dec 0 (a * M0)) as [A|A], (Rlt_dec 0 M0) as [B|B]; try (rewrite ltl in A by auto; contradiction); [|reflexivity].
  destruct (Req_EM_T (a * M1) (a * M0)) as [C|C], (Req_EM_T M1 M0) as [D|D]; try reflexivity; [exfalso; apply D; apply (Rmult_eq_reg_l a); lra|exfalso; apply C; now rewrite D|].
  destruct (Rlt_dec 0 (a * M1)) as [E|E], (Rlt_dec 0 M1) as [F|F]; try (rewrite ltl in E by auto; contradiction); reflexivity.
Qed.
Lemma oxid_scaled M0 M1 : koxid k g (a * M0) (a * M1) = koxid k g M0 M1.
Proof. unfold koxid, oxidFormula. cbv zeta. destruct (mO k); try reflexivity. now rewrite sites_scaled. Qed.
Lemma grow_scaled M0 M1 : a * kgrow k g (a * M0) (a * M1) = growOrder (mG k) a * kgrow k g M0 M1.
Proof.
  unfold kgrow, growFormula, growOrder. cbv zeta. rewrite surface_scaled, sites_scaled.
  destruct (mG k); try reflexivity; destruct (Rlt_dec 0 (a * surface M0 M1)) as [A|A], (Rlt_dec 0 (surface M0 M1)) as [B|B]; try (rewrite ltl in A by auto; contradiction); try reflexivity; [|ring].
  rewrite sqrt_mult by lra. pose proof (sqrt_lt_R0 _ P). pose proof (sqrt_lt_R0 _ B).
  rewrite <- (sqrt_sqrt a) at 1 by lra. field. split; lra.
Qed.
Lemma regular_scaled M0 M1 : regular k g M0 M1 -> regular k g (a * M0) (a * M1).
Proof.
  intros H C (A & B & D). apply (H C). split; [now apply ltl in A|]. split; [|exact D]. apply (Rmult_eq_reg_l a); lra.
Qed.
End Rates.

(** ** parts *)
Lemma growGas_lin c f x sp : growGas c (f * x) sp = f * growGas c x sp.
Proof. unfold growGas, viaAcetylene, reacts, Rdiv. destruct c; ring. Qed.
Lemma oxidGas_lin c f x sp : oxidGas c (f * x) sp = f * oxidGas c x sp.
Proof. unfold oxidGas, reacts, Rdiv. destruct c; ring. Qed.
Lemma growGas_none x sp c : c = G_NONE -> growGas c x sp = 0. Proof. intros ->. reflexivity. Qed.
Lemma oxidGas_none x sp c : c = O_NONE -> oxidGas c x sp = 0. Proof. intros ->. reflexivity. Qed.
Lemma budget_parts m' k g i a grown burnt u v : isP k = false -> gasBudget m' k g (nucl k g i) u v -> u = growOrder (mG k) a * grown -> v = a * burnt ->
  holdsGas (gases m') (fun sp => nuclGasSource k g sp + growOrder (mG k) a * growGas (mG k) grown sp + a * oxidGas (mO k) burnt sp).
Proof.
  intros NP H -> ->. unfold gasBudget in H. apply (holdsGas_ext _ _ _ H). intros sp. unfold nuclPart. rewrite NP, growGas_lin, oxidGas_lin.
  unfold nucl. rewrite NP. reflexivity.
Qed.
Lemma kernel_none k g x y : mC k = C_NONE -> kernel k g x y = 0.
Proof. intros E. unfold kernel. rewrite E. destruct (Rlt_dec _ _); [destruct (Rlt_dec _ _)|]; reflexivity. Qed.

(** ** one size *)
Section One.
Context (k : mechs) (g : gas) (NP : isP k = false).
Lemma surf_nn M0 M1 : 0 < M0 -> 0 <= surface M0 M1.
Proof. intros H. rewrite surface_sphere by auto. apply Rmult_le_pos; [lra|apply sphere_nn]. Qed.
Lemma mono_parts s0 M0 M1 : valid s0 g [M0; M1] -> okAll k -> 0 < M0 -> exists B O C GB GO, (offs k B O C GB GO /\ directions P_MONO [] 2 (momA k g) B O C) /\
  forall a m s w x st eig, 0 < a -> sm_psd m = P_MONO -> hasAll m k -> okAll k -> noTar m -> valid s g [a * M0; a * M1] -> regular k g (a * M0) (a * M1) ->
    wts s = [Fin w] -> absc s = [Fin x] -> exists st' m' s', setSourceTerms st eig m s = Ok (st', m', s') /\ parts k 2 (momA k g) (nuclGasSource k g) B O C GB GO a m'.
Proof.
  intros V0 OK P0. exists (fun j => match j with 1%nat => kgrow k g M0 M1 * surface M0 M1 | _ => 0 end), (fun j => match j with 1%nat => - (koxid k g M0 M1 * surface M0 M1) | _ => 0 end),
    (fun j => match j with O => - (1 / 2 * kernel k g (M1 / M0) (M1 / M0) * M0 ^ 2) | _ => 0 end), (growGas (mG k) (kgrow k g M0 M1 * surface M0 M1)), (oxidGas (mO k) (koxid k g M0 M1 * surface M0 M1)).
  split.
  - split; [split; [|split]|].
    + intros E. split; [|intros; now apply growGas_none]. intros [|[|j]]; auto. rewrite kg_none by auto. ring.
    + intros E. split; [|intros; now apply oxidGas_none]. intros [|[|j]]; auto. rewrite ko_none by auto. ring.
    + intros E [|j]; auto. rewrite kernel_none by auto. ring.
    + intros r [E|Hr]; [discriminate E|]. pose proof (A_nn s0 g k _ V0 r) as HA. pose proof (kg_nn s0 g k _ V0 M0 M1) as HG. pose proof (ko_nn s0 g k _ V0 M0 M1) as HO.
      pose proof (surf_nn M0 M1 P0) as HS. pose proof OK as (_ & _ & _ & _ & _ & OF). pose proof (kernel_nneg s0 g _ k (M1 / M0) (M1 / M0) V0 OF) as HK. pose proof (pow2_ge_0 M0) as H2.
      pose proof (Rmult_le_pos _ _ HG HS). pose proof (Rmult_le_pos _ _ HO HS). pose proof (Rmult_le_pos _ _ HK H2).
      cbn [momentOf]. destruct r as [|[|r]]; [| |lia]; repeat split; intros; try assumption; try lra; lia.
  - intros a m s w x st eig P Hp HM OM HT V RG Ew Ex. destruct (mono_run m s g k _ _ w x st eig Hp HM OM HT V RG Ew Ex) as (m' & A & SO & G & _).
    do 3 eexists. split; [exact A|]. assert (PA : 0 < a * M0) by (now apply Rmult_lt_0_compat). split.
    + rewrite SO. destruct (Rlt_dec 0 (a * M0)); [|contradiction]. rewrite ratio by auto. unfold monoSources, nucl. rewrite NP. cbn [seq map oJ oN1 oGas oMass oConc]. unfold oN1, momA. cbn [oJ oGas pow].
      rewrite surface_scaled, oxid_scaled by auto. pose proof (grow_scaled k g a P M0 M1) as GS.
      apply (f_equal2 cons); [f_equal; ring|]. apply (f_equal2 cons); [|reflexivity]. f_equal.
      transitivity (Jnuc k g * nucMass g + (a * kgrow k g (a * M0) (a * M1)) * surface M0 M1 - a * (koxid k g M0 M1 * surface M0 M1)); [ring|rewrite GS; ring].
    + apply (budget_parts m' k g _ a (kgrow k g M0 M1 * surface M0 M1) (koxid k g M0 M1 * surface M0 M1) _ _ NP G); rewrite surface_scaled by auto; [|rewrite oxid_scaled by auto; ring].
      transitivity ((a * kgrow k g (a * M0) (a * M1)) * surface M0 M1); [ring|rewrite (grow_scaled k g a P); ring].
Qed.
End One.

(** ** three moments *)
Section Logn.
Context (k : mechs) (g : gas) (NP : isP k = false) (a : R) (P : 0 < a).
Lemma closure_scaled M0 M1 M2 r : closure (a * M0) (a * M1) (a * M2) r = a * closure M0 M1 M2 r.
Proof.
  unfold closure.
  destruct (Rlt_dec 0 (a * M0)) as [A|A], (Rlt_dec 0 M0) as [B|B]; try (rewrite ltl in A by auto; contradiction); [|ring].
  destruct (Rlt_dec 0 (a * M1)) as [C|C], (Rlt_dec 0 M1) as [D|D]; try (rewrite ltl in C by auto; contradiction); [|ring].
  destruct (Rlt_dec 0 (a * M2)) as [E|E], (Rlt_dec 0 M2) as [F|F]; try (rewrite ltl in E by auto; contradiction); [|ring].
  rewrite <- !Rpower_mult_distr by auto.
  replace (a * (Rpower M0 (1 + 1 / 2 * r * (r - 3)) * Rpower M1 (r * (2 - r)) * Rpower M2 (1 / 2 * r * (r - 1)))) with (Rpower a 1 * (Rpower M0 (1 + 1 / 2 * r * (r - 3)) * Rpower M1 (r * (2 - r)) * Rpower M2 (1 / 2 * r * (r - 1)))) by (rewrite Rpower_1 by auto; ring).
  replace (Rpower a 1) with (Rpower a (1 + 1 / 2 * r * (r - 3)) * Rpower a (r * (2 - r)) * Rpower a (1 / 2 * r * (r - 1))); [ring|].
  rewrite <- !Rpower_plus. f_equal. field.
Qed.
Lemma mom_scaled M0 M1 M2 z : mom (a * M0) (a * M1) (a * M2) z = a * mom M0 M1 M2 z.
Proof. unfold mom. destruct (Z.eqb z 0); [ring|]. destruct (Z.eqb z 6); [ring|]. apply closure_scaled. Qed.
Lemma mean_scaled l f h f' h' : (forall z, f' z = a * f z) -> (forall z, h' z = a * h z) -> meanOf l f' h' = a ^ 2 * meanOf l f h.
Proof.
  intros F H. unfold meanOf. induction l as [|((c & p) & q) l IH]; cbn [fold_right]; [ring|]. rewrite IH, F, H. ring.
Qed.
Lemma harm_scaled x y : harm (a ^ 2 * x) (a ^ 2 * y) = a ^ 2 * harm x y.
Proof.
  unfold harm, Rdiv. assert (N : a ^ 2 <> 0) by (apply pow_nonzero; lra). destruct (Req_dec (x + y) 0) as [Z|Z].
  - replace (a ^ 2 * x + a ^ 2 * y) with 0 by (rewrite <- Rmult_plus_distr_l, Z; ring). rewrite Z. assert (I : / 0 = 0) by exact Rinv_0. rewrite I. ring.
  - rewrite <- Rmult_plus_distr_l. set (t := a ^ 2) in *. clearbody t. field. split; assumption.
Qed.
Lemma c0_scaled M M' : (forall z, M' z = a * M z) -> lognC0 k g M' = a ^ 2 * lognC0 k g M.
Proof. intros H. unfold lognC0, lossOf. destruct (mC k); rewrite ?(mean_scaled _ M M M' M') by auto; ring. Qed.
Lemma c2_scaled M M' : (forall z, M' z = a * M z) -> lognC2 k g M' = a ^ 2 * lognC2 k g M.
Proof.
  intros H. unfold lognC2, gainOf. cbv zeta. set (f := fun p => M (p + 6)%Z). set (f' := fun p => M' (p + 6)%Z). assert (F : forall z, f' z = a * f z) by (intros; apply H).
  change (fun q => M' (q + 6)%Z) with f'. change (fun q => M (q + 6)%Z) with f.
  destruct (mC k); rewrite ?(mean_scaled _ f f f' f') by auto; try ring. rewrite <- Rmult_plus_distr_l. assert (0 < a ^ 2) by (now apply pow_lt).
  match goal with |- (if Rlt_dec 0 (?u * ?v) then _ else _) = _ => destruct (Rlt_dec 0 (u * v)) as [A|A], (Rlt_dec 0 v) as [B|B] end; try (rewrite ltl in A by auto; contradiction); [apply harm_scaled|ring].
Qed.
End Logn.
Lemma logn_parts s0 k g M0 M1 M2 : valid s0 g [M0; M1; M2] -> okAll k -> isP k = false -> momentCoag k -> exists B O C GB GO, (offs k B O C GB GO /\ directions P_LOGN [] 3 (momA k g) B O C) /\
  forall a m s st eig, 0 < a -> sm_psd m = P_LOGN -> hasAll m k -> okAll k -> valid s g [a * M0; a * M1; a * M2] -> regular k g (a * M0) (a * M1) ->
    exists st' m' s', setSourceTerms st eig m s = Ok (st', m', s') /\ parts k 3 (momA k g) (nuclGasSource k g) B O C GB GO a m'.
Proof.
  intros V0 OK NP HC. set (M := mom M0 M1 M2).
  exists (fun j => match j with 1%nat => kgrow k g M0 M1 * areaCoef * M 4%Z | 2%nat => 2 * kgrow k g M0 M1 * areaCoef * M 10%Z | _ => 0 end),
    (fun j => match j with 1%nat => - koxid k g M0 M1 * areaCoef * M 4%Z | 2%nat => - (2 * koxid k g M0 M1 * areaCoef * M 10%Z) | _ => 0 end),
    (fun j => match j with O => lognC0 k g M | 2%nat => lognC2 k g M | _ => 0 end), (growGas (mG k) (kgrow k g M0 M1 * areaCoef * M 4%Z)), (oxidGas (mO k) (koxid k g M0 M1 * areaCoef * M 4%Z)).
  split.
  - split; [split; [|split]|].
    + intros E. split; [|intros; now apply growGas_none]. intros [|[|[|j]]]; auto; rewrite kg_none by auto; ring.
    + intros E. split; [|intros; now apply oxidGas_none]. intros [|[|[|j]]]; auto; rewrite ko_none by auto; ring.
    + intros E. destruct HC as [X|[X|X]]; congruence.
    + intros r [E|Hr]; [discriminate E|]. pose proof (A_nn s0 g k _ V0 r) as HA. pose proof (kg_nn s0 g k _ V0 M0 M1) as HG. pose proof (ko_nn s0 g k _ V0 M0 M1) as HO.
      assert (HM : forall z, 0 <= M z) by (intros z; apply mom_nn; apply (v_sootpos _ _ _ V0); cbn; auto).
      pose proof (logn_signs s0 g k _ V0 OK M HM) as (C0 & C2). pose proof area_nn as HC'.
      assert (X : forall q z, 0 <= q -> 0 <= q * areaCoef * M z) by (intros; apply Rmult_le_pos; [now apply Rmult_le_pos|apply HM]).
      pose proof (X _ 4%Z HG). pose proof (X _ 10%Z HG). pose proof (X _ 4%Z HO). pose proof (X _ 10%Z HO).
      cbn [momentOf]. destruct r as [|[|[|r]]]; [| | |lia]; repeat split; intros; try assumption; try lra; lia.
  - intros a m s st eig P Hp HM OM V RG. destruct (logn_run m s g k (a * M0) (a * M1) (a * M2) st eig) as (m' & A & SO & G & _). { repeat (split; [assumption|]). exact RG. } { congruence. }
    do 3 eexists. split; [exact A|]. pose proof (mom_scaled a P M0 M1 M2) as MS. pose proof (grow_scaled k g a P M0 M1) as GS. fold M in MS. split.
    + rewrite SO. unfold lognSources, nucl. rewrite NP. cbv zeta. cbn [seq map]. unfold oN1, momA. cbn [oJ oGas pow].
      rewrite (c0_scaled k g a M _ MS), (c2_scaled k g a P M _ MS), !MS, oxid_scaled by auto. set (kg := kgrow k g (a * M0) (a * M1)) in *.
      apply (f_equal2 cons); [f_equal; ring|]. apply (f_equal2 cons); [f_equal|apply (f_equal2 cons); [f_equal|reflexivity]].
      * transitivity (Jnuc k g * nucMass g + (a * kg) * areaCoef * M 4%Z - a * (koxid k g M0 M1 * areaCoef * M 4%Z)); [ring|rewrite GS; ring].
      * transitivity (Jnuc k g * nucMass g * nucMass g + 2 * (a * kg) * areaCoef * M 10%Z - a * (2 * koxid k g M0 M1 * areaCoef * M 10%Z) + a ^ 2 * lognC2 k g M); [ring|rewrite GS; ring].
    + apply (budget_parts m' k g _ a (kgrow k g M0 M1 * areaCoef * M 4%Z) (koxid k g M0 M1 * areaCoef * M 4%Z) _ _ NP G); rewrite MS; [|rewrite oxid_scaled by auto; ring].
      transitivity ((a * kgrow k g (a * M0) (a * M1)) * areaCoef * M 4%Z); [ring|rewrite GS; ring].
Qed.

(** ** interpolative closure *)
Lemma interp_shift n f c r : (1 <= n)%nat -> interpolate n (fun j => c + f j) r = c + interpolate n f r.
Proof.
  intros H. assert (D : forall k i, fdiff (S k) (fun j => c + f j) i = fdiff (S k) f i).
  { induction k as [|k IH]; intros i; [cbn [fdiff]; ring|]. change (fdiff (S k) (fun j => c + f j) (S i) - fdiff (S k) (fun j => c + f j) i = fdiff (S k) f (S i) - fdiff (S k) f i). now rewrite !IH. }
  unfold interpolate. rewrite !(Sum_first n) by lia. rewrite (Sum_ext _ (fun j => gbin r (S j) * fdiff (S j) (fun j => c + f j) 0) (fun j => gbin r (S j) * fdiff (S j) f 0)).
  - cbn [gbin fdiff]. ring.
  - intros j _. now rewrite D.
Qed.
Section Momic.
Context (a : R) (P : 0 < a).
Lemma moment_scaled M r : (3 <= length M)%nat -> SpecMomic.allPos M -> momentAt (scaled a M) r = a * momentAt M r.
Proof.
  intros L AP. unfold momentAt. rewrite scaled_len. assert (Q : (1 <= points (length M) r <= length M)%nat) by (unfold points; destruct (Rle_dec 0 r); lia).
  rewrite (interp_local _ _ (fun j => ln a + ln (el M j))).
  - rewrite interp_shift by lia. rewrite exp_plus, exp_ln by auto. reflexivity.
  - intros j Hj. rewrite el_scaled. apply ln_mult; [auto|]. apply AP. apply nth_In. lia.
Qed.
Lemma pair_scaled f h f' h' x y : (forall z, f' z = a * f z) -> (forall z, h' z = a * h z) -> pairSum f' h' x y = a ^ 2 * pairSum f h x y.
Proof. intros F H. unfold pairSum. rewrite !F, !H. ring. Qed.
Lemma half_scaled f h f' h' x y p : (forall z, 0 < f z) -> (forall z, 0 < h z) -> (forall z, f' z = a * f z) -> (forall z, h' z = a * h z) -> gridHalf f' h' x y p = a ^ 2 * gridHalf f h x y p.
Proof.
  intros PF PH F H. unfold gridHalf. assert (Q : 0 < a ^ 2) by (now apply pow_lt). rewrite <- (exp_ln (a ^ 2)) at 1 by auto. rewrite <- exp_plus, <- interp_shift by (destruct (Nat.leb p 2); [lia|destruct (Nat.leb p 3); lia]).
  f_equal. apply interp_local. intros l _. rewrite <- ln_mult by (auto; now apply gridInt_pos). f_equal. unfold gridInt. rewrite <- Sum_scal. apply Sum_ext. intros j _. rewrite (pair_scaled f h f' h') by auto. ring.
Qed.
Lemma coag_scaled k g F F' r : (forall z, 0 < F z) -> (forall z, F' z = a * F z) -> momCoag k g F' r = a ^ 2 * momCoag k g F r.
Proof.
  intros PF H.
  assert (FM : momFM k g F' r = a ^ 2 * momFM k g F r).
  { unfold momFM. destruct r as [|[|r]]; [rewrite (half_scaled F F F' F') by auto; ring|ring|]. set (q := S (S r)).
    rewrite (map_ext _ (fun i => a ^ 2 * (IZR (choose q i) * gridHalf F F i (q - i) (q - i)))).
    - rewrite <- (map_map (fun i => IZR (choose q i) * gridHalf F F i (q - i) (q - i)) (Rmult (a ^ 2))). fold (scaled (a ^ 2) (map (fun i => IZR (choose q i) * gridHalf F F i (q - i) (q - i)) (seq 1 (q - 1)))). rewrite sum_scaled. ring.
    - intros i. rewrite (half_scaled F F F' F') by auto. ring. }
  assert (CM : forall p q, coMean g F' p q = a ^ 2 * coMean g F p q) by (intros; unfold coMean; apply mean_scaled; intros; apply H).
  assert (CO : momCo g F' r = a ^ 2 * momCo g F r) by (unfold momCo; destruct r as [|[|r]]; rewrite ?CM; ring).
  unfold momCoag. rewrite FM, CO. destruct (mC k), r as [|[|r]]; try ring; now apply harm_scaled.
Qed.
End Momic.
Lemma momic_parts s0 k g M : valid s0 g M -> okAll k -> isP k = false -> momentCoag k -> SpecMomic.allPos M -> (3 <= length M <= 7)%nat -> exists B O C GB GO, (offs k B O C GB GO /\ directions P_MOMIC [] (length M) (momA k g) B O C) /\
  forall a m s st eig, 0 < a -> readyMomic m s g k (scaled a M) ->
    exists st' m' s', setSourceTerms st eig m s = Ok (st', m', s') /\ parts k (length M) (momA k g) (nuclGasSource k g) B O C GB GO a m'.
Proof.
  intros V0 OK NP HC AP L37. assert (L3 : (3 <= length M)%nat) by lia. set (kg0 := kgrow k g (el M 0) (el M 1)). set (ko0 := koxid k g (el M 0) (el M 1)).
  exists (surfPart kg0 M), (surfPart (- ko0) M), (momCoag k g (momicMom M)), (growGas (mG k) (kg0 * areaCoef * momentAt M (2 / 3))), (oxidGas (mO k) (ko0 * areaCoef * momentAt M (2 / 3))).
  split.
  - split; [split; [|split]|].
    + intros E. split; [|intros; now apply growGas_none]. unfold kg0, surfPart. rewrite kg_none by auto. intros [|j]; ring.
    + intros E. split; [|intros; now apply oxidGas_none]. unfold ko0, surfPart. rewrite ko_none by auto. intros [|j]; ring.
    + intros E. destruct HC as [X|[X|X]]; congruence.
    + intros r [E|Hr]; [discriminate E|]. pose proof (A_nn s0 g k _ V0 r) as HA. pose proof (kg_nn s0 g k _ V0 (el M 0) (el M 1)) as HG. pose proof (ko_nn s0 g k _ V0 (el M 0) (el M 1)) as HO.
      fold kg0 in HG. fold ko0 in HO. destruct (momic_dirs s0 g k _ V0 OK M HC L37) as (C0 & C1 & C2). pose proof area_nn as HC'.
      assert (X : forall q, 0 <= q -> 0 <= surfPart q M r).
      { intros q Hq. unfold surfPart. destruct r; [lra|]. apply four_nn; auto; [apply pos_INR|]. unfold momentAt. apply Rlt_le, exp_pos. }
      assert (Y : surfPart (- ko0) M r = - surfPart ko0 M r) by (unfold surfPart; destruct r; ring).
      pose proof (X _ HG). pose proof (X _ HO). cbn [momentOf]. rewrite Y. split; [assumption|]. split; [assumption|]. split; [lra|].
      split; [intros ->; assumption|]. split; [intros ->; assumption|]. split; [apply C2|]. intros -> _. cbn [surfPart]. split; lra.
  - intros a m s st eig P RD. pose proof (scaled_pos a M P AP) as AP'. destruct (momic_run m s g k (scaled a M) st eig RD AP') as (m' & A & SO & G & _). { congruence. }
    do 3 eexists. split; [exact A|]. rewrite !el_scaled in G. pose proof (grow_scaled k g a P (el M 0) (el M 1)) as GS. fold kg0 in GS.
    assert (MS : forall z, momicMom (scaled a M) z = a * momicMom M z) by (intros; now apply moment_scaled). split.
    + rewrite SO, scaled_len. apply map_ext. intros r. f_equal. unfold momicSource. cbv zeta. rewrite !el_scaled, oxid_scaled by auto. fold ko0.
      rewrite (coag_scaled a P k g (momicMom M)) by (auto; apply momicMom_pos). unfold nucl, condPart, momA. rewrite NP. cbn [oJ oGas].
      set (kg := kgrow k g (a * el M 0) (a * el M 1)) in *. unfold surfPart. destruct r as [|r]; [ring|]. rewrite moment_scaled by auto. set (u := momentAt M (INR (S r) - 1 / 3)).
      transitivity (Jnuc k g * nucMass g ^ S r + (a * kg) * (areaCoef * INR (S r) * u) + a * (- ko0 * areaCoef * INR (S r) * u) + a ^ 2 * momCoag k g (momicMom M) (S r)); [ring|rewrite GS; ring].
    + apply (budget_parts m' k g _ a (kg0 * areaCoef * momentAt M (2 / 3)) (ko0 * areaCoef * momentAt M (2 / 3)) _ _ NP G); rewrite moment_scaled by auto; [|rewrite oxid_scaled by auto; fold ko0; ring].
      transitivity ((a * kgrow k g (a * el M 0) (a * el M 1)) * areaCoef * momentAt M (2 / 3)); [ring|rewrite GS; ring].
Qed.

(** ** quadrature *)
Section Nodes.
Context (a : R) (P : 0 < a) (eig : eigSolver (N:=XR)).
Definition sc (x : xr) : xr := match x with Fin r => Fin (a * r) | y => y end.
Lemma sc_zero : sc (Fin 0) = Fin 0. Proof. cbn [sc]. f_equal. ring. Qed.
Lemma sc_sub x y : sc (xsub x y) = xsub (sc x) (sc y).
Proof. destruct x, y; cbn [sc xsub xadd xopp]; try reflexivity. f_equal. ring. Qed.
Lemma sc_opp x : sc (xopp x) = xopp (sc x).
Proof. destruct x; cbn [sc xopp]; try reflexivity. f_equal. ring. Qed.
Lemma sign_sc r z : signed (a * r) z = signed r z.
Proof.
  unfold signed. destruct (Rlt_dec 0 (a * r)) as [A|A], (Rlt_dec 0 r) as [B|B]; try (rewrite ltl in A by auto; contradiction); [reflexivity|].
  assert (a * r < 0 <-> r < 0) by (split; intros; nra). destruct (Rlt_dec (a * r) 0), (Rlt_dec r 0); tauto.
Qed.
Lemma sc_signed r z : sc (signed r z) = signed r (sc z).
Proof. unfold signed. destruct (Rlt_dec 0 r); [reflexivity|]. destruct (Rlt_dec r 0); reflexivity. Qed.
Lemma sc_mul u x : sc (xmul u x) = xmul u (sc x).
Proof.
  destruct u, x; cbn [sc xmul]; try reflexivity; rewrite ?sc_signed; cbn [sc]; try reflexivity; rewrite <- ?Ropp_mult_distr_r, ?sign_sc; try reflexivity; [f_equal; ring|].
  replace (- (a * r)) with (a * - r) by ring. now rewrite sign_sc.
Qed.
Lemma sc_div x y : xdiv (sc x) (sc y) = xdiv x y.
Proof.
  destruct x as [x| | |], y as [y| | |]; cbn [sc xdiv]; try reflexivity; rewrite ?sign_sc; try reflexivity.
  - destruct (Req_EM_T (a * y) 0) as [A|A], (Req_EM_T y 0) as [B|B]; try reflexivity; [exfalso; apply B; apply (Rmult_eq_reg_l a); lra|exfalso; apply A; rewrite B; ring|]. now rewrite ratio.
  - replace (- (a * y)) with (a * - y) by ring. now rewrite sign_sc.
Qed.
Lemma sc_bad x : badValue (N:=XR) (sc x) = badValue (N:=XR) x.
Proof.
  unfold badValue. change (@nltb XR) with xltb. change (@nZ XR 0) with (Fin 0). destruct x as [x| | |]; try reflexivity. cbn [sc]. change (@nfin XR (Fin (a * x))) with true. change (@nfin XR (Fin x)) with true.
  cbn [negb orb xltb]. pose proof (ltzl a x P). destruct (Rlt_dec (a * x) 0), (Rlt_dec x 0); try reflexivity; tauto.
Qed.
Lemma nth_sc l i : nth i (map sc l) (Fin 0) = sc (nth i l (Fin 0)).
Proof. rewrite <- sc_zero at 1. apply map_nth. Qed.
Lemma wheeler_rec f : forall i (prev cur prev' cur' : nat -> xr) (u v : xr), (forall j, prev' j = sc (prev j)) -> (forall j, cur' j = sc (cur j)) ->
  wheelerRec (N:=XR) f i prev' cur' u v = wheelerRec (N:=XR) f i prev cur u v.
Proof.
  induction f as [|f IH]; intros i prev cur prev' cur' u v HP HC; [reflexivity|]. cbn [wheelerRec].
  change (@nsub XR) with xsub. change (@nmul XR) with xmul. change (@ndiv XR) with xdiv. change (@nopp XR) with xopp. change (@nadd XR) with xadd.
  set (nx := fun j => xsub (xsub (cur (S j)) (xmul u (cur j))) (xmul v (prev j))). set (nx' := fun j => xsub (xsub (cur' (S j)) (xmul u (cur' j))) (xmul v (prev' j))).
  assert (HN : forall j, nx' j = sc (nx j)) by (intros j; unfold nx, nx'; now rewrite !HC, HP, !sc_sub, !sc_mul).
  change (xsub (xsub (cur (S (S i))) (xmul u (cur (S i)))) (xmul v (prev (S i)))) with (nx (S i)). change (xsub (xsub (cur (S i)) (xmul u (cur i))) (xmul v (prev i))) with (nx i).
  change (xsub (xsub (cur' (S (S i))) (xmul u (cur' (S i)))) (xmul v (prev' (S i)))) with (nx' (S i)). change (xsub (xsub (cur' (S i)) (xmul u (cur' i))) (xmul v (prev' i))) with (nx' i).
  rewrite !HN, !HC, <- sc_opp, !sc_div. apply (f_equal (cons _)). apply IH; auto.
Qed.
Lemma wheeler_ab (m : list xr) n : wheelerAB (N:=XR) (map sc m) n = wheelerAB (N:=XR) m n.
Proof.
  unfold wheelerAB. change (@nZ XR 0) with (Fin 0). change (@ndiv XR) with xdiv. cbv zeta. rewrite !nth_sc, sc_div.
  rewrite (wheeler_rec (n - 1) 1 (fun _ => Fin 0) (fun i => nth i m (Fin 0)) (fun _ => Fin 0) (fun i => nth i (map sc m) (Fin 0))); [reflexivity| |].
  - intros _. now rewrite sc_zero.
  - intros j. apply nth_sc.
Qed.
Lemma wheeler_sc (m : list xr) n : wheeler (N:=XR) eig (map sc m) n = (map sc (fst (wheeler (N:=XR) eig m n)), snd (wheeler (N:=XR) eig m n)).
Proof.
  unfold wheeler. rewrite wheeler_ab. destruct (wheelerAB (N:=XR) m n) as (x & y). destruct (eig n x _) as (u & v). cbn [fst snd]. f_equal. rewrite map_map. apply map_ext. intros i.
  change (@nZ XR 0) with (Fin 0). change (@nmul XR) with xmul. rewrite nth_sc. symmetry. apply sc_mul.
Qed.
Lemma bads_sc w x : badValues (N:=XR) (map sc w) x = badValues (N:=XR) w x.
Proof. unfold badValues. f_equal. induction w as [|y w IH]; [reflexivity|]. cbn [map existsb]. now rewrite IH, sc_bad. Qed.
Definition scW (r : res (list xr * list xr)) : res (list xr * list xr) := match r with Ok (w, x) => Ok (map sc w, x) | Throw e => Throw e | UB u => UB u end.
Lemma vget_sc l i : vget (map sc l) i = match vget l i with Ok y => Ok (sc y) | Throw e => Throw e | UB u => UB u end.
Proof. unfold vget. rewrite nth_error_map. destruct (nth_error l i); reflexivity. Qed.
Lemma down_sc (m : list xr) n : downselect (N:=XR) eig (map sc m) n = scW (downselect (N:=XR) eig m n).
Proof.
  induction n as [|n IH]; [reflexivity|]. destruct n as [|n].
  - cbn [downselect]. change (@num XR) with xr. rewrite !vget_sc. destruct (vget m 0) as [u| |]; cbn [bind scW]; try reflexivity. destruct (vget m 1) as [v| |]; cbn [bind scW map]; try reflexivity. change (@ndiv XR) with xdiv. now rewrite sc_div.
  - change (downselect (N:=XR) eig (map sc m) (S (S n))) with (let '(w, x) := wheeler (N:=XR) eig (map sc m) (S (S n)) in if badValues w x then downselect (N:=XR) eig (map sc m) (S n) else Ok (w, x)).
    change (downselect (N:=XR) eig m (S (S n))) with (let '(w, x) := wheeler (N:=XR) eig m (S (S n)) in if badValues w x then downselect (N:=XR) eig m (S n) else Ok (w, x)).
    rewrite wheeler_sc. destruct (wheeler (N:=XR) eig m (S (S n))) as (w & x). cbn [fst snd]. rewrite bads_sc. destruct (badValues w x); [exact IH|reflexivity].
Qed.
Definition scL (r : res (list xr)) : res (list xr) := match r with Ok w => Ok (map sc w) | Throw e => Throw e | UB u => UB u end.
Lemma vset_sc l i y : vset (map sc l) i (sc y) = scL (vset l i y).
Proof.
  unfold vset. rewrite map_length. destruct (Nat.ltb i (length l)); [|reflexivity]. cbn [scL]. f_equal. revert i. induction l as [|z l IH]; intros [|i]; cbn [map upd]; try reflexivity. now rewrite IH.
Qed.
Lemma assign_sc (t : list xr) : forall v, assignNonneg (N:=XR) (map sc v) (map sc t) = scL (assignNonneg (N:=XR) v t).
Proof.
  unfold assignNonneg. rewrite map_length. change (@num XR) with xr. change (@nZ XR 0) with (Fin 0). induction (seq 0 (length t)) as [|i l IH]; intros v; [reflexivity|]. cbn [foldM].
  rewrite nth_sc. set (y := nth i t (Fin 0)).
  assert (E : (if xleb (Fin 0) (sc y) then sc y else Fin 0) = sc (if xleb (Fin 0) y then y else Fin 0)).
  { destruct y as [y| | |]; cbn [sc xleb]; try reflexivity; try (f_equal; ring). pose proof (lel a y P). destruct (Rle_dec 0 (a * y)), (Rle_dec 0 y); cbn [sc]; try reflexivity; try tauto. f_equal. ring. }
  change (@nleb XR) with xleb. cbv zeta. rewrite E. rewrite vset_sc. destruct (vset v i (if xleb (Fin 0) y then y else Fin 0)) as [v'| |]; cbn [scL bind]; try reflexivity. apply IH.
Qed.
Lemma nodes_sc (m w x : list xr) : getWtsAbs (N:=XR) eig (map sc m) w x = scW (getWtsAbs (N:=XR) eig m w x).
Proof.
  unfold getWtsAbs. cbv zeta. change (@num XR) with xr. change (@nZ XR 0) with (Fin 0). rewrite vget_sc, map_length. destruct (vget m 0) as [y| |]; cbn [bind scW]; try reflexivity.
  assert (Z : map sc (map (fun _ : xr => Fin 0) w) = map (fun _ => Fin 0) w) by (rewrite map_map; apply map_ext; intros; apply sc_zero).
  change (@nleb XR) with xleb. assert (E : xleb (sc y) (Fin 0) = xleb y (Fin 0)).
  { destruct y as [y| | |]; try reflexivity. cbn [sc xleb]. pose proof (lezl a y P). destruct (Rle_dec (a * y) 0), (Rle_dec y 0); try reflexivity; tauto. }
  rewrite E. destruct (xleb y (Fin 0)); [cbn [scW]; now rewrite Z|]. rewrite down_sc. destruct (downselect (N:=XR) eig m (length m / 2)) as [(u & v)| |]; cbn [bind scW]; try reflexivity.
  rewrite <- Z at 1. rewrite assign_sc. destruct (assignNonneg (N:=XR) (map (fun _ => Fin 0) w) u) as [w'| |]; cbn [scL bind scW]; try reflexivity.
  destruct (assignNonneg (N:=XR) (map (fun _ => Fin 0) x) v) as [x'| |]; reflexivity.
Qed.
Lemma sc_fin l : map sc (map Fin l) = map Fin (scaled a l).
Proof. unfold scaled. rewrite !map_map. reflexivity. Qed.
Lemma nodes_scaled soot (w0 x0 : list xr) w x : getWtsAbs (N:=XR) eig (map Fin soot) w0 x0 = Ok (map Fin w, map Fin x) ->
  getWtsAbs (N:=XR) eig (map Fin (scaled a soot)) w0 x0 = Ok (map Fin (scaled a w), map Fin x).
Proof. intros E. rewrite <- !sc_fin. rewrite nodes_sc, E. reflexivity. Qed.
Lemma nodes_any (m w x w' x' : list xr) : length w = length w' -> length x = length x' -> getWtsAbs (N:=XR) eig m w x = getWtsAbs (N:=XR) eig m w' x'.
Proof.
  intros A B. unfold getWtsAbs. assert (Z : forall u v : list xr, length u = length v -> map (fun _ : xr => Fin 0) u = map (fun _ => Fin 0) v).
  { induction u as [|y u IH]; intros [|z v] L; try discriminate; [reflexivity|]. cbn [map]. f_equal. apply IH. now injection L. }
  change (@num XR) with xr. change (@nZ XR 0) with (Fin 0). cbv zeta. rewrite (Z w w' A), (Z x x' B). reflexivity.
Qed.
Lemma allPos_scaled : forall w x, SpecQmom.allPos (scaled a w) x = SpecQmom.allPos w x.
Proof.
  induction w as [|y w IH]; intros [|z x]; try reflexivity. cbn [scaled map SpecQmom.allPos]. fold (scaled a w). rewrite IH.
  destruct (Rlt_dec 0 (a * y)) as [A|A], (Rlt_dec 0 y) as [B|B]; try (rewrite ltl in A by auto; contradiction); reflexivity.
Qed.
Lemma frac_scaled w x r : fracMoment (scaled a w) x r = a * fracMoment w x r.
Proof.
  unfold fracMoment. rewrite allPos_scaled, scaled_len. destruct (SpecQmom.allPos w x); [|ring]. rewrite <- Sum_scal. apply Sum_ext. intros i _. rewrite el_scaled. ring.
Qed.
Lemma smol_scaled k g w x r : smoluchowski k g (scaled a w) x r = a ^ 2 * smoluchowski k g w x r.
Proof.
  unfold smoluchowski. rewrite scaled_len, <- Rmult_assoc, (Rmult_comm (a ^ 2)), Rmult_assoc. f_equal. rewrite <- Sum_scal. apply Sum_ext. intros i _. rewrite <- Sum_scal. apply Sum_ext. intros j _. rewrite !el_scaled. ring.
Qed.
End Nodes.
Lemma smol_none k g w x r : mC k = C_NONE -> smoluchowski k g w x r = 0.
Proof.
  intros E. unfold smoluchowski. rewrite (Sum_0 (length w)); [ring|]. intros i _. apply Sum_0. intros j _. rewrite kernel_none by auto. ring.
Qed.
Lemma qmom_parts s0 k g soot q eig : valid s0 g soot -> okAll k -> isP k = false -> (forall y, In y soot -> 0 <= y) -> length soot = (2 * q)%nat -> (1 <= q)%nat -> exists B O C GB GO, (offs k B O C GB GO /\ directions P_QMOM [] (length soot) (momA k g) B O C) /\
  forall a m s st, 0 < a -> readyQmom m s g k (scaled a soot) q -> mC k = C_NONE \/ (q <= 17)%nat ->
    exists st' m' s', setSourceTerms st eig m s = Ok (st', m', s') /\ parts k (length soot) (momA k g) (nuclGasSource k g) B O C GB GO a m'.
Proof.
  intros V0 OK NP NN L Q1.
  destruct (nodes_val eig soot q (map Fin (repeat 0 q)) (map Fin (repeat 0 q)) NN L Q1) as (w & x & EN & Lw & Lx & NW & NX & _); try (now rewrite map_length, repeat_length).
  set (kg0 := kgrow k g (el soot 0) (el soot 1)). set (ko0 := koxid k g (el soot 0) (el soot 1)).
  exists (fun r => kg0 * areaCoef * INR r * fracMoment w x (INR r - 1 / 3)), (fun r => - ko0 * areaCoef * INR r * fracMoment w x (INR r - 1 / 3)), (smoluchowski k g w x),
    (growGas (mG k) (kg0 * areaCoef * fracMoment w x (1 - 1 / 3))), (oxidGas (mO k) (ko0 * areaCoef * fracMoment w x (1 - 1 / 3))).
  split.
  - split; [split; [|split]|].
    + intros E. split; [|intros; now apply growGas_none]. unfold kg0. rewrite kg_none by auto. intros j; ring.
    + intros E. split; [|intros; now apply oxidGas_none]. unfold ko0. rewrite ko_none by auto. intros j; ring.
    + intros E j. now apply smol_none.
    + intros r [E|Hr]; [discriminate E|]. pose proof (A_nn s0 g k _ V0 r) as HA. pose proof (kg_nn s0 g k _ V0 (el soot 0) (el soot 1)) as HG. pose proof (ko_nn s0 g k _ V0 (el soot 0) (el soot 1)) as HO.
      fold kg0 in HG. fold ko0 in HO. destruct (smol_signs s0 g k _ V0 OK w x r NW NX) as (C0 & C1 & C2). pose proof area_nn as HC'.
      assert (X : forall q, 0 <= q -> 0 <= q * areaCoef * INR r * fracMoment w x (INR r - 1 / 3)) by (intros; apply four_nn; auto; [apply pos_INR|now apply frac_nn]).
      pose proof (X _ HG). pose proof (X _ HO). cbn [momentOf]. split; [assumption|]. split; [assumption|]. split; [lra|].
      split; [assumption|]. split; [assumption|]. split; [assumption|]. intros -> _. cbn [INR]. split; ring.
  - intros a m s st P RD HC. pose proof RD as ((_ & _ & _ & Lw0 & La0) & _).
    assert (EN' : getWtsAbs (N:=XR) eig (map Fin (scaled a soot)) (wts s) (absc s) = Ok (map Fin (scaled a w), map Fin x)).
    { rewrite (nodes_any eig _ _ _ (map Fin (repeat 0 q)) (map Fin (repeat 0 q))) by (now rewrite map_length, repeat_length). now apply nodes_scaled. }
    destruct (r_call m s g k (scaled a soot) q eig st RD HC (scaled a w) x EN' ltac:(rewrite scaled_len; auto) Lx (scaled_nn a w P NW) NX) as (m' & s' & A & _ & SO & G & _).
    do 3 eexists. split; [exact A|]. rewrite !el_scaled in G. pose proof (grow_scaled k g a P (el soot 0) (el soot 1)) as GS. fold kg0 in GS. split.
    + rewrite SO, L. apply map_ext. intros r. f_equal. unfold qmomSource. rewrite !el_scaled, oxid_scaled, frac_scaled, smol_scaled by auto. fold ko0.
      unfold nucl, condense, momA. rewrite NP. cbn [oJ oGas oConc oMass]. set (kg := kgrow k g (a * el soot 0) (a * el soot 1)) in *. set (u := fracMoment w x (INR r - 1 / 3)).
      match goal with |- context [INR r * 0 * 0 * ?X] => set (X0 := X) end.
      transitivity (Jnuc k g * nucMass g ^ r + (a * kg) * (areaCoef * INR r * u) + a * (- ko0 * areaCoef * INR r * u) + a ^ 2 * smoluchowski k g w x r); [ring|rewrite GS; ring].
    + apply (budget_parts m' k g _ a (kg0 * areaCoef * fracMoment w x (1 - 1 / 3)) (ko0 * areaCoef * fracMoment w x (1 - 1 / 3)) _ _ NP G); rewrite frac_scaled by auto; [|rewrite oxid_scaled by auto; fold ko0; ring].
      transitivity ((a * kgrow k g (a * el soot 0) (a * el soot 1)) * areaCoef * fracMoment w x (1 - 1 / 3)); [ring|rewrite GS; ring].
Qed.

(** ** bins *)
Lemma up_lin b f r j : moveUp b (fun l => f * r l) j = f * moveUp b r j.
Proof. unfold moveUp, Rdiv. destruct (Nat.eqb j 0), (Nat.eqb (S j) (length b)); ring. Qed.
Lemma down_lin b f r j : moveDown b (fun l => f * r l) j = f * moveDown b r j.
Proof. unfold moveDown, Rdiv. destruct (Nat.eqb j 0), (Nat.eqb (S j) (length b)); ring. Qed.
Lemma up_ext b r r' j : (forall l, r l = r' l) -> moveUp b r j = moveUp b r' j.
Proof. intros H. unfold moveUp. now rewrite !H. Qed.
Lemma down_ext b r r' j : (forall l, r l = r' l) -> moveDown b r j = moveDown b r' j.
Proof. intros H. unfold moveDown. now rewrite !H. Qed.
Lemma bins_scaled k g b n c a j : coagAt k g b (scaled a n) c j = a ^ 2 * coagAt k g b n c j.
Proof.
  unfold coagAt. cbv zeta. rewrite Rmult_minus_distr_l, <- Rmult_assoc, (Rmult_comm (a ^ 2) (1 / 2)), Rmult_assoc. f_equal; [f_equal|f_equal]; rewrite <- Sum_scal; apply Sum_ext; intros i _.
  - rewrite <- Sum_scal. apply Sum_ext. intros l _. rewrite !el_scaled. ring.
  - rewrite !el_scaled. ring.
Qed.
Lemma bins_none k g b n c j : mC k = C_NONE -> coagAt k g b n c j = 0.
Proof.
  intros E. unfold coagAt. cbv zeta. rewrite !Sum_0; [ring| |].
  - intros l _. rewrite kernel_none by auto. ring.
  - intros i _. apply Sum_0. intros l _. rewrite kernel_none by auto. ring.
Qed.
Lemma sect_parts s0 k g b n c F : valid s0 g n -> okAll k -> brackets b c -> isP k = false -> goodBins b -> length n = length b -> (mC k <> C_NONE -> fits c b) -> exists B O C GB GO, (offs k B O C GB GO /\ directions P_SECT b (length b) (sectA k g b) B O C) /\
  forall a m s st eig, 0 < a -> isSect m b F -> hasAll m k -> okAll k -> valid s g (scaled a n) -> regular k g (number (scaled a n)) (mass b (scaled a n)) -> located st F c ->
    exists st' m' s', setSourceTerms st eig m s = Ok (st', m', s') /\ parts k (length b) (sectA k g b) (nuclGasSource k g) B O C GB GO a m'.
Proof.
  intros V0 OK BK NP GB0 Ln HF. set (kg0 := kgrow k g (number n) (mass b n)). set (ko0 := koxid k g (number n) (mass b n)).
  exists (moveUp b (fun l => kg0 * binArea b n l)), (moveDown b (fun l => ko0 * binArea b n l)), (coagAt k g b n c), (growGas (mG k) (kg0 * totalArea b n)), (oxidGas (mO k) (ko0 * totalArea b n)).
  split.
  - split; [split; [|split]|].
    + intros E. split; [|intros; now apply growGas_none]. intros j. rewrite up_lin. unfold kg0. rewrite kg_none by auto. ring.
    + intros E. split; [|intros; now apply oxidGas_none]. intros j. rewrite down_lin. unfold ko0. rewrite ko_none by auto. ring.
    + intros E j. now apply bins_none.
    + intros r _. pose proof (kg_nn s0 g k _ V0 (number n) (mass b n)) as HG. pose proof (ko_nn s0 g k _ V0 (number n) (mass b n)) as HO. fold kg0 in HG. fold ko0 in HO.
      assert (BN : forall j, 0 <= binArea b n j) by (intros j; unfold binArea; apply Rmult_le_pos; [exact (nel_nn s0 g n V0 j)|apply sphere_nn]).
      destruct (coag_signs b GB0 s0 g k n V0 OK c r BK) as (C0 & C1 & C2). cbn [momentOf].
      split; [exact (sectA_nn s0 g k n V0 b r GB0)|]. split; [apply (up_nneg b GB0); intros; now apply Rmult_le_pos|]. split; [apply (down_npos b GB0); intros; now apply Rmult_le_pos|].
      split; [assumption|]. split; [assumption|]. split; [assumption|]. intros _ X. now destruct X.
  - intros a m s st eig P IS HM OM V RG LOC.
    destruct (sect_run m s g k b (scaled a n) F IS GB0 HM OM V ltac:(rewrite scaled_len; exact Ln) RG st c LOC eig (fun On => HF (coag_on_k m k HM On))) as (m' & A & SO & G & _).
    do 3 eexists. split; [exact A|]. unfold number, mass in *. rewrite !sum_scaled, !dot_scaled in G. pose proof (grow_scaled k g a P (sumR n) (dot n b)) as GS. fold kg0 in GS.
    assert (BA : forall j, binArea b (scaled a n) j = a * binArea b n j) by (intros j; unfold binArea; rewrite el_scaled; ring).
    assert (TA : totalArea b (scaled a n) = a * totalArea b n) by (unfold totalArea; rewrite <- Sum_scal; apply Sum_ext; intros; apply BA). split.
    + rewrite SO. apply map_ext. intros j. f_equal. unfold sectSource, number, mass. cbv zeta. rewrite sum_scaled, dot_scaled, oxid_scaled, bins_scaled by auto. fold ko0.
      set (kg := kgrow k g (a * sumR n) (a * dot n b)) in *.
      rewrite (up_ext b _ (fun l => (a * kg) * binArea b n l)) by (intros; rewrite BA; ring). rewrite (down_ext b _ (fun l => a * (ko0 * binArea b n l))) by (intros; rewrite BA; ring).
      match goal with |- context [moveUp b (condensed ?K ?G ?B ?N ?O)] => rewrite (up_ext b (condensed K G B N O) (fun l => 0 * 0)) by (intros; unfold condensed, nucl; rewrite NP; cbn [oConc oMass]; ring) end.
      rewrite (up_lin b 0 (fun _ => 0)), GS, !(up_lin b), (down_lin b a). unfold sectA, nucl, oN1. rewrite NP. cbn [oJ oGas]. ring.
    + apply (budget_parts m' k g _ a (kg0 * totalArea b n) (ko0 * totalArea b n) _ _ NP G); rewrite TA; [|rewrite oxid_scaled by auto; fold ko0; ring].
      transitivity ((a * kgrow k g (a * sumR n) (a * dot n b)) * totalArea b n); [ring|rewrite GS; ring].
Qed.

(** ** after any history *)
Lemma isP_no k : mN k <> N_PAH -> isP k = false.
Proof. intros N. destruct (isP k) eqn:E; [|reflexivity]. apply isP_true in E. contradiction. Qed.
(** the last step, for any model that the history can leave *)
Lemma last_step p k n nt F c g soot tar eig a B O C GB GO : okAll k -> isP k = false -> 0 < a -> goodStep p k (geometric c F n) n nt (mkStep g soot tar eig) ->
  (forall st m s, hasAll m k -> sm_psd m = p -> extra p k n F c st m s -> valid s g (scaled a soot) -> regular k g (soot0 p (scaled a soot)) (soot1 p (geometric c F n) (scaled a soot)) ->
     exists st' m' s', setSourceTerms st eig m s = Ok (st', m', s') /\ parts k n (nuclSource p k g (geometric c F n)) (nuclGasSource k g) B O C GB GO a m') ->
  forall x, inv p k n nt F c x -> exists st' m' s', foldM doAction [setTo g (scaled a soot) tar; ASrc eig] x = Ok (st', m', s') /\
    parts k n (nuclSource p k g (geometric c F n)) (nuclGasSource k g) B O C GB GO a m'.
Proof.
  intros OM NP P (PH & L1 & L2 & N1 & N2 & RG & SP) H ((st & m) & s) (HM & HP & PF & S1 & S2 & S3 & FS & FG & FP & X). cbn [spGas spSoot spTar spEig] in *.
  destruct (setTo_ok st m s g (scaled a soot) tar) as (s1 & E1 & V & _ & W & Ab & _ & T); auto; try (rewrite ?scaled_len; congruence). { now apply scaled_nn. }
  assert (X1 : extra p k n F c st m s1). { unfold extra in *. destruct p; try contradiction; try assumption; [now rewrite W, Ab|]. unfold isQmom in *. now rewrite W, Ab. }
  destruct (H st m s1 HM HP X1 V) as (st' & m' & s' & A & Q).
  { pose proof (regular_scaled k g a P _ _ RG) as RS. destruct p; cbn [soot0 soot1] in *; unfold number, mass in *; rewrite ?el_scaled, ?sum_scaled, ?dot_scaled; exact RS. }
  exists st', m', s'. split; [|exact Q]. cbn [foldM]. etransitivity; [apply (f_equal (fun r => bind r _)); exact E1|]. cbn [bind doAction]. etransitivity; [apply (f_equal (fun r => bind r _)); exact A|]. reflexivity.
Qed.
Lemma C66_ p n nu gr ox co nt ta F c (m : model (N:=XR)) g soot tar eig :
  let k := mkMechs nu gr ox co 1 in let b := geometric c F n in
  goodConfig p n nu co ta F c -> nu <> N_PAH -> constructEnum p n nu gr ox co nt ta (Fin F) c = Ok m ->
  goodStep p k b n nt (mkStep g soot tar eig) -> someSoot p soot ->
  exists B O C GB GO, (offs k B O C GB GO /\ directions p b n (nuclSource p k g b) B O C) /\
  forall l a, 0 < a -> (forall x, In x l -> goodStep p k b n nt x) ->
    exists st' m' s', runActions (None, m, newState n nt) (actionsOf l ++ [setTo g (scaled a soot) tar; ASrc eig]) = Ok (st', m', s') /\
      parts k n (nuclSource p k g b) (nuclGasSource k g) B O C GB GO a m'.
Proof.
  intros k b GC NPN E GS SS. destruct (start _ _ _ _ _ _ _ _ _ _ _ GC E) as (CO & OM & HT & I). fold k in OM, I.
  assert (NP : isP k = false) by now apply isP_no.
  assert (VV : exists s0 : state (N:=XR), valid s0 g soot).
  { pose proof I as (_ & _ & _ & S1 & S2 & S3 & _). pose proof GS as (PH & L1 & L2 & N1 & N2 & _). cbn [spGas spSoot spTar] in *.
    destruct (setTo_ok None m (newState n nt) g soot tar) as (s1 & _ & V & _); auto; try congruence. now exists s1. }
  destruct VV as (s0 & V0).
  assert (KEY : exists B O C GB GO, (offs k B O C GB GO /\ directions p b n (nuclSource p k g b) B O C) /\ forall a, 0 < a ->
    forall st m s, hasAll m k -> sm_psd m = p -> extra p k n F c st m s -> valid s g (scaled a soot) -> regular k g (soot0 p (scaled a soot)) (soot1 p b (scaled a soot)) ->
     exists st' m' s', setSourceTerms st eig m s = Ok (st', m', s') /\ parts k n (nuclSource p k g b) (nuclGasSource k g) B O C GB GO a m').
  { pose proof I as (_ & _ & _ & _ & _ & _ & _ & _ & _ & X0). pose proof GS as (PH & L1 & _ & N1 & _ & RG & _). cbn [spGas spSoot] in *. unfold extra in X0. destruct p; try contradiction.
    - destruct X0 as (-> & _). destruct soot as [|M0 [|M1 [|]]]; cbn [length] in L1; try lia. cbn [someSoot el nth] in SS.
      destruct (mono_parts k g NP s0 M0 M1 V0 OM SS) as (B & O & C & GB & GO & OF & H). exists B, O, C, GB, GO. split; [exact OF|].
      intros a P st m0 s HM HP (_ & NT & w & x & Ew & Ex) V RR. exact (H a m0 s w x st eig P HP HM OM NT V RR Ew Ex).
    - destruct X0 as (-> & HC). destruct soot as [|M0 [|M1 [|M2 [|]]]]; cbn [length] in L1; try lia.
      destruct (logn_parts s0 k g M0 M1 M2 V0 OM NP HC) as (B & O & C & GB & GO & OF & H). exists B, O, C, GB, GO. split; [exact OF|].
      intros a P st m0 s HM HP _ V RR. exact (H a m0 s st eig P HP HM OM V RR).
    - destruct X0 as (q & Nq & (_ & _ & Q1 & _) & HC). subst n.
      destruct (qmom_parts s0 k g soot q eig V0 OM NP N1 L1 Q1) as (B & O & C & GB & GO & OF & H). exists B, O, C, GB, GO. split; [rewrite L1 in OF; exact OF|].
      intros a P st m0 s HM HP (q' & Nq & HQ & _) V RR. assert (q' = q) by lia. subst q'. rewrite <- L1. apply (H a m0 s st P); [|exact HC].
      repeat (split; [first [assumption|rewrite scaled_len; exact L1]|]). exact RR.
    - destruct X0 as (HC & L & _). subst n.
      destruct (momic_parts s0 k g soot V0 OM NP HC SS L) as (B & O & C & GB & GO & OF & H). exists B, O, C, GB, GO. split; [exact OF|].
      intros a P st m0 s HM HP (_ & _ & MA) V RR. apply (H a m0 s st eig P). unfold readyMomic. rewrite scaled_len. repeat (split; [assumption|]). exact L.
    - destruct X0 as (HF & Hc & Hs & _ & _). assert (EL : length b = n) by apply geo_len.
      assert (BK : brackets b (/ ln F)). { intros i j Hi Hj. rewrite EL in Hi, Hj. destruct (C31_bracket c F n Hc HF Hs i j Hi Hj) as (B1 & B2). split; [intros Ht; now destruct (B1 Ht)|exact B2]. }
      destruct (sect_parts s0 k g b soot (/ ln F) F V0 OM BK NP (G_geo c F n Hc HF Hs) ltac:(congruence) (fun _ => geo_fits c F n Hc HF Hs)) as (B & O & C & GB & GO & OF & H). exists B, O, C, GB, GO. split; [rewrite EL in OF; exact OF|].
      intros a P st m0 s HM HP (_ & _ & _ & IS & HO) V RR. rewrite <- EL. exact (H a m0 s st eig P IS HM OM V RR (own_located st F HF HO)). }
  destruct KEY as (B & O & C & GB & GO & OF & H). exists B, O, C, GB, GO. split; [exact OF|]. intros l a P HL.
  destruct (all_steps p k n nt F c OM l _ I HL) as (x & R & IX).
  destruct (last_step p k n nt F c g soot tar eig a B O C GB GO OM NP P GS (H a P) x IX) as (st' & m' & s' & R2 & Q).
  exists st', m', s'. split; [|exact Q]. unfold runActions in *. rewrite foldM_app. etransitivity; [apply (f_equal (fun r => bind r _)); exact R|]. exact R2.
Qed.
Lemma C65_ p n nu gr ox co nt ta F c (m : model (N:=XR)) g soot tar eig :
  let k := mkMechs nu gr ox co 1 in let b := geometric c F n in
  goodConfig p n nu co ta F c -> nu <> N_PAH -> constructEnum p n nu gr ox co nt ta (Fin F) c = Ok m ->
  goodStep p k b n nt (mkStep g soot tar eig) -> someSoot p soot ->
  exists B O C GB GO, offs k B O C GB GO /\
  forall l a, 0 < a -> (forall x, In x l -> goodStep p k b n nt x) ->
    exists st' m' s', runActions (None, m, newState n nt) (actionsOf l ++ [setTo g (scaled a soot) tar; ASrc eig]) = Ok (st', m', s') /\
      parts k n (nuclSource p k g b) (nuclGasSource k g) B O C GB GO a m'.
Proof.
  intros k b GC NPN E GS SS. destruct (C66_ p n nu gr ox co nt ta F c m g soot tar eig GC NPN E GS SS) as (B & O & C & GB & GO & (OF & _) & H).
  exists B, O, C, GB, GO. split; [exact OF|exact H].
Qed.
Lemma C65_pure p n co nt ta F c (m : model (N:=XR)) g soot tar eig :
  let k := mkMechs N_NONE G_NONE O_NONE co 1 in let b := geometric c F n in
  goodConfig p n N_NONE co ta F c -> constructEnum p n N_NONE G_NONE O_NONE co nt ta (Fin F) c = Ok m ->
  goodStep p k b n nt (mkStep g soot tar eig) -> someSoot p soot ->
  exists src, forall l a, 0 < a -> (forall x, In x l -> goodStep p k b n nt x) ->
    exists st' m' s', runActions (None, m, newState n nt) (actionsOf l ++ [setTo g (scaled a soot) tar; ASrc eig]) = Ok (st', m', s') /\
      soots m' = map (fun j => Fin (a ^ 2 * src j)) (seq 0 n) /\ holdsGas (gases m') (fun _ => 0).
Proof.
  intros k b GC E GS SS. destruct (C65_ p n N_NONE G_NONE O_NONE co nt ta F c m g soot tar eig GC ltac:(discriminate) E GS SS) as (B & O & C & GB & GO & (OB & OO & OC) & H).
  fold k b in H, OB, OO, OC. destruct (OB eq_refl) as (B0 & GB0), (OO eq_refl) as (O0 & GO0). exists C. intros l a P HL.
  destruct (H l a P HL) as (st' & m' & s' & R & S & G). exists st', m', s'. split; [exact R|]. assert (J : Jnuc k g = 0) by reflexivity. split.
  - rewrite S. apply map_ext. intros j. f_equal. rewrite B0, O0. unfold nuclSource, momA, sectA. rewrite J. unfold Rdiv. destruct p; try destruct (Nat.eqb j 0); ring.
  - apply (holdsGas_ext _ _ _ G). intros sp. rewrite GB0, GO0. unfold nuclGasSource. cbn [k mN nuclGas]. ring.
Qed.
