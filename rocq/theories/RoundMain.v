(** Rounding errors of the rates: from the arguments of setState to the formulas (C71). *)
From Coq Require Import ZArith List Bool Reals Lra Lia.
From Coq.Floats Require Import SpecFloat.
From Flocq Require Import Core. From Flocq Require BinarySingleNaN.
From Verif Require Import Num Defs State Nucl Growth Oxid Coag XR XRLemmas F64 SpecBinomial SpecState SpecChem SpecCoag SpecValid SpecRates SpecPsd SpecRound
  StateProofs RateProofs CoagProofs PsdProofs RoundProofs RoundExpr RoundRates NumLaws.
Import ListNotations.
Local Open Scope R_scope.

Definition pv l h := mkAv false false 0 l h.
Definition zv l h := mkAv false true 0 l h.
(** ranges of the environment; [z] = the number and mass of soot may be zero *)
Definition aenv (z : bool) (i : nat) : av :=
  match i with 0%nat => pv 8 13 | 1%nat => pv 6 30 | 2%nat => pv (-20) 10 | 3%nat => pv (-27) 0 | 4%nat => pv 0 20
  | 5%nat | 6%nat => mkAv false z 0 (-100) 100 | 7%nat | 8%nat => mkAv false false 1 (-85) 0 | 9%nat => pv (-20) 20 | _ => zv (-100) 0 end.

Lemma zero_double x : isDouble x -> sfVal x = 0 -> exists b, x = S754_zero b.
Proof.
  intros D Z. destruct (dbl_cases x D) as [H|(s & m & e & ->)]; [exact H|]. exfalso. cbn [sfVal] in Z. apply Rmult_integral in Z. destruct Z as [Z|Z].
  - apply eq_IZR in Z. destruct s; discriminate Z.
  - revert Z. apply powerRZ_NOR. lra.
Qed.
Lemma between_rel lo hi l h x : between lo hi x -> bpow radix2 l <= lo -> hi <= bpow radix2 h -> rel (pv l h) x (sfVal x).
Proof.
  intros [D [B1 B2]] L H. right. pose proof (bpow_gt_0 radix2 l). split; [exact D|]. split; [cbn; lra|]. split; [rewrite Rabs_right by lra; cbn [pv av_lo av_hi]; lra|].
  exists 0. split; [rewrite Rabs_R0; cbn; lra|]. rewrite exp_0. ring.
Qed.
Lemma zero_rel lo hi l h x : zeroOr lo hi x -> bpow radix2 l <= lo -> hi <= bpow radix2 h -> rel (zv l h) x (sfVal x).
Proof.
  intros [D [Z|B]] L H.
  - left. split; [reflexivity|]. split; [exact Z|]. apply zero_double; assumption.
  - destruct (between_rel lo hi l h x) as [(M & _)|R]; [split; assumption|exact L|exact H|discriminate M|]. right. exact R.
Qed.
Lemma dec_lo n l : (10 ^ Z.of_nat n <=? 2 ^ l)%Z = true -> (0 <= l)%Z -> bpow radix2 (- l) <= / 10 ^ n.
Proof. intros H L. apply Z.leb_le in H. rewrite bpow_opp, bpow_big, pow_IZR by exact L. apply Rinv_le_contravar; [apply IZR_lt; apply Z.pow_pos_nonneg; lia|]. apply IZR_le. exact H. Qed.
Lemma dec_hi n l : (10 ^ Z.of_nat n <=? 2 ^ l)%Z = true -> (0 <= l)%Z -> 10 ^ n <= bpow radix2 l.
Proof. intros H L. apply Z.leb_le in H. rewrite bpow_big, pow_IZR by exact L. apply IZR_le. exact H. Qed.

Lemma units_agree k : (k <= 4503)%Z -> IZR k * / 2 ^ 52 <= / 10 ^ 12.
Proof.
  intros K. apply IZR_le in K.
  pose proof (Rinv_0_lt_compat (2 ^ 52) ltac:(apply pow_lt; lra)). apply Rle_trans with (4503 * / 2 ^ 52); [apply Rmult_le_compat_r; lra|].
  rewrite !pow_IZR. change (Z.of_nat 52) with 52%Z. change (Z.of_nat 12) with 12%Z. apply (Rmult_le_reg_r (IZR (2 ^ 52))); [apply IZR_lt; reflexivity|].
  rewrite Rmult_assoc, Rinv_l, Rmult_1_r by (apply Rgt_not_eq, IZR_lt; reflexivity). apply (Rmult_le_reg_l (IZR (10 ^ 12))); [apply IZR_lt; reflexivity|].
  rewrite <- Rmult_assoc, Rinv_r, Rmult_1_l by (apply Rgt_not_eq, IZR_lt; reflexivity). rewrite <- mult_IZR. apply IZR_le, Z.leb_le. vm_compute. reflexivity.
Qed.
Lemma within_agrees k x r : (k <= 4503)%Z -> within k x r -> agrees x r.
Proof. intros K [D W]. split; [exact D|]. eapply Rle_trans; [exact W|]. apply Rmult_le_compat_r; [apply Rabs_pos|]. apply units_agree. exact K. Qed.

Lemma mass_lo : bpow radix2 (-85) <= 3 / 10 ^ 26.
Proof.
  change (-85)%Z with (- (85))%Z. rewrite bpow_opp, bpow_big, pow_IZR by lia. change (Z.of_nat 26) with 26%Z. apply (Rmult_le_reg_r (IZR (10 ^ 26))); [apply IZR_lt; reflexivity|].
  unfold Rdiv. rewrite Rmult_assoc, Rinv_l, Rmult_1_r by (apply Rgt_not_eq, IZR_lt; reflexivity). apply (Rmult_le_reg_l (IZR (2 ^ 85))); [apply IZR_lt; reflexivity|].
  rewrite <- Rmult_assoc, Rinv_r, Rmult_1_l by (apply Rgt_not_eq, IZR_lt; reflexivity). rewrite <- mult_IZR. apply IZR_le, Z.leb_le. vm_compute. reflexivity.
Qed.
Lemma mass_rel x : between (3 / 10 ^ 26) 1 x -> rel (mkAv false false 1 (-85) 0) x (sfVal x).
Proof.
  intro B. destruct (between_rel _ _ (-85) 0 _ B mass_lo ltac:(change (bpow radix2 0) with 1; lra)) as [(M & _)|R]; [discriminate M|]. right.
  revert R. apply relP_weak; cbn; try reflexivity; lia.
Qed.
Lemma leb_val x y : isDouble x -> isDouble y -> SFleb x y = Rle_bool (sfVal x) (sfVal y).
Proof. intros Dx Dy. destruct (ofDouble x Dx) as (a & <- & Fa). destruct (ofDouble y Dy) as (b & <- & Fb). rewrite !val_B. apply (BinarySingleNaN.Bleb_correct prec64 emax64 a b Fa Fb). Qed.
Lemma cutoff_below : massCutoff * (5 / 4) < bpow radix2 (-85).
Proof.
  Local Transparent massCutoff. unfold massCutoff. Local Opaque massCutoff. change (-85)%Z with (- (85))%Z. rewrite bpow_opp, bpow_big by lia.
  apply (Rmult_lt_reg_r (IZR (10 ^ 26))); [apply IZR_lt; reflexivity|]. replace (2 / IZR (10 ^ 26) * (5 / 4) * IZR (10 ^ 26)) with (5 / 2) by (field; apply Rgt_not_eq, IZR_lt; reflexivity).
  apply (Rmult_lt_reg_l (IZR (2 ^ 85))); [apply IZR_lt; reflexivity|]. rewrite <- Rmult_assoc, Rinv_r, Rmult_1_l by (apply Rgt_not_eq, IZR_lt; reflexivity).
  apply (Rmult_lt_reg_r 2); [lra|]. replace (IZR (2 ^ 85) * (5 / 2) * 2) with (IZR (2 ^ 85) * 5) by field. rewrite <- !mult_IZR. apply IZR_lt, Z.ltb_lt. vm_compute. reflexivity.
Qed.
Lemma mass_above lm x r : rel (mkAv false false 1 (-85) 0) x r -> nleb (Num:=F64 lm) x mmin = false /\ massCutoff < r.
Proof.
  intros [(M & _)|(D & P & B & t & T & V)]; [discriminate M|]. cbn [av_neg av_lo av_hi av_k] in *. rewrite (Rabs_right r) in B by lra.
  pose proof cutoff_below as CB. pose proof cut_pos as CP. split; [|lra]. change (@nleb (F64 lm)) with SFleb. change (@mmin (F64 lm)) with (f64lit 2 (-26)).
  pose proof (units_small 16 ltac:(lia)) as U. pose proof unitE_pos.
  assert (L : exists c, litA 2 (-26) = Some c /\ (av_k c <=? 1)%Z = true /\ av_mz c = false) by (eexists; split; [vm_compute; reflexivity|split; reflexivity]). destruct L as (c & L & K & M).
  destruct (litR _ _ _ L) as [(Q & _)|(D' & P' & B' & t' & T' & V')]; [congruence|]. rewrite leb_val by assumption. apply Rle_bool_false. rewrite V, V'.
  apply Z.leb_le, IZR_le in K. change (rlit 2 (-26)) with (2 / IZR (10 ^ 26)). change (2 / IZR (10 ^ 26)) with massCutoff.
  assert (T1 : Rabs t' <= / 64) by (eapply Rle_trans; [exact T'|]; nra). assert (T2 : Rabs t <= / 64) by (eapply Rle_trans; [exact T|]; lra).
  pose proof (exp_near t ltac:(lra)) as E1. pose proof (exp_near t' ltac:(lra)) as E2.
  assert (E1' : 31 / 32 <= exp t) by (unfold Rabs in E1 at 1; destruct (Rcase_abs (exp t - 1)); lra). assert (E2' : exp t' <= 33 / 32) by (unfold Rabs in E2 at 1; destruct (Rcase_abs (exp t' - 1)); lra).
  pose proof (exp_pos t'). apply Rle_lt_trans with (massCutoff * (33 / 32)); [apply Rmult_le_compat_l; lra|]. apply Rlt_le_trans with (massCutoff * (5 / 4) * (31 / 32)); [lra|]. apply Rmult_le_compat; lra.
Qed.
Section Env.
Context (lm : libm) (AC : accurate lm) (a : args (F64 lm)) (U : usual a) (x7 x8 x9 : spec_float) (r7 r8 : R).
Definition fenv (i : nat) : spec_float :=
  match i with 0%nat => aT a | 1%nat => aP a | 2%nat => arho a | 3%nat => amu a | 4%nat => acMin a
  | 5%nat => nth 0 (asoot a) (S754_zero false) | 6%nat => nth 1 (asoot a) (S754_zero false) | 7%nat => x7 | 8%nat => x8 | 9%nat => x9
  | _ => if Nat.ltb i 30 then nth (i - 10) (ayGas a) (S754_zero false) else nth (i - 30) (ayPah a) (S754_zero false) end.
Definition renv (i : nat) : R := match i with 7%nat => r7 | 8%nat => r8 | _ => sfVal (fenv i) end.
Hypothesis (B7 : rel (mkAv false false 1 (-85) 0) x7 r7) (B8 : rel (mkAv false false 1 (-85) 0) x8 r8) (B9 : between (/ 10 ^ 6) (10 ^ 6) x9).

Lemma zero_any l h : rel (zv l h) (S754_zero false) (sfVal (S754_zero false)).
Proof. left. split; [reflexivity|]. split; [reflexivity|]. eauto. Qed.
Lemma env_rel z : (z = false -> 0 < soot0 a /\ 0 < soot1 a) -> forall i, rel (aenv z i) (fenv i) (renv i).
Proof.
  destruct U as (UT & UP & UR & UM & UC & LY & UY & LP & UQ & LS & US). intros Z i.
  assert (YY : forall j, rel (zv (-100) 0) (nth j (ayGas a) (S754_zero false)) (sfVal (nth j (ayGas a) (S754_zero false)))).
  { intro j. destruct (nth_in_or_default j (ayGas a) (S754_zero false)) as [I|E]; [|rewrite E; apply zero_any].
    apply (zero_rel (/ 10 ^ 30) 1); [apply UY, I|apply (dec_lo 30 100); [reflexivity|lia]|change (bpow radix2 0) with 1; lra]. }
  assert (PP : forall j, rel (zv (-100) 0) (nth j (ayPah a) (S754_zero false)) (sfVal (nth j (ayPah a) (S754_zero false)))).
  { intro j. destruct (nth_in_or_default j (ayPah a) (S754_zero false)) as [I|E]; [|rewrite E; apply zero_any].
    apply (zero_rel (/ 10 ^ 30) 1); [apply UQ, I|apply (dec_lo 30 100); [reflexivity|lia]|change (bpow radix2 0) with 1; lra]. }
  assert (SS : forall j, (z = false -> 0 < sfVal (nth j (asoot a) (S754_zero false))) -> rel (mkAv false z 0 (-100) 100) (nth j (asoot a) (S754_zero false)) (sfVal (nth j (asoot a) (S754_zero false)))).
  { intros j Pz. assert (R : rel (zv (-100) 100) (nth j (asoot a) (S754_zero false)) (sfVal (nth j (asoot a) (S754_zero false)))).
    { destruct (nth_in_or_default j (asoot a) (S754_zero false)) as [I|E]; [|rewrite E; apply zero_any].
      apply (zero_rel (/ 10 ^ 30) (10 ^ 30)); [apply US, I|apply (dec_lo 30 100); [reflexivity|lia]|apply (dec_hi 30 100); [reflexivity|lia]]. }
    destruct z; [exact R|]. destruct R as [(_ & E & _)|R]; [rewrite E in Pz; specialize (Pz eq_refl); lra|right; exact R]. }
  destruct i as [|[|[|[|[|[|[|[|[|[|i]]]]]]]]]].
  - apply (between_rel _ _ _ _ _ UT); [change (bpow radix2 8) with 256; lra|change (bpow radix2 13) with 8192; lra].
  - apply (between_rel _ _ _ _ _ UP); [change (bpow radix2 6) with 64; lra|apply (dec_hi 9 30); [reflexivity|lia]].
  - apply (between_rel _ _ _ _ _ UR); [apply (dec_lo 6 20); [reflexivity|lia]|change (bpow radix2 10) with 1024; lra].
  - apply (between_rel _ _ _ _ _ UM); [apply (dec_lo 8 27); [reflexivity|lia]|change (bpow radix2 0) with 1; lra].
  - apply (between_rel _ _ _ _ _ UC); [change (bpow radix2 0) with 1; lra|apply (dec_hi 6 20); [reflexivity|lia]].
  - apply SS. intro E. apply Z. exact E.
  - apply SS. intro E. apply Z. exact E.
  - exact B7.
  - exact B8.
  - apply (between_rel _ _ _ _ _ B9); [apply (dec_lo 6 20); [reflexivity|lia]|apply (dec_hi 6 20); [reflexivity|lia]].
  - unfold renv, fenv. cbn [aenv]. destruct (Nat.ltb _ 30); [apply YY|apply PP].
Qed.

(** the doubles stored by setState *)
Lemma ltb_nneg x : isDouble x -> 0 <= sfVal x -> SFltb x (S754_zero false) = false.
Proof.
  intros D P. destruct (dbl_cases x D) as [[s ->]|(s & m & e & ->)]; [reflexivity|]. destruct s; [|reflexivity]. exfalso. cbn [sfVal] in P.
  change (IZR (cond_Zopp true (Z.pos m))) with (IZR (Z.neg m)) in P. assert (Q : 0 < powerRZ 2 e) by (apply powerRZ_lt; lra). pose proof (IZR_lt (Z.neg m) 0 ltac:(lia)). nra.
Qed.
Lemma ltb_pos x : isDouble x -> 0 < sfVal x -> SFltb (S754_zero false) x = true.
Proof.
  intros D P. destruct (dbl_cases x D) as [[s ->]|(s & m & e & ->)]; [cbn in P; lra|]. destruct s; [|reflexivity]. exfalso. cbn [sfVal] in P.
  change (IZR (cond_Zopp true (Z.pos m))) with (IZR (Z.neg m)) in P. assert (Q : 0 < powerRZ 2 e) by (apply powerRZ_lt; lra). pose proof (IZR_lt (Z.neg m) 0 ltac:(lia)). nra.
Qed.

Lemma state_env s0 s : call s0 a = SetOk s -> sEnv (N:=F64 lm) fenv s.
Proof.
  intro C. destruct U as (UT & UP & UR & UM & UC & LY & UY & LP & UQ & LS & US).
  assert (NU : call s0 a <> SetUB) by (rewrite C; discriminate).
  destruct (proj1 (proj2 (C01_accepts (N:=F64 lm) (F64_cmpLaws lm) s0 a NU)) s C) as (HT & HP & HR & HM & HC & HW & _ & HS & _ & _ & HY & HQ & _).
  assert (SV : forall j, (j < 2)%nat -> vget (sootVar s) j = Ok (nth j (asoot a) (S754_zero false))).
  { intros j J. destruct HS as [_ HS]. assert (L : (j < length (asoot a))%nat) by lia. pose proof (nth_error_nth' (asoot a) (S754_zero false) L) as NE.
    specialize (HS j _ NE). unfold vget. change (@num (F64 lm)) with spec_float in *. rewrite HS.
    assert (NN : SFltb (nth j (asoot a) (S754_zero false)) (S754_zero false) = false).
    { destruct (US _ (nth_In _ (S754_zero false) L)) as [D B]. change (@num (F64 lm)) with spec_float in *. apply ltb_nneg; [exact D|]. destruct B as [B|B]; [lra|]. pose proof (Rinv_0_lt_compat (10 ^ 30) ltac:(apply pow_lt; lra)). lra. }
    change (@nltb (F64 lm)) with SFltb. change (@nZ (F64 lm) 0) with (S754_zero false). match goal with |- context [andb ?u ?v] => replace v with false by (symmetry; exact NN) end. rewrite andb_false_r. reflexivity. }
  constructor; try assumption.
  - intro sp. rewrite HY. unfold vget. assert (L : (gasIdx sp < length (ayGas a))%nat) by (rewrite LY; destruct sp; cbn; lia). rewrite (nth_error_nth' _ (S754_zero false : @num (F64 lm)) L). destruct sp; reflexivity.
  - intro sp. rewrite HQ. unfold vget. assert (L : (pahIdx sp < length (ayPah a))%nat) by (rewrite LP; destruct sp; cbn; lia). rewrite (nth_error_nth' _ (S754_zero false : @num (F64 lm)) L). destruct sp; reflexivity.
  - apply (SV 0%nat). lia.
  - apply (SV 1%nat). lia.
Qed.

(** the same data over the reals *)
Definition xstate : state (N:=XR) :=
  mkState (N:=XR) (Fin (gT (gasOf a))) (Fin (gP (gasOf a))) (Fin (gRho (gasOf a))) (ev (N:=XR) (fun i => Fin (renv i)) symMW) (Fin (gMu (gasOf a)))
    (map Fin (gasVec (gY (gasOf a)))) (map Fin (pahVec (gPah (gasOf a)))) 2 (map Fin [soot0 a; soot1 a]) [] [] [] (Fin (gCMin (gasOf a))) 0 [] [] (Fin 0) (Fin 0) (Fin 0) (Fin 0) (Fin 0).
Lemma xstate_env : sEnv (N:=XR) (fun i => Fin (renv i)) xstate.
Proof. constructor; try reflexivity; intro sp; destruct sp; reflexivity. Qed.
Lemma usual_gas : okGas (gasOf a) /\ 0 <= soot0 a /\ 0 <= soot1 a.
Proof.
  destruct U as (UT & UP & UR & UM & UC & LY & UY & LP & UQ & LS & US).
  assert (Z : forall lo hi x, 0 < lo -> zeroOr lo hi x -> 0 <= sfVal x) by (intros lo hi x P [_ [B|B]]; lra).
  pose proof (Rinv_0_lt_compat (10 ^ 30) ltac:(apply pow_lt; lra)) as I30. pose proof (Rinv_0_lt_compat (10 ^ 6) ltac:(apply pow_lt; lra)). pose proof (Rinv_0_lt_compat (10 ^ 8) ltac:(apply pow_lt; lra)).
  assert (DF : forall l, (forall y, In y l -> zeroOr (/ 10 ^ 30) 1 y) -> forall j, 0 <= sfVal (nth j l (S754_zero false))).
  { intros l Q j. destruct (nth_in_or_default j l (S754_zero false)) as [I|E]; [apply (Z _ _ _ I30 (Q _ I))|rewrite E; cbn; lra]. }
  assert (DS : forall j, 0 <= sfVal (nth j (asoot a) (S754_zero false))).
  { intro j. destruct (nth_in_or_default j (asoot a) (S754_zero false)) as [I|E]; [apply (Z _ _ _ I30 (US _ I))|rewrite E; cbn; lra]. }
  split; [|split; apply DS]. destruct UT as [_ ?], UP as [_ ?], UR as [_ ?], UM as [_ ?], UC as [_ ?].
  repeat split; cbn [gasOf gT gP gRho gMu gCMin gY gPah]; try lra; intro sp; apply DF; assumption.
Qed.
Lemma xstate_valid : valid xstate (gasOf a) [soot0 a; soot1 a].
Proof.
  destruct usual_gas as (G & S0 & S1). split; [exact G|]. destruct G as (PT & PP & PR & PM & _).
  split; [|repeat split].
  - repeat split; try assumption; try reflexivity. unfold xstate. cbn [MWGas].
    assert (A : exists v, an (aenv true) symMW = Some v) by (eexists; vm_compute; reflexivity). destruct A as (v & A).
    rewrite (an_xr lm AC (aenv true) fenv renv (env_rel true ltac:(discriminate)) symMW _ A). reflexivity.
  - intro sp. destruct sp; reflexivity.
  - intro sp. destruct sp; reflexivity.
  - cbn [In]. intros x [<-|[<-|[]]]; assumption.
Qed.

Lemma sound z e v : (z = false -> 0 < soot0 a /\ 0 < soot1 a) -> an (aenv z) e = Some v -> (av_k v <=? 4502)%Z = true ->
  agrees (ev (N:=F64 lm) fenv e) (evR renv e).
Proof.
  intros Z A K. apply Z.leb_le in K. destruct (an_sound lm AC _ _ _ (env_rel z Z) _ _ A) as [O R]. apply (within_agrees (av_k v + 1)); [lia|]. apply (rel_within v); [exact O|lia|exact R].
Qed.
Lemma real z e v r : (z = false -> 0 < soot0 a /\ 0 < soot1 a) -> an (aenv z) e = Some v -> ev (N:=XR) (fun i => Fin (renv i)) e = Fin r -> evR renv e = r.
Proof. intros Z A E. rewrite (an_xr lm AC _ _ _ (env_rel z Z) _ _ A) in E. congruence. Qed.

Lemma C71_nucl s0 s coll nu : call s0 a = SetOk s -> gasOnly (nu_class nu) ->
  exists x, nuclRate coll nu s = Ok (x, nu, s, None) /\ agrees x (nuclFormula (nu_class nu) (gasOf a)).
Proof.
  intros C G. eexists. split; [apply (nucl_sym (N:=F64 lm) fenv s (state_env _ _ C) coll nu G)|].
  assert (A : exists v, an (aenv true) (nuclE (nu_class nu)) = Some v /\ (av_k v <=? 4502)%Z = true).
  { destruct (nu_class nu); eexists; (split; [vm_compute; reflexivity|reflexivity]). }
  destruct A as (v & A & K). assert (Z : true = false -> 0 < soot0 a /\ 0 < soot1 a) by discriminate.
  pose proof (nucl_sym _ _ xstate_env (fun _ _ => UB OutOfBounds) (newNucl (N:=XR) (nu_class nu)) G) as X1.
  pose proof (nucl_formula _ _ _ xstate_valid (fun _ _ => UB OutOfBounds) (newNucl (N:=XR) (nu_class nu)) G) as X2.
  cbn [newNucl nu_class] in X1, X2. rewrite X1 in X2.
  assert (X : ev (N:=XR) (fun i => Fin (renv i)) (nuclE (nu_class nu)) = Fin (nuclFormula (nu_class nu) (gasOf a))).
  { apply (f_equal (fun r => match r with Ok (x, _, _, _) => x | _ => Fin 0 end)) in X2. exact X2. }
  rewrite <- (real true _ v _ Z A X). apply (sound true _ v Z A K).
Qed.

Lemma C71_oxid s0 s o v : call s0 a = SetOk s -> sv_psd v <> P_SECT -> ox_class o <> O_NSC_NEOH -> ox_class o <> O_HACA ->
  exists x, oxidRate o v s = Ok x /\ agrees x (oxidFormula (ox_class o) (gasOf a) (soot0 a) (soot1 a)).
Proof.
  intros C NS G1 G2. eexists. split; [apply (oxid_sym (N:=F64 lm) fenv s (state_env _ _ C) o v NS G1 G2)|].
  assert (A : exists v, an (aenv true) (oxidE (ox_class o)) = Some v /\ (av_k v <=? 4502)%Z = true).
  { destruct (ox_class o); eexists; (split; [vm_compute; reflexivity|reflexivity]). }
  destruct A as (u & A & K). assert (Z : true = false -> 0 < soot0 a /\ 0 < soot1 a) by discriminate.
  set (ox := mkOxid (N:=XR) (ox_class o) (ox_class o) []). set (w := mkView (N:=XR) P_MONO 2 []).
  pose proof (oxid_sym _ _ xstate_env ox w ltac:(discriminate) G1 G2) as X1.
  assert (SM : seesMoments w [soot0 a; soot1 a] (soot0 a) (soot1 a)) by (left; repeat split; discriminate).
  pose proof (oxid_formula _ _ _ xstate_valid ox w _ _ SM (fun Q => False_ind _ (G2 Q))) as X2.
  rewrite X1 in X2. cbn [ox ox_class] in X2.
  assert (X : ev (N:=XR) (fun i => Fin (renv i)) (oxidE (ox_class o)) = Fin (oxidFormula (ox_class o) (gasOf a) (soot0 a) (soot1 a))).
  { apply (f_equal (fun r => match r with Ok x => x | _ => Fin 0 end)) in X2. exact X2. }
  rewrite <- (real true _ u _ Z A X). apply (sound true _ u Z A K).
Qed.

(** ** growth *)
Lemma zero_agrees r : r = 0 -> agrees (S754_zero false) r.
Proof. intros ->. split; [split; reflexivity|]. cbn [sfVal]. rewrite Rminus_0_r, Rabs_R0. lra. Qed.
Lemma soot_cases : 0 < soot0 a /\ 0 < soot1 a \/ soot0 a = 0 /\ (exists b, fenv 5 = S754_zero b) \/ 0 < soot0 a /\ soot1 a = 0 /\ (exists b, fenv 6 = S754_zero b).
Proof.
  pose proof (env_rel true ltac:(discriminate)) as E. destruct usual_gas as (_ & P0 & P1).
  destruct (E 5%nat) as [(_ & Z0 & X0)|R0]; [right; left; split; [exact Z0|exact X0]|]. destruct R0 as (_ & Q0 & _). cbn [aenv av_neg] in Q0. change (renv 5) with (soot0 a) in Q0.
  destruct (E 6%nat) as [(_ & Z1 & X1)|R1]; [right; right; split; [exact Q0|split; [exact Z1|exact X1]]|]. destruct R1 as (_ & Q1 & _). cbn [aenv av_neg] in Q1. left. split; assumption.
Qed.
Lemma area_rel : 0 < soot0 a /\ 0 < soot1 a -> exists v, an (aenv false) areaE = Some v /\ (av_k v <=? 4502)%Z = true /\ av_neg v = false /\ av_mz v = false.
Proof. intros _. eexists. split; [vm_compute; reflexivity|]. repeat split. Qed.
Lemma area_float : 0 < soot0 a /\ 0 < soot1 a -> SFltb (S754_zero false) (fenv 5) = true /\ SFltb (S754_zero false) (ev (N:=F64 lm) fenv areaE) = true.
Proof.
  intros PP. pose proof (env_rel false (fun _ => PP)) as E. split.
  - destruct (E 5%nat) as [(M & _)|R]; [discriminate M|]. apply ltb_pos; [apply R|exact (proj1 PP)].
  - destruct (area_rel PP) as (v & A & _ & NN & MM). destruct (an_sound lm AC _ _ _ E _ _ A) as [_ [(M & _)|R]]; [congruence|]. apply ltb_pos; [apply R|apply (relP_sign _ _ _ R NN)].
Qed.
Lemma area_zero : soot0 a = 0 /\ (exists b, fenv 5 = S754_zero b) \/ 0 < soot0 a /\ soot1 a = 0 /\ (exists b, fenv 6 = S754_zero b) ->
  surface (soot0 a) (soot1 a) = 0 /\ SFltb (S754_zero false) (growArea (N:=F64 lm) (fenv 5) (fenv 6)) = false.
Proof.
  intros [(Z & b & X)|(P0 & Z & b & X)].
  - split; [unfold surface; rewrite Z; destruct (Rlt_dec 0 0); [lra|reflexivity]|]. unfold growArea. rewrite X. destruct b; reflexivity.
  - split; [unfold surface; rewrite Z; destruct (Rlt_dec 0 (soot0 a)); [|reflexivity]; destruct (Rlt_dec 0 0); [lra|reflexivity]|].
    assert (D0 : isDouble (fenv 5)). { destruct (env_rel true ltac:(discriminate) 5%nat) as [(_ & Q & _)|R]; [change (renv 5) with (soot0 a) in Q; lra|apply R]. }
    assert (L0 : SFltb (S754_zero false) (fenv 5) = true) by (apply ltb_pos; assumption).
    rewrite (area_sym (N:=F64 lm) fenv L0).
    assert (E : forall i, rel (match i with 5%nat => aenv false 5 | _ => aenv true i end) (fenv i) (renv i)).
    { intro i. pose proof (env_rel true ltac:(discriminate) i) as R. destruct i as [|[|[|[|[|[|i]]]]]]; try exact R.
      destruct R as [(_ & Q & _)|R]; [change (renv 5) with (soot0 a) in Q; lra|right; exact R]. }
    assert (A : exists v, an (fun i => match i with 5%nat => aenv false 5 | _ => aenv true i end) areaE = Some v) by (eexists; vm_compute; reflexivity). destruct A as (v & A).
    destruct (an_sound lm AC _ _ _ E _ _ A) as [_ R].
    assert (V : evR renv areaE = 0).
    { pose proof (an_xr lm AC _ _ _ E _ _ A) as X1. pose proof (area_sym (N:=XR) (fun i => Fin (renv i))) as X2. cbv beta in X2.
      change (renv 5) with (soot0 a) in X2. change (renv 6) with (soot1 a) in X2. rewrite (growArea_val (soot0 a) (soot1 a)) in X2 by lra.
      change (@nltb XR) with xltb in X2. change (@nZ XR 0) with (Fin 0) in X2. specialize (X2 (proj2 (xltb_iff 0 (soot0 a)) P0)).
      unfold surface in X2. rewrite Z in X2. destruct (Rlt_dec 0 (soot0 a)); [|lra]. destruct (Rlt_dec 0 0); [lra|].
      rewrite X1 in X2. congruence. }
    destruct R as [(_ & _ & s & X')|R]; [rewrite X'; destruct s; reflexivity|]. exfalso. apply (relP_nz _ _ _ R V).
Qed.
Lemma C71_grow s0 s gr v : call s0 a = SetOk s -> sv_psd v <> P_SECT -> gr_class gr <> G_HACA ->
  exists x, growRate gr v s = Ok x /\ agrees x (growFormula (gr_class gr) (gasOf a) (soot0 a) (soot1 a)).
Proof.
  intros C NS G. set (gx := mkGrow (N:=XR) (gr_class gr) (gr_class gr) []). set (w := mkView (N:=XR) P_MONO 2 []).
  assert (SM : seesMoments w [soot0 a; soot1 a] (soot0 a) (soot1 a)) by (left; repeat split; discriminate).
  pose proof (grow_formula _ _ _ xstate_valid gx w _ _ SM (fun Q => False_ind _ (G Q))) as X2. cbn [gx gr_class] in X2.
  destruct soot_cases as [PP|ZZ].
  - destruct (area_float PP) as [F0 F1].
    eexists. split; [apply (grow_sym (N:=F64 lm) fenv s (state_env _ _ C) gr v NS G F0 F1)|].
    assert (A : exists v, an (aenv false) (growE (gr_class gr)) = Some v /\ (av_k v <=? 4502)%Z = true).
    { destruct (gr_class gr); try congruence; eexists; (split; [vm_compute; reflexivity|reflexivity]). }
    destruct A as (u & A & K).
    assert (Y0 : nltb (Num:=XR) (nZ 0) (Fin (renv 5)) = true) by (apply (proj2 (xltb_iff 0 (renv 5))); apply PP).
    assert (Y1 : nltb (Num:=XR) (nZ 0) (ev (N:=XR) (fun i => Fin (renv i)) areaE) = true).
    { destruct (area_rel PP) as (q & Aq & _ & NN & MM). pose proof (env_rel false (fun _ => PP)) as E. rewrite (an_xr lm AC _ _ _ E _ _ Aq).
      apply (proj2 (xltb_iff 0 _)). destruct (an_sound lm AC _ _ _ E _ _ Aq) as [_ R]. pose proof (rel_nneg _ _ _ NN R). pose proof (rel_nz _ _ _ MM R). lra. }
    pose proof (grow_sym _ _ xstate_env gx w ltac:(discriminate) G Y0 Y1) as X1. rewrite X1 in X2. cbn [gx gr_class] in X2.
    assert (X : ev (N:=XR) (fun i => Fin (renv i)) (growE (gr_class gr)) = Fin (growFormula (gr_class gr) (gasOf a) (soot0 a) (soot1 a))).
    { apply (f_equal (fun r => match r with Ok x => x | _ => Fin 0 end)) in X2. exact X2. }
    rewrite <- (real false _ u _ (fun _ => PP) A X). apply (sound false _ u (fun _ => PP) A K).
  - destruct (area_zero ZZ) as [SZ FZ]. eexists. split; [apply (grow_none (N:=F64 lm) fenv s (state_env _ _ C) gr v NS G FZ)|].
    destruct (gr_class gr) eqn:Ec; try congruence; cbv iota; try (apply zero_agrees; cbn [growFormula]; rewrite SZ; destruct (Rlt_dec 0 0); [lra|reflexivity]); try (apply zero_agrees; reflexivity).
    assert (A : exists v, an (aenv true) (growE G_LIN) = Some v /\ (av_k v <=? 4502)%Z = true) by (eexists; (split; [vm_compute; reflexivity|reflexivity])).
    destruct A as (u & A & K). assert (Z : true = false -> 0 < soot0 a /\ 0 < soot1 a) by discriminate.
    assert (Y : nltb (Num:=XR) (nZ 0) (growArea (Fin (renv 5)) (Fin (renv 6))) = false).
    { destruct usual_gas as (_ & P0 & P1). change (renv 5) with (soot0 a). change (renv 6) with (soot1 a). rewrite growArea_val by assumption. rewrite SZ. exact (xltb_false 0 0 (Rle_refl 0)). }
    pose proof (grow_none _ _ xstate_env gx w ltac:(discriminate) ltac:(cbn [gx gr_class]; congruence) Y) as X1. cbn [gx gr_class] in X1, X2. rewrite X1 in X2. cbv iota in X2.
    assert (X : ev (N:=XR) (fun i => Fin (renv i)) (growE G_LIN) = Fin (growFormula G_LIN (gasOf a) (soot0 a) (soot1 a))).
    { apply (f_equal (fun r => match r with Ok x => x | _ => Fin 0 end)) in X2. exact X2. }
    rewrite <- (real true _ u _ Z A X). apply (sound true _ u Z A K).
Qed.

(** ** kernels *)
Lemma kern_float s0 s (c : coagObj (N:=F64 lm)) : call s0 a = SetOk s -> co_class c <> C_FUCHS -> co_FM c = (x9 : @num (F64 lm)) ->
  coagRate (N:=F64 lm) c s x7 x8 = ev (N:=F64 lm) fenv (kernE (co_class c) (EVar 7) (EVar 8) (EVar 9)).
Proof.
  intros C K F. apply (kern_sym (N:=F64 lm) fenv s (state_env _ _ C) c (EVar 7) (EVar 8) (EVar 9)); [exact F|exact K|apply (mass_above lm x7 r7 B7)|apply (mass_above lm x8 r8 B8)].
Qed.
Lemma kern_real k : mC k <> C_FUCHS -> mC k <> C_size -> mF k = sfVal x9 ->
  ev (N:=XR) (fun i => Fin (renv i)) (kernE (mC k) (EVar 7) (EVar 8) (EVar 9)) = Fin (kernel k (gasOf a) r7 r8).
Proof.
  intros K1 K2 EF. destruct (mass_above lm x7 r7 B7) as [_ M7]. destruct (mass_above lm x8 r8 B8) as [_ M8].
  assert (P9 : 0 < sfVal x9). { destruct B9 as (_ & Q & _). pose proof (Rinv_0_lt_compat (10 ^ 6) ltac:(apply pow_lt; lra)). lra. }
  rewrite <- (kernel_val xstate (gasOf a) [soot0 a; soot1 a] k r7 r8 xstate_valid K2 ltac:(rewrite EF; exact P9)).
  symmetry. assert (CF : co_FM (with_f (mC k) (mF k)) = ev (N:=XR) (fun i => Fin (renv i)) (EVar 9)) by (rewrite EF; reflexivity).
  assert (CL : forall r, massCutoff < r -> nleb (Num:=XR) (Fin r) mmin = false). { intros r Q. change (@nleb XR) with xleb. change (@mmin XR) with (Fin massCutoff). unfold xleb. destruct (Rle_dec r massCutoff); [lra|reflexivity]. }
  exact (kern_sym (N:=XR) (fun i => Fin (renv i)) xstate xstate_env (with_f (mC k) (mF k)) (EVar 7) (EVar 8) (EVar 9) CF K1 (CL r7 M7) (CL r8 M8)).
Qed.
Lemma kern_an c : c <> C_FUCHS -> exists v, an (aenv true) (kernE c (EVar 7) (EVar 8) (EVar 9)) = Some v /\ (av_k v <=? 4000)%Z = true.
Proof. intro K. destruct c; try congruence; eexists; (split; [vm_compute; reflexivity|reflexivity]). Qed.
End Env.
