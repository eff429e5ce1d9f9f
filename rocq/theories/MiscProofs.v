(** The C interface (C50) and AJ_RED tar cracking (C51). *)
From Coq Require Import ZArith List Bool Reals Lra Lia.
From Verif Require Import Num Defs State Tar SootModel CInterface XR XRLemmas SpecState SpecChem SpecTar SpecCoag SpecValid StateProofs StateXR ValidProofs NumLaws.
Import ListNotations.

Section C.
Context {N : Num}.
Lemma mapM_vget {A} (p : list A) n k : (k + n <= length p)%nat ->
  mapM (fun i => vget p i) (seq k n) = Ok (firstn n (skipn k p)).
Proof.
  revert k. induction n as [|n IH]; intros k H; [reflexivity|].
  cbn [seq mapM]. unfold vget at 1. destruct (nth_error p k) as [x|] eqn:E.
  2:{ apply nth_error_None in E. lia. }
  cbn [bind]. rewrite IH by lia. cbn [bind]. f_equal.
  assert (S1 : skipn k p = x :: skipn (S k) p).
  { clear IH H. revert p E. induction k as [|k IHk]; intros [|a p] E; try discriminate.
    - inversion E; reflexivity.
    - cbn [skipn]. rewrite IHk by exact E. reflexivity. }
  rewrite S1. reflexivity.
Qed.
Lemma copyRange_ok (p : list num) n : (0 <= n <= Z.of_nat (length p))%Z -> copyRange p n = Ok (firstn (Z.to_nat n) p).
Proof.
  intros H. unfold copyRange. destruct (Z.ltb_spec n 0); [lia|]. rewrite mapM_vget by lia. reflexivity.
Qed.
Lemma C50_call (s : state) t p rho mu yg yp sv ns tv nt cm :
  (10 <= length yg)%nat -> (6 <= length yp)%nat -> (0 <= ns <= Z.of_nat (length sv))%Z -> (0 <= nt <= Z.of_nat (length tv))%Z ->
  setState_C s t p rho mu yg yp sv ns tv nt cm =
  setState s t p rho mu (firstn 10 yg) (firstn 6 yp) (firstn (Z.to_nat ns) sv) ns (firstn (Z.to_nat nt) tv) nt (nZ 100).
Proof.
  intros H1 H2 H3 H4. unfold setState_C. rewrite !copyRange_ok by lia. reflexivity.
Qed.

Lemma C50_after (L : cmpLaws N) (s s' : state) t p rho mu yg yp sv ns tv nt cm :
  (10 <= length yg)%nat -> (6 <= length yp)%nat -> (0 <= ns <= Z.of_nat (length sv))%Z -> (0 <= nt <= Z.of_nat (length tv))%Z ->
  setState_C s t p rho mu yg yp sv ns tv nt cm = SetOk s' ->
  cMin s' = nZ 100 /\ getGasSpC_C s' CO2 = UB OutOfBounds /\ getGasSpP_C s' CO2 = UB OutOfBounds /\
  get_yGas_C s' CO2 = UB OutOfBounds /\
  forall sp, sp <> CO2 -> exists y, nth_error yg (gasIdx sp) = Some y /\ get_yGas_C s' sp = Ok y.
Proof.
  intros H1 H2 H3 H4 E. rewrite C50_call in E by assumption.
  pose proof (describe L s (mkArgs t p rho mu (firstn 10 yg) (firstn 6 yp) (firstn (Z.to_nat ns) sv) ns (firstn (Z.to_nat nt) tv) nt (nZ 100))) as D.
  unfold call in D. cbn [aT aP arho amu ayGas ayPah asoot ansoot atar aNtar acMin] in D. rewrite E in D.
  inversion D as [? Ha Hs B1 B2| |]; subst.
  destruct Hs as (_ & _ & _ & _ & Ec & _ & _ & _ & _ & _ & Eg & _).
  cbn [acMin ayGas] in Ec, Eg.
  assert (Hl : length (firstn 10 yg) = 10%nat) by (rewrite firstn_length; lia).
  assert (Hn : nth_error (firstn 10 yg) 10 = None) by (apply nth_error_None; lia).
  unfold getGasSpC_C, getGasSpP_C, get_yGas_C, getGasSpC, getGasSpP, vget. rewrite Eg.
  change (gasIdx CO2) with 10%nat. rewrite Hn. cbn [bind]. repeat split; auto.
  intros sp Hsp. assert (Hi : (gasIdx sp < 10)%nat) by (destruct sp; cbn; lia || congruence).
  assert (Hx : nth_error (firstn 10 yg) (gasIdx sp) = nth_error yg (gasIdx sp)).
  { rewrite <- (firstn_skipn 10 yg) at 2. rewrite nth_error_app1 by lia. reflexivity. }
  destruct (nth_error yg (gasIdx sp)) as [y|] eqn:Ey.
  - exists y. split; [reflexivity|]. now rewrite Hx.
  - apply nth_error_None in Ey. lia.
Qed.
End C.

(** AJ_RED cracking *)
Local Open Scope R_scope.
Lemma gasC_fin (s : state (N:=XR)) rho y sp : rhoGas s = Fin rho -> nth_error (yGas s) (gasIdx sp) = Some (Fin y) ->
  getGasSpC s sp = Ok (Fin (rho * y / rMW sp)).
Proof.
  intros Er Ey. unfold getGasSpC, vget. rewrite Er, Ey. cbn [bind]. xsimp. reflexivity.
Qed.
Lemma xpow_nneg a b : 0 <= a -> 0 < b -> exists v, xpow (Fin a) (Fin b) = Fin v /\ 0 <= v.
Proof.
  intros [H|H] Hb.
  - rewrite xpow_fin by lra. eexists; split; [reflexivity|]. apply Rlt_le, exp_pos.
  - subst. rewrite xpow_0pos by lra. eexists; split; [reflexivity|lra].
Qed.

Lemma C51_value (s : state (N:=XR)) t rho n0 y :
  T s = Fin t -> 0 < t -> rhoGas s = Fin rho -> 0 < rho -> nth_error (tarVar s) 0 = Some (Fin n0) ->
  nth_error (yGas s) (gasIdx H2) = Some (Fin y) -> 0 <= y ->
  crackRate (newTar T_AJ_RED) s = Ok (Fin (crackingReduced t n0)).
Proof.
  intros Et Ht Er Hr En Ey Hy. unfold crackRate. cbn [ta_class newTar]. unfold crackAJ_RED.
  unfold vget. rewrite En. cbn [bind]. rewrite (gasC_fin s rho y H2 Er Ey). cbn [bind]. f_equal.
  set (cl := if ngtb (Fin n0) (@nZ XR 0) then @nlog10 XR (Fin n0) else @nZ XR 0).
  assert (Ecl : cl = Fin (tarLog n0)).
  { unfold cl, tarLog. change (@nltb XR) with xltb. change (@nZ XR 0) with (Fin 0). change (@nlog10 XR) with xlog10.
    unfold xltb. destruct (Rlt_dec 0 n0); [now rewrite xlog10_fin|reflexivity]. }
  rewrite Ecl, Et. set (c := tarLog n0).
  unfold idiv. change (@nZ XR (Z.quot 1 6)) with (Fin 0). change (@nZ XR (Z.quot 1 3)) with (Fin 0).
  change (@nZ XR (Z.quot 50 128)) with (Fin 0). change (@nZ XR (Z.quot 14 92)) with (Fin 0).
  assert (Hc : 0 <= rho * y / rMW H2) by nneg.
  destruct (xpow_nneg (rho * y / rMW H2) (4 / 10) Hc ltac:(lra)) as (p1 & E1 & _).
  destruct (xpow_nneg (rho * y / rMW H2) (5 / 10) Hc ltac:(lra)) as (p2 & E2 & _).
  xcbn. xconst.
  change (rlit 4 (-1)) with (4 / 10). change (rlit 5 (-1)) with (5 / 10). rewrite E1, E2.
  pose proof rNa_pos. pose proof rkb_pos.
  repeat xstep. f_equal.
  unfold crackingReduced, arrhenius, benzene0, phenol0, naphthalene, toluene0. fold c. rewrite <- rNa_val, <- rkb_val.
  replace (IZR (10 ^ 7)) with 10000000 by reflexivity. replace (IZR (10 ^ 8)) with 100000000 by reflexivity.
  replace (IZR (44 * 10 ^ 7)) with 440000000 by reflexivity. replace (IZR (22 * 10 ^ 7)) with 220000000 by reflexivity.
  replace (-100000000) with (- (100000000)) by lra. replace (-220000000) with (- (220000000)) by lra.
  replace (-198 / 100) with (- (198 / 100)) by lra.
  repeat match goal with |- context[tanh ?a] => let x := fresh "th" in generalize (tanh a); intros x end.
  repeat match goal with |- context[exp ?a] => let x := fresh "ex" in generalize (exp a); intros x end.
  field.
Qed.

(** the rate ignores hydrogen *)
Lemma C51_h2 (s1 s2 : state (N:=XR)) t rho n0 y1 y2 :
  T s1 = Fin t -> T s2 = Fin t -> 0 < t -> rhoGas s1 = Fin rho -> rhoGas s2 = Fin rho -> 0 < rho ->
  nth_error (tarVar s1) 0 = Some (Fin n0) -> nth_error (tarVar s2) 0 = Some (Fin n0) ->
  nth_error (yGas s1) (gasIdx H2) = Some (Fin y1) -> nth_error (yGas s2) (gasIdx H2) = Some (Fin y2) -> 0 <= y1 -> 0 <= y2 ->
  crackRate (newTar T_AJ_RED) s1 = crackRate (newTar T_AJ_RED) s2.
Proof.
  intros. erewrite (C51_value s1), (C51_value s2); eauto.
Qed.

Lemma ok10 : exists s, call (newState (N:=XR) 2 0) (someArgs (Fin 300) (Fin 1) (repeat (Fin 0) 10) (map Fin [1; 1]) 2 [] 0) = SetOk s.
Proof.
  destruct (accept_ok XR_cmpLaws (newState 2 0) (someArgs (Fin 300) (Fin 1) (repeat (Fin 0) 10) (map Fin [1; 1]) 2 [] 0)) as [s' [E _]]; eauto.
  - apply someArgs_accepted; try (apply xleb_false; lra); auto.
    + intros y Hy. apply repeat_spec in Hy. subst. apply xltb_false. lra.
    + apply negFrom_fin. cbn [In]; intros; lra.
    + apply (negFrom_fin _ []). contradiction.
  - cbn; lia.
  - cbn; lia.
Qed.

(** a state with tar, reached by setState *)
Lemma C51_case : exists (s : state (N:=XR)) t rho n0 y,
  T s = Fin t /\ 0 < t /\ rhoGas s = Fin rho /\ 0 < rho /\ nth_error (tarVar s) 0 = Some (Fin n0) /\
  nth_error (yGas s) (gasIdx H2) = Some (Fin y) /\ 0 < y /\ 0 < n0.
Proof.
  destruct (argsOf_ok demoGas [0; 0] [1]) as (s & E & V & Et).
  - repeat split; cbn [gT gP gRho gMu gCMin gY gPah demoGas]; intros; lra.
  - intros; cbn; lra.
  - unfold pahVec, allPah. cbn [map fold_left gPah demoGas]. lra.
  - cbn [In]; intros; lra.
  - cbn [In]; intros; lra.
  - exists s, 1800, (1 / 5), 1, (1 / 20). rewrite (v_T _ _ _ V), (v_rho _ _ _ V), Et.
    destruct V as (_ & _ & _ & _ & Ey & _). rewrite Ey. repeat split; try reflexivity; lra.
Qed.

(** a call through the C interface that passes cMin = 50 *)
Lemma C50_case : exists (s s' : state (N:=XR)) t p rho mu yg yp sv ns tv nt,
  (11 <= length yg)%nat /\ (6 <= length yp)%nat /\ (0 <= ns <= Z.of_nat (length sv))%Z /\ (0 <= nt <= Z.of_nat (length tv))%Z /\
  setState_C s t p rho mu yg yp sv ns tv nt (Fin 50) = SetOk s' /\ cMin s' <> Fin 50.
Proof.
  destruct (ok10) as (s & E).
  exists (newState 2 0), s, (Fin 300), (Fin 1), (Fin 1), (Fin 1), eleven, six, (map Fin [1; 1]), 2%Z, [], 0%Z.
  do 4 (split; [cbn; lia|]).
  assert (E' : setState_C (newState 2 0) (Fin 300) (Fin 1) (Fin 1) (Fin 1) eleven six (map Fin [1; 1]) 2 [] 0 (Fin 50) = SetOk s).
  { rewrite C50_call by (cbn; lia). exact E. }
  split; [exact E'|].
  assert (Ec : cMin s = nZ 100).
  { refine (proj1 (C50_after XR_cmpLaws _ _ _ _ _ _ _ _ _ _ _ _ _ _ _ _ _ E')); cbn; lia. }
  rewrite Ec. change (Fin 100 <> Fin 50). intros K. assert (100 = 50) by congruence. lra.
Qed.
