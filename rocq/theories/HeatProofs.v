(** Lemmas for C77: rates and temperature. *)
From Coq Require Import ZArith List Bool Reals Lra Lia.
From Verif Require Import Num Defs State Coag Nucl Growth Oxid Tar SootModel Qmom Calls XR XRLemmas SpecChem SpecCoag SpecValid SpecRates SpecGas SpecState SpecTar SpecPah SpecPsd SpecHeat
  CoagProofs MiscProofs ValidProofs RateProofs PsdProofs PahProofs MonoMain MonoCases RichProofs.
Import ListNotations.
Local Open Scope R_scope.

Lemma exp_mono x y : x <= y -> exp x <= exp y.
Proof. intros [H| ->]; [left; now apply exp_increasing|lra]. Qed.
Lemma div_up a t u : 0 <= a -> 0 < t -> t <= u -> a / u <= a / t.
Proof. intros A T U. unfold Rdiv. apply Rmult_le_compat_l; [exact A|]. now apply Rinv_le_contravar. Qed.
Lemma arrh a t u : 0 <= a -> 0 < t -> t <= u -> exp (- a / t) <= exp (- a / u).
Proof. intros A T U. apply exp_mono. pose proof (div_up a t u A T U). unfold Rdiv in *. lra. Qed.

Lemma fair_math t u : 0 < t -> t < u -> u <= 2 * 39000 / (1987 / 1000) -> sqrt u * exp (39000 / (1987 / 1000 * u)) < sqrt t * exp (39000 / (1987 / 1000 * t)).
Proof.
  intros TP TL TB. set (a := 39000 / (1987 / 1000)). assert (TB' : u <= 2 * a) by (unfold a; lra).
  replace (39000 / (1987 / 1000 * u)) with (a / u) by (unfold a; field; lra). replace (39000 / (1987 / 1000 * t)) with (a / t) by (unfold a; field; lra).
  assert (E1 : u / t < exp ((u - t) / t)). { replace (u / t) with (1 + (u - t) / t) by (field; lra). apply exp_ineq1. assert (0 < (u - t) / t) by (apply Rdiv_lt_0_compat; lra). lra. }
  assert (E2 : sqrt (u / t) < exp ((u - t) / t / 2)).
  { replace (exp ((u - t) / t / 2)) with (sqrt (exp ((u - t) / t))). apply sqrt_lt_1_alt; split; [apply Rlt_le, Rdiv_lt_0_compat; lra|exact E1].
    replace (exp ((u - t) / t)) with (exp ((u - t) / t / 2) * exp ((u - t) / t / 2)) by (rewrite <- exp_plus; f_equal; field; lra). apply sqrt_square. apply Rlt_le, exp_pos. }
  assert (E3 : exp ((u - t) / t / 2) <= exp (a / t - a / u)).
  { apply exp_mono. replace (a / t - a / u) with ((u - t) / t * (a / u)) by (field; lra). unfold Rdiv at 2. apply Rmult_le_compat_l; [apply Rlt_le, Rdiv_lt_0_compat; lra|].
    apply Rmult_le_reg_r with u; [lra|]. replace (a / u * u) with a by (field; lra). lra. }
  assert (EU : sqrt u = sqrt t * sqrt (u / t)). { rewrite <- sqrt_mult; [f_equal; field; lra|lra|apply Rlt_le, Rdiv_lt_0_compat; lra]. }
  assert (ET : exp (a / t) = exp (a / u) * exp (a / t - a / u)) by (rewrite <- exp_plus; f_equal; ring).
  rewrite EU, ET. assert (0 < sqrt t) by (apply sqrt_lt_R0; lra). pose proof (exp_pos (a / u)).
  replace (sqrt t * sqrt (u / t) * exp (a / u)) with (sqrt t * exp (a / u) * sqrt (u / t)) by ring. rewrite <- Rmult_assoc. apply Rmult_lt_compat_l; [now apply Rmult_lt_0_compat|lra].
Qed.

Section Two.
Context (s s' : state (N:=XR)) (g g' : gas) (soot : list R) (V : valid s g soot) (V' : valid s' g' soot) (HO : hotter g g').
Let TP : 0 < gT g := v_Tpos _ _ _ V.
Let TU : gT g <= gT g'. Proof. apply HO. Qed.
Lemma conc_hot x : conc g' x = conc g x.
Proof. destruct HO as (_ & ER & _ & EY). unfold conc. now rewrite ER, EY. Qed.
Lemma conc_nn x : 0 <= conc g x.
Proof.
  pose proof (mm_pos x) as M. assert (R0 : 0 < gRho g) by exact (v_rhopos _ _ _ V). assert (Y : 0 <= gY g x) by (pose proof V as ((_ & _ & _ & _ & _ & Y & _) & _); apply Y).
  unfold conc. apply Rmult_le_pos; [apply Rmult_le_pos; lra|]. now apply Rlt_le, Rinv_0_lt_compat.
Qed.
Lemma sqrt_hot : 0 < sqrt (gT g) <= sqrt (gT g').
Proof. split; [now apply sqrt_lt_R0|now apply sqrt_le_1_alt]. Qed.
(** pressure over root of temperature *)
Lemma press_root h (P : 0 < gT h) x : partialP h x / sqrt (gT h) = conc h x * (avogadro * boltzmann) * sqrt (gT h).
Proof.
  assert (Q : 0 < sqrt (gT h)) by now apply sqrt_lt_R0. unfold partialP. rewrite <- (sqrt_sqrt (gT h)) at 1 by lra. field. lra.
Qed.
Lemma root_hot x : 0 <= partialP g x / sqrt (gT g) <= partialP g' x / sqrt (gT g').
Proof.
  pose proof sqrt_hot as (A & B). rewrite !press_root by lra. rewrite conc_hot. pose proof (conc_nn x). pose proof avo_pos. pose proof boltz_pos.
  assert (0 <= conc g x * (avogadro * boltzmann)) by (apply Rmult_le_pos; [assumption|apply Rmult_le_pos; lra]).
  split; [apply Rmult_le_pos; lra|apply Rmult_le_compat_l; lra].
Qed.
Lemma nucl_hot c : nuclFormula c g <= nuclFormula c g'.
Proof.
  pose proof (conc_nn C2H2). pose proof (conc_nn C6H6). pose proof (v_cMinpos _ _ _ V). pose proof avo_pos.
  assert (PP : forall a, 0 <= a -> 0 <= perParticle g a) by (intros; unfold perParticle; apply Rmult_le_pos; [apply Rmult_le_pos; lra|now apply Rlt_le, Rinv_0_lt_compat]).
  assert (EP : forall a, perParticle g' a = perParticle g a) by (intros; unfold perParticle; destruct HO as (_ & _ & EC & _); now rewrite EC).
  unfold nuclFormula. rewrite !EP, !conc_hot. cbv zeta beta.
  destruct c; try lra; (apply Rmult_le_compat_r; [first [apply PP; lra|lra]|]); (apply Rmult_le_compat_r; [assumption|]); (apply Rmult_le_compat_l; [lra|]); apply arrh; auto; lra.
Qed.
Lemma grow_hot c M0 M1 : c <> G_HACA -> growFormula c g M0 M1 <= growFormula c g' M0 M1.
Proof.
  intros NH. pose proof (conc_nn C2H2) as PC. pose proof massC_pos. unfold growFormula. rewrite !conc_hot. cbv zeta.
  assert (A1 := arrh 12100 (gT g) (gT g') ltac:(lra) TP TU). assert (A2 := arrh (24000 / (1987 / 1000)) (gT g) (gT g') ltac:(lra) TP TU).
  destruct c; try lra; try congruence.
  - destruct (Rlt_dec 0 (surface M0 M1)) as [Q|]; [|lra]. apply Rmult_le_compat_r; [lra|]. unfold Rdiv at 2 4. apply Rmult_le_compat_r; [apply Rlt_le, Rinv_0_lt_compat; now apply sqrt_lt_R0|].
    apply Rmult_le_compat_r; [exact PC|]. apply Rmult_le_compat_l; [lra|exact A1].
  - apply Rmult_le_compat_r; [lra|]. apply Rmult_le_compat_r; [exact PC|]. apply Rmult_le_compat_l; [lra|exact A1].
  - destruct (Rlt_dec 0 (surface M0 M1)); [|lra]. destruct (Rlt_dec 0 (conc g C2H2)); [|lra]. apply Rmult_le_compat_r; [unfold Rpower; apply Rlt_le, exp_pos|]. apply Rmult_le_compat_l; [lra|exact A1].
  - destruct (Rlt_dec 0 (surface M0 M1)); [|lra]. apply Rmult_le_compat_r; [lra|]. apply Rmult_le_compat_r; [exact PC|]. apply Rmult_le_compat_l; [lra|exact A2].
Qed.
Lemma hits_hot e : 0 <= e -> hitsOH g e <= hitsOH g' e.
Proof.
  intros E. pose proof (conc_nn OH). pose proof massC_pos. pose proof avo_pos. pose proof boltz_pos. pose proof piC_pos. pose proof (mm_pos OH).
  unfold hitsOH. rewrite conc_hot. apply Rmult_le_compat_r; [lra|]. apply Rmult_le_compat_l; [now apply Rmult_le_pos|]. apply sqrt_le_1_alt.
  unfold Rdiv. apply Rmult_le_compat_r; [apply Rlt_le, Rinv_0_lt_compat; repeat apply Rmult_lt_0_compat; lra|]. apply Rmult_le_compat_l; [apply Rmult_le_pos; lra|exact TU].
Qed.
Lemma mul_up a b c d : 0 <= a <= b -> 0 <= c <= d -> a * c <= b * d.
Proof. intros A B. apply Rmult_le_compat; lra. Qed.
Lemma arrh' a : 0 <= a -> 0 <= exp (- a / gT g) <= exp (- a / gT g').
Proof. intros A. split; [apply Rlt_le, exp_pos|now apply arrh]. Qed.
Lemma arrhR a : 0 <= a -> 0 <= exp (- a / (avogadro * boltzmann * gT g)) <= exp (- a / (avogadro * boltzmann * gT g')).
Proof.
  intros A. split; [apply Rlt_le, exp_pos|]. pose proof avo_pos. pose proof boltz_pos. assert (Q : 0 < avogadro * boltzmann) by now apply Rmult_lt_0_compat.
  apply arrh; [exact A|now apply Rmult_lt_0_compat|]. apply Rmult_le_compat_l; lra.
Qed.
Lemma oxid_hot c M0 M1 : activated c -> oxidFormula c g M0 M1 <= oxidFormula c g' M0 M1.
Proof.
  intros (N1 & N2 & N3). pose proof sqrt_hot as (SQ & SU). assert (SP' : 0 < sqrt (gT g')) by lra. pose proof (conc_nn O2) as PO. pose proof (conc_nn OH) as PH. pose proof massC_pos.
  pose proof (root_hot O2) as RO. pose proof (root_hot OH) as RH.
  unfold oxidFormula, atm. cbv zeta. destruct c; try lra; try congruence.
  - rewrite conc_hot. apply Rmult_le_compat_r; [lra|]. apply Rmult_le_compat_r; [exact PO|]. apply mul_up; [lra|]. exact (arrh' 19680 ltac:(lra)).
  - pose proof (hits_hot (13 / 100) ltac:(lra)). pose proof (mul_up _ _ _ _ RO (arrh' (1977824 / 100) ltac:(lra))).
    replace (10850 * (partialP g O2 / 101325) / sqrt (gT g) * exp (- (1977824 / 100) / gT g) / 1000) with (10850 / 101325 / 1000 * (partialP g O2 / sqrt (gT g) * exp (- (1977824 / 100) / gT g))) by (field; lra).
    replace (10850 * (partialP g' O2 / 101325) / sqrt (gT g') * exp (- (1977824 / 100) / gT g') / 1000) with (10850 / 101325 / 1000 * (partialP g' O2 / sqrt (gT g') * exp (- (1977824 / 100) / gT g'))) by (field; lra).
    lra.
  - rewrite conc_hot. apply Rmult_le_compat_l; [lra|exact SU].
  - assert (partialP g O2 / sqrt (gT g) * exp (- 116000 / (avogadro * boltzmann * gT g)) <= partialP g' O2 / sqrt (gT g') * exp (- 116000 / (avogadro * boltzmann * gT g'))) by exact (mul_up _ _ _ _ RO (arrhR 116000 ltac:(lra))).
    replace ((192 / 100000 * partialP g O2 * exp (- 116000 / (avogadro * boltzmann * gT g)) + 293 / 100000 * partialP g OH) / sqrt (gT g)) with (192 / 100000 * (partialP g O2 / sqrt (gT g) * exp (- 116000 / (avogadro * boltzmann * gT g))) + 293 / 100000 * (partialP g OH / sqrt (gT g))) by (unfold Rdiv; ring).
    replace ((192 / 100000 * partialP g' O2 * exp (- 116000 / (avogadro * boltzmann * gT g')) + 293 / 100000 * partialP g' OH) / sqrt (gT g')) with (192 / 100000 * (partialP g' O2 / sqrt (gT g') * exp (- 116000 / (avogadro * boltzmann * gT g'))) + 293 / 100000 * (partialP g' OH / sqrt (gT g'))) by (unfold Rdiv; ring).
    lra.
  - assert (partialP g O2 / sqrt (gT g) * exp (- 164500000 / (avogadro * boltzmann * gT g)) <= partialP g' O2 / sqrt (gT g') * exp (- 164500000 / (avogadro * boltzmann * gT g'))) by exact (mul_up _ _ _ _ RO (arrhR 164500000 ltac:(lra))).
    replace (109000 * (partialP g O2 / 101325) / sqrt (gT g) * exp (- 164500000 / (avogadro * boltzmann * gT g))) with (109000 / 101325 * (partialP g O2 / sqrt (gT g) * exp (- 164500000 / (avogadro * boltzmann * gT g)))) by (unfold Rdiv; ring).
    replace (109000 * (partialP g' O2 / 101325) / sqrt (gT g') * exp (- 164500000 / (avogadro * boltzmann * gT g'))) with (109000 / 101325 * (partialP g' O2 / sqrt (gT g') * exp (- 164500000 / (avogadro * boltzmann * gT g')))) by (unfold Rdiv; ring).
    lra.
  - pose proof (hits_hot (15 / 100) ltac:(lra)). assert (partialP g O2 / sqrt (gT g) * exp (- 21294 / gT g) <= partialP g' O2 / sqrt (gT g') * exp (- 21294 / gT g')) by exact (mul_up _ _ _ _ RO (arrh' 21294 ltac:(lra))).
    replace (798 / 1000 * partialP g O2 / sqrt (gT g) * exp (- 21294 / gT g) / 1000) with (798 / 1000 / 1000 * (partialP g O2 / sqrt (gT g) * exp (- 21294 / gT g))) by (unfold Rdiv; ring).
    replace (798 / 1000 * partialP g' O2 / sqrt (gT g') * exp (- 21294 / gT g') / 1000) with (798 / 1000 / 1000 * (partialP g' O2 / sqrt (gT g') * exp (- 21294 / gT g'))) by (unfold Rdiv; ring).
    lra.
  - pose proof (hits_hot (1 / 10) ltac:(lra)). assert (partialP g O2 / sqrt (gT g) * exp (- 23450 / gT g) <= partialP g' O2 / sqrt (gT g') * exp (- 23450 / gT g')) by exact (mul_up _ _ _ _ RO (arrh' 23450 ltac:(lra))).
    replace (158 / 10 * partialP g O2 / sqrt (gT g) * exp (- 23450 / gT g) / 1000) with (158 / 10 / 1000 * (partialP g O2 / sqrt (gT g) * exp (- 23450 / gT g))) by (unfold Rdiv; ring).
    replace (158 / 10 * partialP g' O2 / sqrt (gT g') * exp (- 23450 / gT g') / 1000) with (158 / 10 / 1000 * (partialP g' O2 / sqrt (gT g') * exp (- 23450 / gT g'))) by (unfold Rdiv; ring).
    lra.
Qed.
(** the sign of the exponent of FAIR oxidation *)
Lemma fair_cold M0 M1 : gT g < gT g' -> gT g' <= 2 * 39000 / (1987 / 1000) -> 0 < gY g O2 -> oxidFormula O_FAIR g' M0 M1 < oxidFormula O_FAIR g M0 M1.
Proof.
  intros TL TB YO. assert (PO : 0 < conc g O2).
  { pose proof (mm_pos O2) as M. assert (R0 : 0 < gRho g) by exact (v_rhopos _ _ _ V). unfold conc. apply Rdiv_lt_0_compat; [now apply Rmult_lt_0_compat|exact M]. }
  unfold oxidFormula. cbv zeta. rewrite conc_hot. apply Rmult_lt_compat_r; [exact PO|]. rewrite !(Rmult_assoc 17800). apply Rmult_lt_compat_l; [lra|].
  apply fair_math; [exact TP|exact TL|exact TB].
Qed.
End Two.
