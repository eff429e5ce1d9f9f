(** Cases for C96. *)
From Coq Require Import ZArith List Bool Reals Lra Lia.
From Verif Require Import Num Defs State Coag Nucl Growth Oxid Tar SootModel Qmom Calls XR XRLemmas SpecChem SpecCoag SpecValid SpecRates SpecPsd SpecSect SpecQmom SpecStep SpecFinite SpecMarch SpecBurn SpecGrow
  CoagProofs RateProofs ValidProofs PsdProofs MonoMain MonoCases SectProofs SectMain SectBins SectCases SectFinal ClosureProofs MarchProofs MarchMain MarchSect MarchCases DriftProofs BurnProofs BurnMain GrowMain.
Import ListNotations.
Local Open Scope R_scope.

Lemma LIN_grows a b : 0 < growFormula G_LIN demoGas a b.
Proof.
  unfold growFormula, conc. cbv zeta. cbn [demoGas gT gRho gY]. pose proof massC_pos. pose proof (DriftProofs.mm_pos' C2H2). apply Rmult_lt_0_compat; [|lra]. apply Rmult_lt_0_compat; [|apply Rdiv_lt_0_compat; lra].
  apply Rmult_lt_0_compat; [lra|apply exp_pos].
Qed.
Lemma mono_grows : exists m : model (N:=XR), constructEnum P_MONO 2 N_NONE G_LIN O_NONE C_NONE 0 T_NONE (Fin 2) 100 = Ok m /\ ageless G_LIN /\ physical demoGas /\ 0 < growFormula G_LIN demoGas 1 1.
Proof. eexists. split; [reflexivity|]. split; [now left|]. split; [exact demo_physical|apply LIN_grows]. Qed.
Lemma sect_grows : exists (m : model (N:=XR)) dt, let b := geometric 100 2 4 in
  constructEnum P_SECT 4 N_NONE G_LIN O_NONE C_NONE 0 T_NONE (Fin 2) 100 = Ok m /\ doubleAbove1 2 /\ SpecSect.sane 4 /\ ageless G_LIN /\ physical demoGas /\ 0 < growFormula G_LIN demoGas 1 1 /\ 0 < dt /\
  0 < mass b [1; 0; 1; 0] /\ forall j, (S j < 4)%nat -> dt * (growFormula G_LIN demoGas 1 1 * sphere (el b j) / (el b (S j) - el b j)) <= 1.
Proof.
  set (b := geometric 100 2 4). assert (GG : goodBins b) by (apply geo_good; [lia|lia|lra]). assert (LB : length b = 4%nat) by (unfold b; now rewrite geo_len).
  set (h j := growFormula G_LIN demoGas 1 1 * sphere (el b j) / (el b (S j) - el b j)).
  assert (BP : forall j, (j < 4)%nat -> 0 < el b j) by (intros; apply (bins_pos b GG); lia).
  assert (Hn : forall j, (S j < 4)%nat -> 0 <= h j).
  { intros j Hj. unfold h. assert (el b j < el b (S j)) by (apply (bins_lt b GG); lia).
    left. apply Rdiv_lt_0_compat; [|lra]. apply Rmult_lt_0_compat; [apply LIN_grows|]. rewrite sphere_pow by (apply BP; lia). apply Rmult_lt_0_compat; [exact areaCoef_pos'|apply exp_pos]. }
  set (a := h 0%nat + h 1%nat + h 2%nat).
  pose proof (Hn 0%nat ltac:(lia)); pose proof (Hn 1%nat ltac:(lia)); pose proof (Hn 2%nat ltac:(lia)).
  assert (Ha : 0 <= a) by (unfold a; lra). destruct (short_enough _ Ha) as (A & B).
  assert (D2 : doubleAbove1 2). { unfold doubleAbove1. assert (0 < / 2 ^ 52 < 1); [|lra]. split; [apply Rinv_0_lt_compat; lra|]. rewrite <- Rinv_1. apply Rinv_lt_contravar; lra. }
  eexists. exists (/ (1 + a)). cbv zeta. split; [reflexivity|]. split; [exact D2|]. split; [split; [lia|reflexivity || (vm_compute; discriminate)]|].
  split; [now left|]. split; [exact demo_physical|]. split; [apply LIN_grows|]. split; [exact A|]. split.
  - unfold mass, dot, SpecRates.sumR. assert (E : b = [el b 0; el b 1; el b 2; el b 3]) by reflexivity. pose proof (BP 0%nat ltac:(lia)). pose proof (BP 2%nat ltac:(lia)).
    rewrite E. cbn [combine map fst snd fold_right]. lra.
  - intros j Hj. fold (h j). assert (h j <= a) by (unfold a; destruct j as [|[|[|]]]; try lia; lra).
    apply Rle_trans with (/ (1 + a) * a); [|lra]. apply Rmult_le_compat_l; lra.
Qed.
