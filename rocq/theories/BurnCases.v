(** Cases for C95. *)
From Coq Require Import ZArith List Bool Reals Lra Lia.
From Verif Require Import Num Defs State Coag Nucl Growth Oxid Tar SootModel Qmom Calls XR XRLemmas SpecChem SpecCoag SpecValid SpecRates SpecPsd SpecSect SpecQmom SpecStep SpecFinite SpecMarch SpecBurn
  CoagProofs ValidProofs PsdProofs MonoMain MonoCases SectProofs SectMain SectBins SectCases SectFinal ClosureProofs MarchProofs MarchMain MarchSect MarchCases DriftProofs BurnProofs BurnMain.
Import ListNotations.
Local Open Scope R_scope.

Lemma MB_burns a b : 0 < oxidFormula O_MB demoGas a b.
Proof.
  unfold oxidFormula, conc. cbv zeta. cbn [demoGas gT gRho gY]. apply Rmult_lt_0_compat; [|apply sqrt_lt_R0; lra]. apply Rmult_lt_0_compat; [lra|].
  pose proof (DriftProofs.mm_pos' OH). repeat first [apply Rdiv_lt_0_compat | apply Rmult_lt_0_compat]; lra.
Qed.
Lemma mono_burns : exists m : model (N:=XR), constructEnum P_MONO 2 N_NONE G_NONE O_MB C_NONE 0 T_NONE (Fin 2) 100 = Ok m /\ physical demoGas /\ 0 < oxidFormula O_MB demoGas 1 1.
Proof. eexists. split; [reflexivity|]. split; [exact demo_physical|apply MB_burns]. Qed.
Lemma sect_burns : exists (m : model (N:=XR)) dt, let b := geometric 100 2 4 in
  constructEnum P_SECT 4 N_NONE G_NONE O_MB C_NONE 0 T_NONE (Fin 2) 100 = Ok m /\ doubleAbove1 2 /\ SpecSect.sane 4 /\ physical demoGas /\ 0 < oxidFormula O_MB demoGas 1 1 /\ 0 < dt /\
  0 < mass b [1; 0; 1; 0] /\ forall j, (j < 4)%nat -> dt * (oxidFormula O_MB demoGas 1 1 * sphere (el b j) / gap b j) <= 1.
Proof.
  set (b := geometric 100 2 4). assert (GG : goodBins b) by (apply geo_good; [lia|lia|lra]). assert (LB : length b = 4%nat) by (unfold b; now rewrite geo_len).
  set (h j := oxidFormula O_MB demoGas 1 1 * sphere (el b j) / gap b j).
  assert (BP : forall j, (j < 4)%nat -> 0 < el b j) by (intros; apply (bins_pos b GG); lia).
  assert (Hn : forall j, (j < 4)%nat -> 0 <= h j).
  { intros j Hj. unfold h. assert (0 < gap b j). { unfold gap. destruct (Nat.eqb_spec j 0); [apply BP; lia|]. assert (el b (j - 1) < el b j) by (apply (bins_lt b GG); lia). lra. }
    left. apply Rdiv_lt_0_compat; [|assumption]. apply Rmult_lt_0_compat; [apply MB_burns|]. rewrite sphere_pow by auto. apply Rmult_lt_0_compat; [exact areaCoef_pos'|apply exp_pos]. }
  set (a := h 0%nat + h 1%nat + h 2%nat + h 3%nat).
  pose proof (Hn 0%nat ltac:(lia)); pose proof (Hn 1%nat ltac:(lia)); pose proof (Hn 2%nat ltac:(lia)); pose proof (Hn 3%nat ltac:(lia)).
  assert (Ha : 0 <= a) by (unfold a; lra). destruct (short_enough _ Ha) as (A & B).
  assert (D2 : doubleAbove1 2). { unfold doubleAbove1. assert (0 < / 2 ^ 52 < 1); [|lra]. split; [apply Rinv_0_lt_compat; lra|]. rewrite <- Rinv_1. apply Rinv_lt_contravar; lra. }
  eexists. exists (/ (1 + a)). cbv zeta. split; [reflexivity|]. split; [exact D2|]. split; [split; [lia|reflexivity || (vm_compute; discriminate)]|].
  split; [exact demo_physical|]. split; [apply MB_burns|]. split; [exact A|]. split.
  - unfold mass, dot, SpecRates.sumR. assert (E : b = [el b 0; el b 1; el b 2; el b 3]) by reflexivity. pose proof (BP 0%nat ltac:(lia)). pose proof (BP 2%nat ltac:(lia)).
    rewrite E. cbn [combine map fst snd fold_right]. lra.
  - intros j Hj. fold (h j). assert (h j <= a) by (unfold a; destruct j as [|[|[|[|]]]]; try lia; lra).
    apply Rle_trans with (/ (1 + a) * a); [|lra]. apply Rmult_le_compat_l; lra.
Qed.
