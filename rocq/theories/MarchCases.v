(** Cases for C94. *)
From Coq Require Import ZArith List Bool Reals Lra Lia.
From Verif Require Import Num Defs State Coag Nucl Growth Oxid Tar SootModel Qmom Calls XR XRLemmas SpecChem SpecCoag SpecValid SpecRates SpecPsd SpecSect SpecStep SpecFinite SpecMarch
  CoagProofs ValidProofs PsdProofs MonoMain MonoCases SectProofs SectCases SectFinal MarchProofs MarchMain MarchSect.
Import ListNotations.
Local Open Scope R_scope.

(** a step that is short enough for a bound of the loss *)
Lemma short_enough a : 0 <= a -> 0 < / (1 + a) /\ / (1 + a) * a < 1.
Proof. intros H. split; [apply Rinv_0_lt_compat; lra|]. apply (Rmult_lt_reg_l (1 + a)); [lra|]. rewrite <- Rmult_assoc, Rinv_r by lra. lra. Qed.
Lemma mono_case co : co = C_FM \/ co = C_CONTINUUM \/ co = C_HM \/ co = C_FUCHS -> exists (m : model (N:=XR)) dt,
  constructEnum P_MONO 2 N_NONE G_NONE O_NONE co 0 T_NONE (Fin 2) 100 = Ok m /\ physical demoGas /\ massCutoff < 1 / 1 /\ 0 < dt /\ dt * quickest co demoGas 1 1 < 1.
Proof.
  intros H. destruct (demo_any (newState 2 0) [1; 1] [] eq_refl eq_refl eq_refl in11) as (s & _ & V & _); [intros ? []|].
  assert (Q : 0 <= quickest co demoGas 1 1).
  { unfold quickest, monoLoss0. apply Rmult_le_pos; [|lra]. apply Rmult_le_pos; [lra|]. apply (kernel_nneg s demoGas [1; 1]); [exact V|cbn [coagulate mF]; lra]. }
  destruct (short_enough _ Q) as (A & B). eexists. exists (/ (1 + quickest co demoGas 1 1)). split; [destruct H as [->|[->|[->| ->]]]; reflexivity|].
  split; [exact demo_physical|]. split; [pose proof cut_small; lra|]. auto.
Qed.
Lemma sect_case co : co = C_FM \/ co = C_CONTINUUM \/ co = C_HM \/ co = C_FUCHS -> exists (m : model (N:=XR)) dt, let b := geometric 100 2 4 in
  constructEnum P_SECT 4 N_NONE G_NONE O_NONE co 0 T_NONE (Fin 2) 100 = Ok m /\ doubleAbove1 2 /\ SpecSect.sane 4 /\ physical demoGas /\ 0 < dt /\
  0 < mass b [1; 0; 1; 0] /\ forall i j, (i < 4)%nat -> (j < 4)%nat -> dt * (kernel (coagulate co) demoGas (el b i) (el b j) * number [1; 0; 1; 0]) <= 1.
Proof.
  intros H. set (b := geometric 100 2 4). destruct (demo_any (newState 2 0) [1; 1] [] eq_refl eq_refl eq_refl in11) as (s & _ & V & _); [intros ? []|].
  set (h i j := kernel (coagulate co) demoGas (el b i) (el b j) * 2).
  assert (Hn : forall i j, 0 <= h i j). { intros i j. unfold h. apply Rmult_le_pos; [|lra]. apply (kernel_nneg s demoGas [1; 1]); [exact V|cbn [coagulate mF]; lra]. }
  set (a := Sum 4 (fun i => Sum 4 (fun j => h i j))). assert (Ha : 0 <= a) by (apply Sum_nneg; intros; apply Sum_nneg; auto).
  assert (Hh : forall i j, (i < 4)%nat -> (j < 4)%nat -> h i j <= a).
  { intros i j Hi Hj. unfold a, Sum, SpecRates.sumR. cbn [seq map fold_right].
    pose proof (Hn 0 0)%nat; pose proof (Hn 0 1)%nat; pose proof (Hn 0 2)%nat; pose proof (Hn 0 3)%nat; pose proof (Hn 1 0)%nat; pose proof (Hn 1 1)%nat; pose proof (Hn 1 2)%nat; pose proof (Hn 1 3)%nat;
    pose proof (Hn 2 0)%nat; pose proof (Hn 2 1)%nat; pose proof (Hn 2 2)%nat; pose proof (Hn 2 3)%nat; pose proof (Hn 3 0)%nat; pose proof (Hn 3 1)%nat; pose proof (Hn 3 2)%nat; pose proof (Hn 3 3)%nat.
    destruct i as [|[|[|[|]]]]; try lia; destruct j as [|[|[|[|]]]]; try lia; lra. }
  destruct (short_enough _ Ha) as (A & B). assert (D2 : doubleAbove1 2). { unfold doubleAbove1. assert (0 < / 2 ^ 52 < 1); [|lra]. split; [apply Rinv_0_lt_compat; lra|]. rewrite <- Rinv_1. apply Rinv_lt_contravar; lra. }
  eexists. exists (/ (1 + a)). cbv zeta. split; [destruct H as [->|[->|[->| ->]]]; reflexivity|]. split; [exact D2|]. split; [split; [lia|reflexivity || (vm_compute; discriminate)]|].
  split; [exact demo_physical|]. split; [exact A|]. split.
  - destruct (geo_good 100 2 4 ltac:(lia) ltac:(lia) ltac:(lra)) as (_ & P0 & _). unfold mass, dot, SpecRates.sumR. fold b in P0.
    assert (E : b = [el b 0; el b 1; el b 2; el b 3]) by reflexivity.
    assert (P2 : 0 < el b 2) by (apply (bins_pos b); [apply geo_good; [lia|lia|lra]|unfold b; rewrite geo_len; lia]).
    rewrite E. cbn [combine map fst snd fold_right]. lra.
  - intros i j Hi Hj. replace (number [1; 0; 1; 0]) with 2 by (unfold number, SpecRates.sumR; cbn [fold_right]; ring). fold (h i j). pose proof (Hh i j Hi Hj). pose proof (Hn i j).
    apply Rle_trans with (/ (1 + a) * a); [|lra]. apply Rmult_le_compat_l; lra.
Qed.
