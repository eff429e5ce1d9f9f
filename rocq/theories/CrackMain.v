(** C93 as stated. *)
From Coq Require Import ZArith List Bool Reals Lra.
From Verif Require Import Num Defs State Coag Nucl Growth Oxid Tar SootModel Mono Calls XR
  SpecChem SpecCoag SpecValid SpecRates SpecGas SpecTar SpecPsd ValidProofs MonoTar CrackProofs.
Import ListNotations.
Local Open Scope R_scope.

Lemma creates_main (s : state (N:=XR)) g soot n0 tr : valid s g soot -> tarVar s = Fin n0 :: tr ->
  gT g <= 2500 -> 1 <= n0 <= 10 ^ 5 -> exists r, crackRate (newTar T_AJ_RED) s = Ok (Fin r) /\ r < 0.
Proof. intros V E. exact (creates_rate s g soot V n0 tr E). Qed.
Lemma consumes_main (s : state (N:=XR)) g soot n0 tr : valid s g soot -> tarVar s = Fin n0 :: tr ->
  gT g <= 2500 -> 10 ^ 9 <= n0 <= 10 ^ 25 -> exists r, crackRate (newTar T_AJ_RED) s = Ok (Fin r) /\ 0 < r.
Proof. intros V E. exact (consumes_rate s g soot V n0 tr E). Qed.
Lemma balance_main g : gT g <= 2500 -> exists n0, 10 ^ 5 < n0 < 10 ^ 9 /\
  forall (s : state (N:=XR)) soot tr, valid s g soot -> tarVar s = Fin n0 :: tr -> crackRate (newTar T_AJ_RED) s = Ok (Fin 0).
Proof.
  intros H. destruct (Rlt_dec 0 (gT g)) as [K|K].
  - destruct (balance_l (gT g) (conj K H)) as (n0 & B & E). exists n0. split; [exact B|]. intros s soot tr V Et.
    rewrite <- E. exact (crackAJ_val s g soot V n0 tr Et).
  - exists (10 ^ 6). split; [split; lra|]. intros s soot tr V _. pose proof (v_Tpos _ _ _ V). contradiction.
Qed.
Lemma nothing_main (m : model (N:=XR)) s g k w x mt n0 ts0 st eig :
  sm_psd m = P_MONO -> hasMechs m k -> okAny k -> mN k = N_NONE -> valid s g [0; 0] -> regular k g 0 0 ->
  wts s = [Fin w] -> absc s = [Fin x] -> 0 < mt -> mtar s = Fin mt -> tarVar s = [Fin n0] ->
  tarSources (sm_sources m) = [Fin ts0] -> sm_tar m = newTar T_AJ_RED -> gY g CO2 = 0 -> gY g H2O = 0 ->
  gT g <= 2500 -> 1 <= n0 <= 10 ^ 5 ->
  exists m' s' z r, setSourceTerms st eig m s = Ok (st, m', s') /\
    tarSources (sm_sources m') = [Fin r] /\ 0 < r /\ soots m' = [z; Fin 0] /\ holdsGas (gases m') (fun _ => 0).
Proof.
  intros Hp HM OM HN V RG EW EA Pm Em Et Es HT Y1 Y2 Ht Hn.
  destruct (aj_alone m s g k w x mt n0 ts0 st eig Hp HM OM HN V RG EW EA Pm Em Et Es HT Y1 Y2) as (m' & s' & z & A & B & C & D).
  exists m', s', z, (- crackingReduced (gT g) n0). repeat split; try assumption.
  - pose proof (creates_l (gT g) n0 (conj (v_Tpos _ _ _ V) Ht) Hn). lra.
  - apply C.
  - apply C.
Qed.
