(** C87 over exact arithmetic: the objects after a caught exception. *)
From Coq Require Import ZArith List Bool Reals Lra Lia.
From Verif Require Import Num Defs State Coag Nucl Growth Oxid Tar SootModel Qmom Calls Catch XR SpecState SpecChem SpecCoag SpecValid SpecRates SpecPah SpecPsd SpecSect SpecQmom PahProofs QmomRun QmomMain QmomFinal QmomSame ValidProofs LognCases MonoProofs CatchProofs.
Import ListNotations.
Local Open Scope R_scope.

Lemma C87_left_ m s g k soot p eig st : readyQmom m s g k soot p -> mC k <> C_NONE -> (18 <= p)%nat ->
  setSourceTerms st eig m s = Throw ERunBinomial /\
  exists m' s' w x, tryCall st eig m s = Ok (st, m', s') /\ nodesAre s' w x /\ nodesOf eig soot p w x /\
    valid s' (oGas (nucl k g (nodeHits k g w x))) soot /\ sm_sources m' = sm_sources m /\ hasAll m' k /\ isQmom m' s' p.
Proof.
  intros RD NC Hp. pose proof (C35_throws m s g k soot p eig st RD NC Hp) as ET. split; [exact ET|].
  destruct (r_nodes m s g k soot p eig RD) as (w & x & EN & Lw & Lx & NW & NX & ND & _). pose proof RD as (HQ & HM & OM & V & L & RG).
  pose proof HQ as (EP & En & P1 & _ & _).
  pose proof (q_chem m s g k soot p eig w x HQ HM OM V L RG EN Lw Lx NW) as EC.
  set (i := nodeHits k g w x) in *. destruct (outM_rest k g m i []) as (R1 & R2 & R3 & R4 & R5 & R6 & R7 & R8).
  set (s1 := with_wa s (map Fin w) (map Fin x)) in *. destruct (outS_rest k g s1) as (W & A & _).
  exists (outM k g m i []), (outS k g s1), w, x.
  split; [|split; [split; [exact W|exact A]|split; [exact ND|split; [exact (outS_valid k s1 g soot i (valid_wa _ _ _ _ _ V))|split; [exact R8|split]]]]].
  - unfold tryCall. rewrite ET, EP. unfold leftQMOM. rewrite (v_soot _ _ _ V), EN. cbn [bind]. fold s1. rewrite EC. reflexivity.
  - exact (outM_all k g m i [] HM).
  - unfold isQmom. rewrite R1, R2, W, A. unfold s1. cbn [wts absc with_wa]. rewrite !map_length. auto.
Qed.
(** 36 moments of one size: nucleation runs, the node is found, the sources stay zero *)
Lemma C87_case_ nm : nm = N_LL \/ nm = N_PAH -> exists m s, constructEnum P_QMOM 36 nm G_LL O_LL C_FM 0 T_NONE (Fin 2) 100 = Ok m /\
  call (newState 36 0) (argsOf demoGas (repeat 1 36) []) = SetOk s /\ readyQmom m s demoGas (mkMechs nm G_LL O_LL C_FM 1) (repeat 1 36) 18 /\
  coagOn m = true /\ sm_sources m = newSources 36 0.
Proof.
  intros Hn. destruct (quad_case nm G_LL O_LL (repeat 1 36) 18) as (m & s & E & ES & RD); try tauto; try lia; [intros y Hy; apply repeat_spec in Hy; lra|].
  exists m, s. split; [exact E|]. split; [exact ES|]. split; [exact RD|].
  destruct Hn as [-> | ->]; cbn [constructEnum mkNuclEnum mkGrowEnum mkOxidEnum mkCoagEnum mkTarEnum bind] in E; unfold build in E; cbn [derivedCheck co_mech newCoag ta_mech newTar] in E;
    change (Nat.eqb (36 mod 2) 1 || Nat.ltb 36 1)%bool with false in E; cbn iota in E; cbn [needNoTar bind] in E;
    apply (f_equal (fun r => match r with Ok x => x | _ => m end)) in E; rewrite <- E; split; reflexivity.
Qed.
