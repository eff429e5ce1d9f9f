(** Property C75: with PAH nucleation, setState forgets the past.  For every number type. *)
From Coq Require Import ZArith List Reals Lra.
From Verif Require Import Num Defs State Coag Nucl Growth Oxid Tar SootModel Qmom Calls XR SpecSafe SpecState SpecHist SpecValid SpecPsd SpecPah StateProofs ValidProofs PsdProofs SafeMain SafeProofs MonoMain MonoCases PahMain HistMain PahHist.
Import ListNotations.

(** two objects built alike, with different histories, both set to the same accepted conditions:
    the next evaluation ends the same way, with the same soot, gas, tar and PAH sources, although PAH
    nucleation overwrites cMin and the mechanism's own ratios and rates at every evaluation
    ([g] is the static of the sectional model: see C30) *)
Theorem C75_histories : forall (N : Num) n nt newed p (nu : nuclObj (N:=N)) gr ox co ta F k m T_ P_ rho mu yg yp sv ns tv nT c s0 l1 l2 ga gb g1 m1 s1 g2 m2 s2 g eig,
  build newed p n nu gr ox co nt ta F k = Ok m -> nu_class nu = nu_mech nu ->
  let a := ASet T_ P_ rho mu yg yp sv ns tv nT c in
  Forall (sizedAction n nt) l1 -> Forall (sizedAction n nt) l2 -> sizedAction n nt a ->
  setState (newState n nt) T_ P_ rho mu yg yp sv ns tv nT c = SetOk s0 -> comparable p (sootVar s0) ->
  runActions (ga, m, newState n nt) (l1 ++ [a]) = Ok (g1, m1, s1) -> runActions (gb, m, newState n nt) (l2 ++ [a]) = Ok (g2, m2, s2) ->
  sameAll (setSourceTerms g eig m1 s1) (setSourceTerms g eig m2 s2).
Proof. exact @C75_. Qed.
Print Assumptions C75_histories.

(** PAH nucleation with the monodisperse model: a fresh object and one that has evaluated *)
Example C75_case : exists (m : model (N:=XR)) T_ P_ rho mu yg yp sv tv c s0 eig g1 m1 s1,
  let a := ASet T_ P_ rho mu yg yp sv 2 tv 0 c in
  build true P_MONO 2 (newNucl N_PAH) (newGrow G_LL) (newOxid O_LL) (newCoag C_FM) 0 (newTar T_NONE) (nZ 2) 100 = Ok m /\
  sizedAction 2 0 a /\ setState (newState 2 0) T_ P_ rho mu yg yp sv 2 tv 0 c = SetOk s0 /\ comparable P_MONO (sootVar s0) /\
  runActions (None, m, newState 2 0) ([] ++ [a]) = Ok (None, m, s0) /\
  runActions (None, m, newState 2 0) ([a; ASrc eig] ++ [a]) = Ok (g1, m1, s1) /\ wts s1 <> wts s0.
Proof.
  destruct (demo_any (newState 2 0) [1; 1]%R [] eq_refl eq_refl eq_refl in11) as (s & EC & V & _ & EW & EA & _); [intros ? []|].
  destruct (constructEnum (N:=XR) P_MONO 2 N_PAH G_LL O_LL C_FM 0 T_NONE (nZ 2) 100) as [m| |] eqn:E; try discriminate.
  destruct (built _ _ _ _ _ _ _ _ _ _ _ E) as (H & Hp & _ & Ht & _). unfold call in EC.
  set (A := argsOf demoGas [1; 1]%R []) in *.
  set (eig := (fun _ _ _ => (fun _ => Fin 0, fun _ => Fin 0)) : Qmom.eigSolver (N:=XR)).
  destruct (mono_full m s demoGas (mkMechs N_PAH G_LL O_LL C_FM 1) 1 1 None eig) as (m1 & E1 & _); auto; try lra; try (rewrite ?EW, ?EA; reflexivity).
  { split; [right; reflexivity|okm]. } { intros [K|K]; discriminate. }
  assert (SA : sizedAction 2 0 (ASet (aT A) (aP A) (arho A) (amu A) (ayGas A) (ayPah A) (asoot A) 2 (atar A) 0 (acMin A))) by (repeat split; cbn; auto with arith).
  pose proof (set_safe 11 2 0 (newState 2 0) (aT A) (aP A) (arho A) (amu A) (ayGas A) (ayPah A) (asoot A) 2 (atar A) 0 (acMin A) (new_sized 11 2 0 (le_n _)) SA) as SS. change 2%Z with (ansoot A) in SS at 1. change 0%Z with (aNtar A) in SS at 1. rewrite EC in SS.
  match type of E1 with _ = Ok (_, _, ?x) => set (sx := x) in * end.
  assert (MV : moved s sx) by (eexists; exists [Fin 1], [Fin (1 / 1)]; split; [reflexivity|]; rewrite EW, EA; auto).
  destruct (sized_moved 2 0 s sx SS MV) as (SX & RX). pose proof (set_rest (newState 2 0) (aT A) (aP A) (arho A) (amu A) (ayGas A) (ayPah A) (asoot A) (ansoot A) (atar A) (aNtar A) (acMin A)) as RS. rewrite EC in RS.
  destruct (set_same 2 0 (newState 2 0) sx (aT A) (aP A) (arho A) (amu A) (ayGas A) (ayPah A) (asoot A) (ansoot A) (atar A) (aNtar A) (acMin A) s (new_sized 11 2 0 (le_n _)) SX (eq_sym (eq_trans RX RS)) SA EC) as (r & ER & _).
  exists m, (aT A), (aP A), (arho A), (amu A), (ayGas A), (ayPah A), (asoot A), (atar A), (acMin A), s, eig, None, m1, r. cbv zeta.
  split; [apply ConfigProofs.construct_ok in E; destruct E as (_ & _ & ->); reflexivity|]. split; [exact SA|]. split; [exact EC|].
  split; [destruct V as (_ & _ & _ & _ & _ & _ & _ & ES & _); rewrite ES; exists (Fin 1), [Fin 1]; split; [reflexivity|]; cbn; now destruct (Rlt_dec 0 1); [|lra]|].
  split; [unfold runActions; cbn [app foldM doAction]; change 2%Z with (ansoot A); change 0%Z with (aNtar A); rewrite EC; reflexivity|].
  split; [unfold runActions; cbn [app foldM doAction]; change 2%Z with (ansoot A); change 0%Z with (aNtar A); rewrite EC; cbn [bind doAction]; rewrite E1; cbn [bind doAction]; rewrite ER; reflexivity|].
  pose proof (set_shape sx (aT A) (aP A) (arho A) (amu A) (ayGas A) (ayPah A) (asoot A) (ansoot A) (atar A) (aNtar A) (acMin A)) as SH. rewrite ER in SH.
  destruct (decide _ _ _ _ _ _ _ _ _ _ _ _) as [v|]; [|now specialize (SH r)]. injection SH as ->. cbn [stores wts]. rewrite EW. change (wts sx) with [Fin 1]. cbn. intros X. injection X as X. lra.
Qed.
