(** C98: BROWN tar integrated in time. *)
From Coq Require Import ZArith List Bool Reals Lra Lia.
From Verif Require Import Num Defs State Coag Nucl Growth Oxid Tar SootModel Qmom Calls XR SpecChem SpecFrame SpecValid SpecRates SpecTar SpecPsd SpecSect SpecStep SpecFinite SpecTarLoop ValidProofs MonoMain CoagProofs RateProofs TarHistMain TarLoopMain.
Import ListNotations.
Local Open Scope R_scope.

(** for every step length, tar and soot (of any sign) the loop runs for ever, and the part of the tar used up that becomes soot is the
    ratio of the rate constants.  With steps in which no more tar reacts than there is the tar decays geometrically; with longer steps it
    overshoots at once and stays negative, since setState replaces it by zero *)
Theorem C98_yield : forall gr co F c (m : model (N:=XR)) mt yt,
  constructEnum P_MONO 2 N_BROWN gr O_NONE co 1 T_BROWN F c = Ok m -> gr <> G_HACA -> 0 < mt ->
  forall g, physical g -> let kF := tarToSoot g in let K := kF + tarGone g in
  forall dt n0 y0 eig, length y0 = 2%nat -> let s := with_my (N:=XR) (newState 2 1) (Fin mt) (Fin yt) in
  (exists y t, y 0%nat = y0 /\ t 0%nat = n0 /\ tarLoop m s g dt eig y t) /\
  forall y t, y 0%nat = y0 -> t 0%nat = n0 -> tarLoop m s g dt eig y t ->
    (forall i, el (y i) 1 = el y0 1 + kF / K * (n0 - t i)) /\
    (0 < dt -> dt * K <= 1 -> 0 <= n0 -> (forall i, t i = n0 * (1 - dt * K) ^ i) /\ Un_cv t 0 /\ Un_cv (fun i => el (y i) 1) (el y0 1 + kF / K * n0)) /\
    (1 < dt * K -> 0 < n0 -> forall i, t (S i) = n0 * (1 - dt * K) /\ t (S i) < 0) /\
    (n0 <= 0 -> forall i, t i = n0).
Proof. exact C98_. Qed.
Print Assumptions C98_yield.

(** a case: growth by LL and coagulation, a short step (1e-12 s), a long one, and a yield strictly between 0 and 1 *)
Example C98_case : exists m : model (N:=XR),
  constructEnum P_MONO 2 N_BROWN G_LL O_NONE C_FM 1 T_BROWN (Fin 2) 100 = Ok m /\ physical demoGas /\
  0 < / 1000000000000 * (tarToSoot demoGas + tarGone demoGas) <= 1 /\
  1 < 2 / (tarToSoot demoGas + tarGone demoGas) * (tarToSoot demoGas + tarGone demoGas) /\ 0 < tarToSoot demoGas / (tarToSoot demoGas + tarGone demoGas) < 1.
Proof.
  eexists. split; [reflexivity|]. split; [exact demo_physical|].
  assert (A : forall a E, 0 < a -> 0 <= E -> 0 < arrhenius a E 1800 <= a).
  { intros a E Ha HE. unfold arrhenius. pose proof avo_pos. pose proof boltz_pos.
    assert (P : 0 < avogadro * boltzmann * 1800) by (apply Rmult_lt_0_compat; [now apply Rmult_lt_0_compat|lra]).
    split; [apply Rmult_lt_0_compat; [exact Ha|apply exp_pos]|].
    assert (Q : exp (- E / (avogadro * boltzmann * 1800)) <= 1).
    { rewrite <- exp_0. assert (L : - E / (avogadro * boltzmann * 1800) <= 0); [|destruct L as [L| ->]; [left; now apply exp_increasing|right; reflexivity]].
      apply Ropp_le_cancel. rewrite Ropp_0. unfold Rdiv. rewrite Ropp_mult_distr_l, Ropp_involutive. apply Rmult_le_pos; [exact HE|]. left. now apply Rinv_0_lt_compat. }
    apply (Rmult_le_compat_l a) in Q; lra. }
  assert (M : conc demoGas O2 * molarMass O2 = 1 / 100). { unfold conc. cbn [gRho gY demoGas]. assert (0 < molarMass O2) by (unfold molarMass, massO; cbn; lra). field. lra. }
  unfold tarToSoot, tarGone. rewrite M. cbn [gT demoGas].
  pose proof (A 502000000 198900000 ltac:(lra) ltac:(lra)) as A1. pose proof (A 97700000000 286900000 ltac:(lra) ltac:(lra)) as A2. pose proof (A 677000 52300000 ltac:(lra) ltac:(lra)) as A3.
  set (u := arrhenius 502000000 198900000 1800) in *. set (v := arrhenius 97700000000 286900000 1800) in *. set (w := arrhenius 677000 52300000 1800) in *.
  split; [lra|]. split; [unfold Rdiv; rewrite Rmult_assoc, Rinv_l by lra; lra|]. split; [apply Rdiv_lt_0_compat; lra|]. apply (Rmult_lt_reg_r (u + (v + 1 / 100 * w))); [lra|]. unfold Rdiv at 1. rewrite Rmult_assoc, Rinv_l, Rmult_1_r, Rmult_1_l by lra. lra.
Qed.
