(** Concrete cases and final forms for the monodisperse model. *)
From Coq Require Import ZArith List Bool Reals Lra Lia.
From Verif Require Import Num Defs State Coag Nucl Growth Oxid Tar SootModel Mono Qmom Calls XR XRLemmas NumLaws
  SpecState SpecChem SpecCoag SpecValid SpecRates SpecGas SpecTar SpecPah SpecPsd CoagProofs StateXR ValidProofs InterpProofs GasProofs MiscProofs RateProofs PsdProofs PahProofs MonoProofs MonoTar MonoMain.
Import ListNotations.
Local Open Scope R_scope.

Lemma C22_ (m : model (N:=XR)) s g k M0 M1 st eig :
  sm_psd m = P_MONO -> hasAll m k -> okAll k -> noTar m -> valid s g [M0; M1] -> 0 < M0 -> regular k g M0 M1 ->
  length (wts s) = 1%nat -> length (absc s) = 1%nat ->
  let x := M1 / M0 in
  let o := nucl k g (M0 * kernel k g (dimerMass g) x) in
  exists m' s', setSourceTerms st eig m s = Ok (st, m', s') /\
    soots m' = [Fin (oJ o - 1 / 2 * kernel k g x x * M0 ^ 2);
                Fin (oN1 o + kernel k g (oMass o) x * M0 * oConc o * oMass o + (kgrow k g M0 M1 - koxid k g M0 M1) * (M0 * sphere x))] /\
    gasBudget m' k g o (kgrow k g M0 M1 * (M0 * sphere x)) (koxid k g M0 M1 * (M0 * sphere x)) /\
    pahs m' = pahSourcesOf k g (pahs m).
Proof.
  intros A B C D E F G H I x o. destruct (mono_full m s g k M0 M1 st eig A B C D E F G H I) as (m' & X & Y & Z & W & _).
  exists m'. eexists. split; [exact X|]. split; [exact Y|]. split; [exact Z|exact W].
Qed.

Lemma C22_gas_ (m : model (N:=XR)) s g k M0 M1 st eig :
  sm_psd m = P_MONO -> hasMechs m k -> okMechs k -> noTar m -> valid s g [M0; M1] -> 0 < M0 -> regular k g M0 M1 ->
  length (wts s) = 1%nat -> length (absc s) = 1%nat ->
  let x := M1 / M0 in
  exists m' s', setSourceTerms st eig m s = Ok (st, m', s') /\
    soots m' = [Fin (Jnuc k g - 1 / 2 * kernel k g x x * M0 ^ 2);
                Fin (Jnuc k g * nucMass g + (kgrow k g M0 M1 - koxid k g M0 M1) * (M0 * sphere x))].
Proof.
  intros A B C D E F G H I x. destruct (okMechs_all k C) as (C1 & C2).
  destruct (mono_full m s g k M0 M1 st eig A (hasMechs_all m k C B) C1 D E F G H I) as (m' & X & Y & _).
  exists m'. eexists. split; [exact X|]. rewrite Y. rewrite !(nucl_noP k g _ C2). unfold oN1. cbn [oJ oGas oMass oConc].
  apply f_equal2; [reflexivity|]. apply f_equal2; [|reflexivity]. f_equal. fold x. ring.
Qed.

Lemma C23_stale (m : model (N:=XR)) k g g2 M0 M1 st eig :
  sm_psd m = P_MONO -> hasMechs m k -> okMechs k -> noTar m -> physical g -> physical g2 -> 0 < M0 ->
  massCutoff < M1 / M0 -> mC k <> C_NONE -> regular k g M0 M1 -> regular k g2 0 0 ->
  exists m1 m2 s1 s2 a,
    runActions (st, m, newState 2 0) [setTo g [M0; M1] []; ASrc eig; setTo g2 [0; 0] []; ASrc eig] = Ok (st, m1, s1) /\
    runActions (st, m, newState 2 0) [setTo g2 [0; 0] []; ASrc eig] = Ok (st, m2, s2) /\
    nth_error (soots m1) 0 = Some (Fin a) /\ nth_error (soots m2) 0 = Some (Fin (Jnuc k g2)) /\
    a < Jnuc k g2.
Proof.
  intros A B C D E F P0 X0 NC R1 R2.
  assert (P1 : 0 <= M1).
  { pose proof cut_pos. assert (Hx : 0 < M1 / M0) by lra. replace M1 with (M1 / M0 * M0) by (field; lra). apply Rlt_le, Rmult_lt_0_compat; auto. }
  destruct (mono_two_runs m k g g2 M0 M1 st eig A (hasMechs_all m k C B) C D E F P0 P1 R1 R2) as (m1 & m2 & s1 & s2 & Q1 & Q2 & Q3 & Q4).
  exists m1, m2, s1, s2. eexists. split; [exact Q1|]. split; [exact Q2|]. split; [exact Q3|]. split; [exact Q4|].
  destruct F as (OG & OY & OP). destruct (argsOf_ok g2 [] [] OG OY OP) as (s & _ & V & _); [intros ? []|intros ? []|].
  pose proof C as (_ & _ & _ & _ & _ & OC & OF).
  pose proof (kernel_pos s g2 [] k (M1 / M0) (M1 / M0) V OF NC OC X0 X0). assert (0 < M0 ^ 2) by (apply pow_lt; auto).
  assert (0 < kernel k g2 (M1 / M0) (M1 / M0) * M0 ^ 2) by (apply Rmult_lt_0_compat; auto). lra.
Qed.

Lemma C55_nucl (s : state (N:=XR)) g soot mt n0 tr coll nu : valid s g soot -> 0 < mt -> mtar s = Fin mt ->
  tarVar s = Fin n0 :: tr -> nu_class nu = N_AJ_RED ->
  nuclRate coll nu s =
    Ok (Fin (22 / 10 * (tarDiamNucl mt ^ 2 * sqrt (8 * piC * boltzmann * gT g / (mt * avogadro))) * n0 ^ 2 * (2 * avogadro / gCMin g)), nu, s, None).
Proof.
  intros V Pm Em Et E. rewrite (nuclTar_val s g soot V mt n0 tr Pm Em Et) by (rewrite E; discriminate). rewrite E. cbn [nuclTar].
  do 5 f_equal. unfold enhancement.
  replace (8 * piC * boltzmann * gT g / (mt * avogadro)) with (8 * piC * boltzmann * gT g / mt / avogadro); [reflexivity|].
  pose proof avo_pos. field. lra.
Qed.
Lemma C55_depo (s : state (N:=XR)) g M0 M1 mt n0 tr : valid s g [M0; M1] -> 0 < mt -> 0 < M0 -> 0 < M1 ->
  mtar s = Fin mt -> tarVar s = Fin n0 :: tr ->
  let m := M1 / M0 in let mu := mt / avogadro * m / (mt / avogadro + m) in
  exists d, d = sqrt (10 ^ 13 / 1395) * tarDiamNucl mt /\
    depoRate (newTar T_AJ_RED) s =
      Ok (Fin (22 / 10 * ((diam m + d) ^ 2 * sqrt (piC * boltzmann * gT g / (2 * mu))) * n0 * M0)).
Proof.
  intros V Pm P0 P1 Em Et m mu. exists (tarDiamDepo mt). split; [apply tar_diameters|].
  rewrite (depoAJ_val s g M0 M1 mt n0 tr V Pm P0 Em Et). unfold tarDepo. destruct (Rlt_dec 0 M1); [|lra]. reflexivity.
Qed.

(** ** cases *)
Ltac okm := unfold okMechs, okAny, gasOnly; cbn [mN mG mO mC mF]; repeat split; try discriminate; try lra.
Lemma cut_small : massCutoff < 1.
Proof. Local Transparent massCutoff. unfold massCutoff. lra. Local Opaque massCutoff. Qed.
Lemma in11 : forall y, In y [1; 1] -> 0 <= y. Proof. intros y [<-|[<-|[]]]; lra. Qed.

Lemma mono_case_pah : exists (m : model (N:=XR)) s g k M0 M1,
  sm_psd m = P_MONO /\ hasAll m k /\ okAll k /\ mN k = N_PAH /\ somePah g /\ noTar m /\ valid s g [M0; M1] /\ 0 < M0 /\ regular k g M0 M1 /\
  length (wts s) = 1%nat /\ length (absc s) = 1%nat /\ massCutoff < M1 / M0.
Proof.
  destruct (demo_any (newState 2 0) [1; 1] [] eq_refl eq_refl eq_refl in11) as (s & _ & V & _ & EW & EA & _); [intros ? []|].
  destruct (constructEnum (N:=XR) P_MONO 2 N_PAH G_LL O_LL C_FM 0 T_NONE (nZ 2) 100) as [m| |] eqn:E; try discriminate.
  destruct (built _ _ _ _ _ _ _ _ _ _ _ E) as (H & Hp & _ & Ht & _).
  exists m, s, demoGas, (mkMechs N_PAH G_LL O_LL C_FM 1), 1, 1. pose proof cut_small.
  split; [exact Hp|]. split; [exact H|]. split; [split; [right; reflexivity|okm]|].
  split; [reflexivity|]. split; [exists C10H8; cbn; lra|]. split; [exact Ht|]. split; [exact V|]. split; [lra|].
  split; [intros [K|K]; discriminate|]. rewrite EW, EA. split; [reflexivity|]. split; [reflexivity|]. lra.
Qed.
Ltac mpos := unfold Rdiv; repeat apply Rmult_lt_0_compat; try apply exp_pos; try (apply Rinv_0_lt_compat); try assumption; try lra.
Lemma demo_J : 0 < Jnuc (mkMechs N_LL G_LL O_LL C_FM 1) demoGas.
Proof.
  unfold Jnuc. cbn [mN nuclFormula]. pose proof avo_pos. unfold conc. cbn [gT gRho gY gCMin demoGas].
  assert (0 < molarMass C2H2) by (unfold molarMass, massC, massH; cbn; lra).
  mpos. cbn; lra.
Qed.
Lemma mono_case_gas : exists (m : model (N:=XR)) s g k M0 M1,
  sm_psd m = P_MONO /\ hasMechs m k /\ okMechs k /\ 0 < Jnuc k g /\ noTar m /\ valid s g [M0; M1] /\ 0 < M0 /\ regular k g M0 M1 /\
  length (wts s) = 1%nat /\ length (absc s) = 1%nat /\ massCutoff < M1 / M0.
Proof.
  destruct (demo_any (newState 2 0) [1; 1] [] eq_refl eq_refl eq_refl in11) as (s & _ & V & _ & EW & EA & _); [intros ? []|].
  destruct (constructEnum (N:=XR) P_MONO 2 N_LL G_LL O_LL C_FM 0 T_NONE (nZ 2) 100) as [m| |] eqn:E; try discriminate.
  destruct (built _ _ _ _ _ _ _ _ _ _ _ E) as (H & Hp & _ & Ht & _).
  exists m, s, demoGas, (mkMechs N_LL G_LL O_LL C_FM 1), 1, 1. pose proof cut_small.
  split; [exact Hp|]. split; [apply hasAll_mechs; [exact H|reflexivity]|]. split; [okm|].
  split; [exact demo_J|]. split; [exact Ht|]. split; [exact V|]. split; [lra|].
  split; [intros [K|K]; discriminate|]. rewrite EW, EA. split; [reflexivity|]. split; [reflexivity|]. lra.
Qed.
Lemma mono_case_stale : exists (m : model (N:=XR)) k g g2 M0 M1,
  sm_psd m = P_MONO /\ hasMechs m k /\ okMechs k /\ noTar m /\ physical g /\ physical g2 /\ 0 < M0 /\
  massCutoff < M1 / M0 /\ mC k <> C_NONE /\ regular k g M0 M1 /\ regular k g2 0 0.
Proof.
  destruct mono_case_gas as (m & s & g & k & M0 & M1 & _).
  destruct (constructEnum (N:=XR) P_MONO 2 N_LL G_LL O_LL C_FM 0 T_NONE (nZ 2) 100) as [m1| |] eqn:E; try discriminate.
  destruct (built _ _ _ _ _ _ _ _ _ _ _ E) as (H & Hp & _ & Ht & _).
  exists m1, (mkMechs N_LL G_LL O_LL C_FM 1), demoGas, demoGas, 1, 1. pose proof cut_small.
  split; [exact Hp|]. split; [apply hasAll_mechs; [exact H|reflexivity]|]. split; [okm|].
  split; [exact Ht|]. do 2 (split; [exact demo_physical|]). split; [lra|]. split; [lra|]. split; [discriminate|].
  split; intros [K|K]; discriminate.
Qed.
Definition with_mtar (s : state (N:=XR)) (x : xr) : state (N:=XR) :=
  mkState (N:=XR) (T s) (P s) (rhoGas s) (MWGas s) (muGas s) (yGas s) (yPah s) (st_nsoot s) (sootVar s) (absc s) (wts s)
    (sootScales s) (cMin s) (st_Ntar s) (tarVar s) (yBio s) x (ytar s) (OC s) (HC s) (State.V s).
Lemma mono_case_tar t : t = T_BROWN \/ t = T_AJ_RED -> exists (m : model (N:=XR)) s g k M0 M1 w x mt n0,
  sm_psd m = P_MONO /\ hasMechs m k /\ okAny k /\ valid s g [M0; M1] /\ regular k g M0 M1 /\
  wts s = [Fin w] /\ absc s = [Fin x] /\ 0 < mt /\ mtar s = Fin mt /\ tarVar s = [Fin n0] /\
  tarSources (sm_sources m) = [Fin 0] /\ sm_tar m = newTar t /\ 0 < M0 /\ 0 < n0 /\
  0 < kgrow k g M0 M1 * surface M0 M1.
Proof.
  intros HT.
  assert (I1 : forall y, In y [1] -> 0 <= y) by (intros y [<-|[]]; lra).
  destruct (demo_any (newState 2 1) [1; 1] [1] eq_refl eq_refl eq_refl in11 I1) as (s & _ & V & Et & EW & EA & Em).
  destruct (constructEnum (N:=XR) P_MONO 2 N_LL G_LIN O_LL C_FM 1 t (nZ 2) 100) as [m| |] eqn:E;
    [|exfalso; destruct HT as [->| ->]; discriminate|exfalso; destruct HT as [->| ->]; discriminate].
  destruct (built _ _ _ _ _ _ _ _ _ _ _ E) as (H & Hp & _ & Ht & _ & Hs & _).
  exists m, (with_mtar s (Fin 100)), demoGas, (mkMechs N_LL G_LIN O_LL C_FM 1), 1, 1, 0, 0, 100, 1. pose proof cut_small.
  split; [exact Hp|]. split; [apply hasAll_mechs; [exact H|reflexivity]|]. split; [okm|].
  split; [exact V|]. split; [intros [K|K]; discriminate|]. split; [exact EW|]. split; [exact EA|]. split; [lra|].
  split; [reflexivity|]. split; [exact Et|]. split; [rewrite Hs; reflexivity|]. split; [exact Ht|]. split; [lra|]. split; [lra|].
  apply Rmult_lt_0_compat.
  - unfold kgrow. cbn [mG growFormula]. assert (0 < molarMass C2H2) by (unfold molarMass, massC, massH; cbn; lra).
    unfold conc. cbn [gT gRho gY demoGas]. pose proof massC_pos. mpos.
  - rewrite surface_sphere by lra. unfold sphere. destruct (Rlt_dec 0 (1 / 1)); [|lra]. pose proof piC_pos.
    pose proof (diam_pos (1 / 1)) as PD. apply Rmult_lt_0_compat; [lra|]. apply Rmult_lt_0_compat; [assumption|]. apply pow_lt, PD; lra.
Qed.
