(** Lemmas for C76: PAH nucleation in one model disturbs the others. *)
From Coq Require Import ZArith List Bool Reals Lra Lia.
From Verif Require Import Num Defs State Coag Nucl Growth Oxid Tar SootModel Qmom Calls XR XRLemmas SpecChem SpecCoag SpecValid SpecRates SpecGas SpecState SpecSafe SpecHist SpecFrame
  SpecTar SpecPah SpecPsd CoagProofs MiscProofs ValidProofs RateProofs PsdProofs PahProofs MonoMain MonoCases PahMain SafeProofs ConfigProofs.
Import ListNotations.
Local Open Scope R_scope.

Lemma C76_disturb_ (mA mB : model (N:=XR)) s g kA kB M0 M1 st eig :
  sm_psd mA = P_MONO -> hasAll mA kA -> okAll kA -> noTar mA -> mN kA = N_PAH -> somePah g -> regular kA g M0 M1 ->
  sm_psd mB = P_MONO -> hasAll mB kB -> okAll kB -> noTar mB -> mN kB <> N_PAH -> regular kB g M0 M1 ->
  valid s g [M0; M1] -> 0 < M0 -> length (wts s) = 1%nat -> length (absc s) = 1%nat ->
  let c1 := 2 * meanC g + gCMin g / pahTotal g in
  exists mA' sA m1 s1 m2 s2 n1 f1 n2 f2,
    setSourceTerms st eig mB s = Ok (st, m1, s1) /\ soots m1 = [Fin n1; Fin f1] /\
    setSourceTerms st eig mA s = Ok (st, mA', sA) /\ setSourceTerms st eig mB sA = Ok (st, m2, s2) /\ soots m2 = [Fin n2; Fin f2] /\
    n2 - n1 = nuclFormula (mN kB) (gasCMin g c1) - nuclFormula (mN kB) g /\
    f2 - f1 = (nuclFormula (mN kB) (gasCMin g c1) * c1 - nuclFormula (mN kB) g * gCMin g) * (massC / avogadro).
Proof.
  intros PA HA OA TA NA SP RA PB HB OB TB NB RB V P0 LW LA c1.
  assert (E : isP kA = true) by now apply isP_true. assert (E' : isP kB = false) by (destruct (isP kB) eqn:Q; [apply isP_true in Q; congruence|reflexivity]).
  assert (PT := pahTotal_some s g _ V SP).
  assert (EC1 : pahCMin g = c1) by (unfold pahCMin; destruct (Rlt_dec 0 (pahTotal g)); [reflexivity|lra]).
  destruct (mono_full mA s g kA M0 M1 st eig PA HA OA TA V P0 RA LW LA) as (mA' & EA & _).
  destruct (mono_full mB s g kB M0 M1 st eig PB HB OB TB V P0 RB LW LA) as (m1 & E1 & S1 & _).
  set (x := M1 / M0) in *. set (sA := outS kA g (with_wa s [Fin M0] [Fin x])) in *.
  assert (EsA : sA = with_cMin (with_wa s [Fin M0] [Fin x]) (Fin c1)) by (unfold sA, outS; rewrite E, EC1; reflexivity).
  assert (VA : valid sA (gasCMin g c1) [M0; M1]).
  { rewrite EsA. apply valid_cMin; [exact V|]. rewrite <- EC1. exact (pahCMin_pos s g _ V). }
  destruct (mono_full mB sA (gasCMin g c1) kB M0 M1 st eig PB HB OB TB VA P0) as (m2 & E2 & S2 & _); [exact RB|now rewrite EsA|now rewrite EsA|].
  fold x in E2, S2.
  change (dimerMass (gasCMin g c1)) with (dimerMass g) in S2.
  change (kernel kB (gasCMin g c1)) with (kernel kB g) in S2. change (kgrow kB (gasCMin g c1) M0 M1) with (kgrow kB g M0 M1) in S2.
  change (koxid kB (gasCMin g c1) M0 M1) with (koxid kB g M0 M1) in S2.
  unfold nucl in S1, S2. rewrite E' in S1, S2. unfold oN1 in S1, S2. cbn [oJ oGas oMass oConc] in S1, S2. unfold nucMass in S1, S2. cbn [gCMin gasCMin] in S2.
  pose proof avo_pos as PV.
  do 10 eexists. split; [exact E1|]. split; [exact S1|]. split; [exact EA|]. split; [exact E2|]. split; [exact S2|]. unfold Jnuc. split; [ring|]. field. lra.
Qed.

Definition shareGas : gas := gasCMin demoGas (meanC demoGas).
Lemma share_state : exists s, call (newState 2 0) (argsOf shareGas [1; 1] []) = SetOk s /\ valid s shareGas [1; 1] /\ length (wts s) = 1%nat /\ length (absc s) = 1%nat.
Proof.
  destruct (demo_any (newState 2 0) [1; 1] [] eq_refl eq_refl eq_refl in11) as (s0 & _ & V0 & _); [intros ? []|].
  assert (PT : 0 < pahTotal demoGas) by (apply (pahTotal_some s0 demoGas _ V0); exists C10H8; cbn; lra).
  assert (PM : 0 < meanC demoGas) by (pose proof (meanC_ge s0 demoGas _ V0 PT); lra).
  destruct (argsOf_any (newState 2 0) shareGas [1; 1] []) as (s & E & V & _ & EW & EA & _); auto using in11.
  - repeat split; cbn [shareGas gasCMin gT gP gRho gMu gCMin gY gPah demoGas]; intros; lra || exact PM.
  - intros; cbn; lra.
  - unfold pahVec, allPah. cbn [map fold_left gPah demoGas shareGas gasCMin]. lra.
  - intros ? [].
  - exists s. rewrite EW, EA. auto.
Qed.

Definition kPah : mechs := mkMechs N_PAH G_LL O_LL C_FM 1.
Definition kMB : mechs := mkMechs N_MB G_LL O_LL C_FM 1.
(** two monodisperse models on one state object, one of them with PAH nucleation *)
Lemma share_models : exists (mA mB : model (N:=XR)) s,
  constructed mA /\ constructed mB /\ sm_psd mA = P_MONO /\ hasAll mA kPah /\ okAll kPah /\ noTar mA /\ sm_psd mB = P_MONO /\ hasAll mB kMB /\ okAll kMB /\ noTar mB /\
  call (newState 2 0) (argsOf shareGas [1; 1] []) = SetOk s /\ valid s shareGas [1; 1] /\ length (wts s) = 1%nat /\ length (absc s) = 1%nat /\ somePah shareGas /\
  regular kPah shareGas 1 1 /\ regular kMB shareGas 1 1.
Proof.
  destruct share_state as (s & E & V & LW & LA).
  destruct (constructEnum (N:=XR) P_MONO 2 N_PAH G_LL O_LL C_FM 0 T_NONE (nZ 2) 100) as [mA| |] eqn:EA; try discriminate.
  destruct (constructEnum (N:=XR) P_MONO 2 N_MB G_LL O_LL C_FM 0 T_NONE (nZ 2) 100) as [mB| |] eqn:EB; try discriminate.
  destruct (built _ _ _ _ _ _ _ _ _ _ _ EA) as (HA & PA & _ & TA & _). destruct (built _ _ _ _ _ _ _ _ _ _ _ EB) as (HB & PB & _ & TB & _).
  exists mA, mB, s.
  split; [left; do 10 eexists; exact EA|]. split; [left; do 10 eexists; exact EB|].
  split; [exact PA|]. split; [exact HA|]. split; [split; [right; reflexivity|unfold kPah; okm]|]. split; [exact TA|].
  split; [exact PB|]. split; [exact HB|]. split; [split; [left; unfold kMB; okm|unfold kMB; okm]|]. split; [exact TB|].
  split; [exact E|]. split; [exact V|]. split; [exact LW|]. split; [exact LA|]. split; [exists C10H8; cbn; lra|].
  split; intros [K|K]; discriminate.
Qed.

Lemma C76_refute_ : exists (mA mB : model (N:=XR)) s mA' sA m1 s1 m2 s2 st eig,
  constructed mA /\ constructed mB /\ call (newState 2 0) (argsOf shareGas [1; 1] []) = SetOk s /\
  setSourceTerms st eig mB s = Ok (st, m1, s1) /\ setSourceTerms st eig mA s = Ok (st, mA', sA) /\ setSourceTerms st eig mB sA = Ok (st, m2, s2) /\
  soots m2 <> soots m1.
Proof.
  destruct share_models as (mA & mB & s & CA & CB & PA & HA & OA & TA & PB & HB & OB & TB & E & V & LW & LA & SP & RA & RB).
  set (eig := (fun _ _ _ => (fun _ => Fin 0, fun _ => Fin 0)) : Qmom.eigSolver (N:=XR)).
  destruct (C76_disturb_ mA mB s shareGas kPah kMB 1 1 None eig PA HA OA TA eq_refl SP RA PB HB OB TB) as (mA' & sA & m1 & s1 & m2 & s2 & n1 & f1 & n2 & f2 & E1 & S1 & EA & E2 & S2 & _ & DF); auto; try lra; try discriminate.
  exists mA, mB, s, mA', sA, m1, s1, m2, s2, None, eig. do 6 (split; [assumption|]).
  rewrite S1, S2. intros X. assert (EF : f2 = f1) by (apply (f_equal (fun l => match l with [_; Fin f] => f | _ => 0 end)) in X; exact X). clear X.
  pose proof (pahTotal_some s shareGas _ V SP) as PT. pose proof (v_cMinpos _ _ _ V) as PC.
  change (meanC shareGas) with (gCMin shareGas) in DF. change (pahTotal shareGas) with (pahTotal demoGas) in *.
  cbn [mN kMB nuclFormula] in DF. change (gT (gasCMin shareGas ?c)) with 1800 in DF.
  match type of DF with _ = (?J' * ?c1 - ?J * _) * _ => change J' with J in DF; set (j := J) in *; set (c := c1) in * end.
  assert (Pj : 0 < j).
  { unfold j. apply Rmult_lt_0_compat; [apply Rmult_lt_0_compat; [apply Rmult_lt_0_compat; [lra|apply exp_pos]|]|apply avo_pos].
    unfold conc. cbn [gRho gY shareGas gasCMin demoGas]. apply Rdiv_lt_0_compat; [lra|unfold molarMass, massC, massH; cbn; lra]. }
  assert (Pc : 0 < c - gCMin shareGas) by (unfold c; pose proof (Rdiv_lt_0_compat _ _ PC PT); lra).
  pose proof avo_pos. pose proof massC_pos. assert (0 < (j * c - j * gCMin shareGas) * (massC / avogadro)); [|lra].
  apply Rmult_lt_0_compat; [|now apply Rdiv_lt_0_compat]. replace (j * c - j * gCMin shareGas) with (j * (c - gCMin shareGas)) by ring. now apply Rmult_lt_0_compat.
Qed.

Lemma share_case : exists (m0 : model (N:=XR)) s s',
  build true P_MONO 2 (newNucl N_PAH) (newGrow G_LL) (newOxid O_LL) (newCoag C_FM) 0 (newTar T_NONE) (nZ 2) 100 = Ok m0 /\
  runActions (None, m0, s) [] = Ok (None, m0, s) /\ comparable P_MONO (sootVar s) /\ length (wts s) = Nat.div 2 2 /\ length (absc s) = Nat.div 2 2 /\
  evaluated (None, s) (None, s') /\ wts s' <> wts s.
Proof.
  destruct (demo_any (newState 2 0) [1; 1]%R [] eq_refl eq_refl eq_refl in11) as (s & EC & V & _ & EW & EA & _); [intros ? []|].
  destruct (constructEnum (N:=XR) P_MONO 2 N_PAH G_LL O_LL C_FM 0 T_NONE (nZ 2) 100) as [mA| |] eqn:E1; try discriminate.
  destruct (constructEnum (N:=XR) P_MONO 2 N_MB G_LL O_LL C_FM 0 T_NONE (nZ 2) 100) as [mB| |] eqn:E2; try discriminate.
  destruct (built _ _ _ _ _ _ _ _ _ _ _ E2) as (HB & PB & _ & TB & _).
  set (eig := (fun _ _ _ => (fun _ => Fin 0, fun _ => Fin 0)) : Qmom.eigSolver (N:=XR)).
  destruct (mono_full mB s demoGas kMB 1 1 None eig) as (m1 & EB & _); auto; try lra; try (rewrite ?EW, ?EA; reflexivity).
  { split; [left; unfold kMB; okm|unfold kMB; okm]. } { intros [K|K]; discriminate. }
  match type of EB with _ = Ok (_, _, ?x) => exists mA, s, x end.
  split; [apply ConfigProofs.construct_ok in E1; destruct E1 as (_ & _ & ->); reflexivity|]. split; [reflexivity|].
  split; [destruct V as (_ & _ & _ & _ & _ & _ & _ & ES & _); rewrite ES; exists (Fin 1), [Fin 1]; split; [reflexivity|]; cbn; now destruct (Rlt_dec 0 1); [|lra]|].
  split; [rewrite EW; reflexivity|]. split; [rewrite EA; reflexivity|]. split.
  - eapply (ev_cons None s mB eig None m1); [exists mB, None, s, [], None, s; split; [left; do 10 eexists; exact E2|reflexivity]| |exact EB|apply ev_nil].
    destruct HB as (EN & _). cbn [isP mN] in EN. rewrite EN. discriminate.
  - rewrite EW. change (wts (outS kMB demoGas ?x)) with [Fin 1]. cbn. intros X. injection X as X. lra.
Qed.
