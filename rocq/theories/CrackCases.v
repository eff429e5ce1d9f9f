(** A case for C93: tar in dry gas without soot. *)
From Coq Require Import ZArith List Bool Reals Lra Lia.
From Verif Require Import Num Defs State Coag Nucl Growth Oxid Tar SootModel Mono Qmom Calls XR XRLemmas NumLaws
  SpecState SpecChem SpecCoag SpecValid SpecRates SpecGas SpecTar SpecPah SpecPsd CoagProofs StateXR ValidProofs InterpProofs GasProofs MiscProofs RateProofs PsdProofs PahProofs MonoProofs MonoTar MonoMain MonoCases.
Import ListNotations.
Local Open Scope R_scope.

Definition dryGas : gas := mkGas 1800 101325 (1 / 5) (1 / 20000) 100 (fun sp => match sp with C2H2 => 1 / 20 | _ => 0 end) (fun _ => 0).
Lemma dry_any s0 soot tar : st_nsoot s0 = Z.of_nat (length soot) -> st_Ntar s0 = Z.of_nat (length tar) -> length (yPah s0) = 6%nat ->
  (forall x, In x soot -> 0 <= x) -> (forall x, In x tar -> 0 <= x) ->
  exists s, call s0 (argsOf dryGas soot tar) = SetOk s /\ valid s dryGas soot /\ tarVar s = map Fin tar /\
    wts s = wts s0 /\ absc s = absc s0 /\ mtar s = mtar s0.
Proof.
  intros A B C H H'. apply argsOf_any; auto.
  - repeat split; cbn [gT gP gRho gMu gCMin gY gPah dryGas]; try (intros; lra). intros []; lra.
  - intros []; cbn; lra.
  - unfold pahVec, allPah. cbn [map fold_left gPah dryGas]. lra.
Qed.
Lemma crack_case : exists (m : model (N:=XR)) s g k w x mt n0,
  sm_psd m = P_MONO /\ hasMechs m k /\ okAny k /\ mN k = N_NONE /\ mG k = G_LIN /\ valid s g [0; 0] /\ regular k g 0 0 /\
  wts s = [Fin w] /\ absc s = [Fin x] /\ 0 < mt /\ mtar s = Fin mt /\ tarVar s = [Fin n0] /\
  tarSources (sm_sources m) = [Fin 0] /\ sm_tar m = newTar T_AJ_RED /\ gY g CO2 = 0 /\ gY g H2O = 0 /\ gT g <= 2500 /\ 1 <= n0 <= 10 ^ 5.
Proof.
  assert (I1 : forall y, In y [1000] -> 0 <= y) by (intros y [<-|[]]; lra).
  assert (I0 : forall y, In y [0; 0] -> 0 <= y) by (intros y [<-|[<-|[]]]; lra).
  destruct (dry_any (newState 2 1) [0; 0] [1000] eq_refl eq_refl eq_refl I0 I1) as (s & _ & V & Et & EW & EA & Em).
  destruct (constructEnum (N:=XR) P_MONO 2 N_NONE G_LIN O_LL C_FM 1 T_AJ_RED (nZ 2) 100) as [m| |] eqn:E; [|discriminate|discriminate].
  destruct (built _ _ _ _ _ _ _ _ _ _ _ E) as (H & Hp & _ & Ht & _ & Hs & _).
  exists m, (with_mtar s (Fin 100)), dryGas, (mkMechs N_NONE G_LIN O_LL C_FM 1), 0, 0, 100, 1000.
  split; [exact Hp|]. split; [apply hasAll_mechs; [exact H|reflexivity]|]. split; [okm|]. split; [reflexivity|]. split; [reflexivity|].
  split; [exact V|]. split; [intros [K|K]; discriminate|]. split; [exact EW|]. split; [exact EA|]. split; [lra|].
  split; [reflexivity|]. split; [exact Et|]. split; [rewrite Hs; reflexivity|]. split; [exact Ht|]. cbn [gY gT dryGas]. repeat split; lra.
Qed.
