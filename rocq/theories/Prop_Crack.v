(** Property C93: AJ_RED tar cracking creates tar where there is little of it. *)
From Coq Require Import ZArith List Bool Reals.
From Verif Require Import Num Defs State Coag Nucl Growth Oxid Tar SootModel Mono Calls XR
  SpecChem SpecCoag SpecValid SpecRates SpecGas SpecPsd CrackMain CrackCases.
Import ListNotations.
Local Open Scope R_scope.

(** between one and 10^5 tar molecules in a cubic metre the cracking rate (a loss) is negative *)
Theorem C93_creates : forall (s : state (N:=XR)) g soot n0 tr, valid s g soot -> tarVar s = Fin n0 :: tr ->
  gT g <= 2500 -> 1 <= n0 <= 10 ^ 5 -> exists r, crackRate (newTar T_AJ_RED) s = Ok (Fin r) /\ r < 0.
Proof. exact creates_main. Qed.
Print Assumptions C93_creates.

(** from 10^9 to 10^25 it is positive *)
Theorem C93_consumes : forall (s : state (N:=XR)) g soot n0 tr, valid s g soot -> tarVar s = Fin n0 :: tr ->
  gT g <= 2500 -> 10 ^ 9 <= n0 <= 10 ^ 25 -> exists r, crackRate (newTar T_AJ_RED) s = Ok (Fin r) /\ 0 < r.
Proof. exact consumes_main. Qed.
Print Assumptions C93_consumes.

(** at every temperature some number of molecules in between is not cracked at all *)
Theorem C93_balance : forall g, gT g <= 2500 -> exists n0, 10 ^ 5 < n0 < 10 ^ 9 /\
  forall (s : state (N:=XR)) soot tr, valid s g soot -> tarVar s = Fin n0 :: tr -> crackRate (newTar T_AJ_RED) s = Ok (Fin 0).
Proof. exact balance_main. Qed.
Print Assumptions C93_balance.

(** the whole call: without soot, nucleation, CO2 and H2O the tar grows while no gas species and no
    soot mass has a source *)
Theorem C93_from_nothing_refuted : forall (m : model (N:=XR)) s g k w x mt n0 ts0 st eig,
  sm_psd m = P_MONO -> hasMechs m k -> okAny k -> mN k = N_NONE -> valid s g [0; 0] -> regular k g 0 0 ->
  wts s = [Fin w] -> absc s = [Fin x] -> 0 < mt -> mtar s = Fin mt -> tarVar s = [Fin n0] ->
  tarSources (sm_sources m) = [Fin ts0] -> sm_tar m = newTar T_AJ_RED -> gY g CO2 = 0 -> gY g H2O = 0 ->
  gT g <= 2500 -> 1 <= n0 <= 10 ^ 5 ->
  exists m' s' z r, setSourceTerms st eig m s = Ok (st, m', s') /\
    tarSources (sm_sources m') = [Fin r] /\ 0 < r /\ soots m' = [z; Fin 0] /\ holdsGas (gases m') (fun _ => 0).
Proof. exact nothing_main. Qed.
Print Assumptions C93_from_nothing_refuted.

(** an object and a state as the constructors and setState make them *)
Example C93_case : exists (m : model (N:=XR)) s g k w x mt n0,
  sm_psd m = P_MONO /\ hasMechs m k /\ okAny k /\ mN k = N_NONE /\ mG k = G_LIN /\ valid s g [0; 0] /\ regular k g 0 0 /\
  wts s = [Fin w] /\ absc s = [Fin x] /\ 0 < mt /\ mtar s = Fin mt /\ tarVar s = [Fin n0] /\
  tarSources (sm_sources m) = [Fin 0] /\ sm_tar m = newTar T_AJ_RED /\ gY g CO2 = 0 /\ gY g H2O = 0 /\ gT g <= 2500 /\ 1 <= n0 <= 10 ^ 5.
Proof. exact crack_case. Qed.
