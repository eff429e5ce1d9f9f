(** Property C21: without PAH and tar, what the gas loses the soot gains, in every model:
    in mass, and in atoms of carbon, hydrogen and oxygen. *)
From Coq Require Import ZArith List Bool Reals Lra Lia.
From Verif Require Import Num Defs State Coag Nucl Growth Oxid Tar SootModel Calls XR SpecState SpecChem SpecCoag SpecValid SpecRates SpecGas SpecPah SpecPsd SpecSect SpecQmom SpecLogn SpecMomic SpecBalance
  ValidProofs MonoCases SectCases SectFinal QmomSame LognCases MomicCases BalanceMain.
Import ListNotations.
Local Open Scope R_scope.

(** monodisperse; without particles the node kept by the state must be finite *)
Theorem C21_mono : forall (m : model (N:=XR)) s g k M0 M1 st eig,
  sm_psd m = P_MONO -> hasAll m k -> okAll k -> isP k = false -> noTar m -> valid s g [M0; M1] -> regular k g M0 M1 ->
  length (wts s) = 1%nat -> length (absc s) = 1%nat -> (M0 = 0 -> exists w x, wts s = [Fin w] /\ absc s = [Fin x]) ->
  exists m' s' y, setSourceTerms st eig m s = Ok (st, m', s') /\ sourceIs m' 1 y /\ massBalanced m' y.
Proof. exact mono_bal. Qed.
Print Assumptions C21_mono.
Theorem C21_logn : forall (m : model (N:=XR)) s g k M0 M1 M2 st eig, readyLogn m s g k M0 M1 M2 -> isP k = false ->
  exists m' s' y, setSourceTerms st eig m s = Ok (st, m', s') /\ sourceIs m' 1 y /\ massBalanced m' y.
Proof. exact logn_bal. Qed.
Print Assumptions C21_logn.
(** any number of nodes and any eigen-solver *)
Theorem C21_qmom : forall (m : model (N:=XR)) s g k soot p eig st r m' s', readyQmom m s g k soot p -> isP k = false ->
  setSourceTerms st eig m s = Ok (r, m', s') -> exists y, sourceIs m' 1 y /\ massBalanced m' y.
Proof. exact qmom_bal. Qed.
Print Assumptions C21_qmom.
(** any non-negative moments, vanishing ones included *)
Theorem C21_momic : forall (m : model (N:=XR)) s g k M st eig, readyMomic m s g k M -> isP k = false ->
  exists m' s' y, setSourceTerms st eig m s = Ok (st, m', s') /\ sourceIs m' 1 y /\ massBalanced m' y.
Proof. exact momic_bal. Qed.
Print Assumptions C21_momic.
(** the soot mass source is the sum of bin masses times bin sources *)
Theorem C21_sect : forall m m' s s' g k b n F c st st' eig,
  isSect m b F -> goodBins b -> hasAll m k -> okAll k -> isP k = false -> valid s g n -> length n = length b ->
  regular k g (number n) (mass b n) -> located st F c -> setSourceTerms st eig m s = Ok (st', m', s') ->
  exists q, soots m' = map Fin q /\ length q = length b /\ massBalanced m' (mass b q).
Proof. exact sect_bal. Qed.
Print Assumptions C21_sect.

(** models and states made by the constructors and setState *)
Example C21_mono_case : exists (m : model (N:=XR)) s g k M0 M1,
  sm_psd m = P_MONO /\ hasMechs m k /\ okMechs k /\ 0 < Jnuc k g /\ noTar m /\ valid s g [M0; M1] /\ 0 < M0 /\ regular k g M0 M1 /\
  length (wts s) = 1%nat /\ length (absc s) = 1%nat /\ massCutoff < M1 / M0.
Proof. exact mono_case_gas. Qed.
Example C21_logn_case : exists m s, readyLogn m s demoGas (mkMechs N_LL G_LL O_LL C_HM 1) 3 0 7.
Proof. destruct (logn_case N_LL C_HM 3 0 7) as (m & s & _ & _ & R); auto; try lra. now exists m, s. Qed.
Example C21_qmom_case : forall p, (1 <= p <= 50)%nat -> exists m s g k, readyQmom m s g k (momentsOf [1] [1] (2 * p)) p /\ mC k <> C_NONE /\ 0 < kgrow k g 1 1.
Proof. exact case_any. Qed.
Example C21_momic_case : exists m s, readyMomic m s demoGas (mkMechs N_LL G_LL O_LL C_HM 1) [2; 0; 7; 50].
Proof.
  destruct (momic_case N_LL C_HM [2; 0; 7; 50]) as (m & s & _ & _ & R); auto. { cbn; lia. } { intros y [<-|[<-|[<-|[<-|[]]]]]; lra. }
  now exists m, s.
Qed.
Example C21_sect_case : exists (m : model (N:=XR)) s g k n, let b := geometric 100 2 4 in
  isSect m b 2 /\ hasAll m k /\ okAll k /\ mN k = N_LL /\ mC k <> C_NONE /\ valid s g n /\ length n = 4%nat /\
  regular k g (number n) (mass b n) /\ el n 0 = 1 /\ goodBins b /\ forall eig, exists r, setSourceTerms None eig m s = Ok r.
Proof. destruct (case_own N_LL (or_introl eq_refl)) as (m & s & g & k & n & A & B & C & D & E & F & G & H & I & _ & _ & J & _ & _ & K). exists m, s, g, k, n. cbv zeta. auto 15. Qed.
