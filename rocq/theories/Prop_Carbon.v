(** Property C69: carbon, hydrogen and oxygen in the sources of a call with PAH
    nucleation, any growth, oxidation and coagulation mechanisms. *)
From Coq Require Import ZArith List Reals Lra Lia.
From Verif Require Import Num Defs State Nucl Growth Oxid Coag Tar SootModel Qmom Calls XR SpecState SpecChem SpecCoag SpecValid SpecRates SpecGas
  SpecPah SpecPsd SpecSect SpecQmom SpecLogn SpecMomic SpecBalance SpecCarbon MonoMain MonoCases LognCases MomicCases QmomSame SectFinal ValidProofs CarbonMain CarbonCases.
Import ListNotations.
Local Open Scope R_scope.

Theorem C69_mono : forall (m : model (N:=XR)) s g k, isP k = true -> somePah g -> forall M0 M1 st eig,
  sm_psd m = P_MONO -> hasAll m k -> okAll k -> noTar m -> valid s g [M0; M1] -> 0 < M0 -> regular k g M0 M1 ->
  length (wts s) = 1%nat -> length (absc s) = 1%nat ->
  exists m' s' y, setSourceTerms st eig m s = Ok (st, m', s') /\ sourceIs m' 1 y /\ pahBudget m' g y.
Proof. exact carbon_mono. Qed.
Print Assumptions C69_mono.
Theorem C69_logn : forall (m : model (N:=XR)) s g k, isP k = true -> somePah g -> forall M0 M1 M2 st eig,
  readyLogn m s g k M0 M1 M2 -> 0 < M0 -> 0 < M1 ->
  exists m' s' y, setSourceTerms st eig m s = Ok (st, m', s') /\ sourceIs m' 1 y /\ pahBudget m' g y.
Proof. exact carbon_logn. Qed.
Print Assumptions C69_logn.
(** any number of nodes, any eigen-solver, vanishing moments included *)
Theorem C69_qmom : forall (m : model (N:=XR)) s g k, isP k = true -> somePah g -> forall soot p eig st r m' s',
  readyQmom m s g k soot p -> setSourceTerms st eig m s = Ok (r, m', s') -> exists y, sourceIs m' 1 y /\ pahBudget m' g y.
Proof. exact carbon_qmom. Qed.
Print Assumptions C69_qmom.
Theorem C69_momic : forall (m : model (N:=XR)) s g k, isP k = true -> somePah g -> forall M st eig,
  readyMomic m s g k M -> allPos M ->
  exists m' s' y, setSourceTerms st eig m s = Ok (st, m', s') /\ sourceIs m' 1 y /\ pahBudget m' g y.
Proof. exact carbon_momic. Qed.
Print Assumptions C69_momic.
(** the soot mass source is the sum of bin masses times bin sources *)
Theorem C69_sect : forall (m : model (N:=XR)) s g k, isP k = true -> somePah g -> forall m' s' b n F c st st' eig,
  isSect m b F -> goodBins b -> hasAll m k -> okAll k -> valid s g n -> length n = length b ->
  regular k g (number n) (mass b n) -> located st F c -> setSourceTerms st eig m s = Ok (st', m', s') ->
  exists q, soots m' = map Fin q /\ length q = length b /\ pahBudget m' g (mass b q).
Proof. exact carbon_sect. Qed.
Print Assumptions C69_sect.
(** so elements are not conserved: at least half of the hydrogen of the PAH vanishes, and
    carbon vanishes unless cMin exceeds twice the carbon atoms consumed per m3 and s *)
Theorem C69_conserved_refuted : forall (s : state (N:=XR)) g soot m y, valid s g soot -> somePah g -> pahBudget m g y -> loses m g y.
Proof. exact budget_loses. Qed.
Print Assumptions C69_conserved_refuted.

(** models and states made by the constructors and setState *)
Example C69_mono_case : exists (m : model (N:=XR)) s g k M0 M1,
  sm_psd m = P_MONO /\ hasAll m k /\ okAll k /\ mN k = N_PAH /\ somePah g /\ noTar m /\ valid s g [M0; M1] /\ 0 < M0 /\ regular k g M0 M1 /\
  length (wts s) = 1%nat /\ length (absc s) = 1%nat /\ massCutoff < M1 / M0.
Proof. exact mono_case_pah. Qed.
Example C69_logn_case : forall co, co = C_FM \/ co = C_CONTINUUM \/ co = C_HM ->
  exists (m : model (N:=XR)) s, readyLogn m s demoGas (mkMechs N_PAH G_LL O_LL co 1) 3 4 7 /\ somePah demoGas.
Proof. intros co H. destruct (logn_case N_PAH co 3 4 7) as (m & s & _ & _ & R); auto; try lra. exists m, s. split; [exact R|exact demo_pah]. Qed.
Example C69_qmom_case : exists m s, readyQmom m s demoGas (mkMechs N_PAH G_LL O_LL C_FM 1) [3; 4; 7; 15] 2 /\ somePah demoGas.
Proof.
  destruct (quad_case N_PAH G_LL O_LL [3; 4; 7; 15] 2) as (m & s & _ & _ & R); auto; try lia. { intros y [<-|[<-|[<-|[<-|[]]]]]; lra. }
  exists m, s. split; [exact R|exact demo_pah].
Qed.
Example C69_momic_case : forall co, co = C_FM \/ co = C_CONTINUUM \/ co = C_HM ->
  exists (m : model (N:=XR)) s, readyMomic m s demoGas (mkMechs N_PAH G_LL O_LL co 1) [3; 4; 7; 15] /\ allPos [3; 4; 7; 15] /\ somePah demoGas.
Proof.
  intros co H. assert (P : allPos [3; 4; 7; 15]) by (intros y [<-|[<-|[<-|[<-|[]]]]]; lra).
  destruct (momic_case N_PAH co [3; 4; 7; 15]) as (m & s & _ & _ & R); auto. { cbn; lia. } { intros y Hy. apply Rlt_le. auto. }
  exists m, s. split; [exact R|]. split; [exact P|exact demo_pah].
Qed.
Example C69_sect_case : exists (m : model (N:=XR)) s k n, let b := geometric 100 2 4 in
  isSect m b 2 /\ goodBins b /\ hasAll m k /\ okAll k /\ isP k = true /\ somePah demoGas /\ valid s demoGas n /\ length n = length b /\
  regular k demoGas (number n) (mass b n) /\ located None 2 (/ ln 2) /\ el n 0 = 1 /\ forall eig, exists r, setSourceTerms None eig m s = Ok r.
Proof. exact carbon_case_sect. Qed.
Example C69_small_nuclei : exists (s : state (N:=XR)) g soot, valid s g soot /\ somePah g /\ gCMin g < 2 * avogadro * consumed pahAtomsC g.
Proof. exact carbon_case_small. Qed.
