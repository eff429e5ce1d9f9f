(** Property C45: PAH nucleation when the gas holds no PAH.  MONO, QMOM and
    SECT behave as without nucleation; LOGN and MOMIC return NaN. *)
From Coq Require Import ZArith List Bool Reals Lra Lia.
From Verif Require Import Num Defs State Coag Nucl Growth Oxid Tar SootModel Calls XR SpecState SpecChem SpecCoag SpecValid SpecRates SpecGas SpecPah SpecPsd SpecSect SpecQmom SpecLogn SpecMomic SpecBalance
  ValidProofs NoPahMain NoPahCases.
Import ListNotations.
Local Open Scope R_scope.

(** [m] uses PAH nucleation, [m0] is the same model without nucleation; [likeWithout]: same
    soot and gas sources, no PAH source *)
Theorem C45_mono : forall (m m0 : model (N:=XR)) s g k M0 M1 st eig,
  sm_psd m = P_MONO -> sm_psd m0 = P_MONO -> hasAll m k -> okAll k -> isP k = true -> noPah g -> hasAll m0 (noNucl k) -> noTar m -> noTar m0 ->
  valid s g [M0; M1] -> regular k g M0 M1 ->
  length (wts s) = 1%nat -> length (absc s) = 1%nat -> (M0 = 0 -> exists w x, wts s = [Fin w] /\ absc s = [Fin x]) ->
  exists m' s' m0' s0', setSourceTerms st eig m s = Ok (st, m', s') /\ setSourceTerms st eig m0 s = Ok (st, m0', s0') /\ likeWithout m' m0'.
Proof. exact mono_nopah. Qed.
Print Assumptions C45_mono.
(** any number of nodes and any eigen-solver *)
Theorem C45_qmom : forall (m m0 : model (N:=XR)) s g k soot p eig st r m' s',
  readyQmom m s g k soot p -> isP k = true -> noPah g -> readyQmom m0 s g (noNucl k) soot p -> setSourceTerms st eig m s = Ok (r, m', s') ->
  exists m0' s0', setSourceTerms st eig m0 s = Ok (r, m0', s0') /\ likeWithout m' m0'.
Proof. exact qmom_nopah. Qed.
Print Assumptions C45_qmom.
Theorem C45_sect : forall m m0 m' m0' s s' s0' g k b n F c st st' st0' eig,
  isSect m b F -> isSect m0 b F -> goodBins b -> hasAll m k -> hasAll m0 (noNucl k) -> okAll k -> isP k = true -> noPah g -> valid s g n -> length n = length b ->
  regular k g (number n) (mass b n) -> located st F c -> setSourceTerms st eig m s = Ok (st', m', s') -> setSourceTerms st eig m0 s = Ok (st0', m0', s0') ->
  st' = st0' /\ likeWithout m' m0'.
Proof. exact sect_nopah. Qed.
Print Assumptions C45_sect.
(** lognormal: every non-negative moments, vanishing ones included *)
Theorem C45_logn : forall (m : model (N:=XR)) s g k M0 M1 M2 st eig, readyLogn m s g k M0 M1 M2 -> isP k = true -> noPah g ->
  exists m' s', setSourceTerms st eig m s = Ok (st, m', s') /\ soots m' = [Fin (lognC0 k g (mom M0 M1 M2)); NaN; NaN] /\ pahs m' = map (fun _ => Fin 0) allPah.
Proof. exact logn_nopah_any. Qed.
Print Assumptions C45_logn.
Theorem C45_momic : forall (m : model (N:=XR)) s g k M st eig, readyMomic m s g k M -> allPos M -> isP k = true -> noPah g ->
  exists m' s', setSourceTerms st eig m s = Ok (st, m', s') /\ length (soots m') = length M /\
    nth_error (soots m') 0 = Some (Fin (momCoag k g (momicMom M) 0)) /\
    (forall r, (1 <= r < length M)%nat -> nth_error (soots m') r = Some NaN) /\ pahs m' = map (fun _ => Fin 0) allPah.
Proof. exact momic_nopah. Qed.
Print Assumptions C45_momic.

(** models and states made by the constructors and setState, with the gas [dryGas] *)
Example C45_mono_case : exists (m m0 : model (N:=XR)) s g k M0 M1,
  sm_psd m = P_MONO /\ sm_psd m0 = P_MONO /\ hasAll m k /\ okAll k /\ isP k = true /\ noPah g /\ hasAll m0 (noNucl k) /\ noTar m /\ noTar m0 /\
  valid s g [M0; M1] /\ regular k g M0 M1 /\ 0 < M0 /\ massCutoff < M1 / M0 /\ length (wts s) = 1%nat /\ length (absc s) = 1%nat.
Proof. exact nopah_case_mono. Qed.
Example C45_qmom_case : forall p, (1 <= p <= 50)%nat -> exists (m m0 : model (N:=XR)) s g k,
  readyQmom m s g k (momentsOf [1] [1] (2 * p)) p /\ isP k = true /\ noPah g /\ readyQmom m0 s g (noNucl k) (momentsOf [1] [1] (2 * p)) p.
Proof. exact nopah_case_qmom. Qed.
Example C45_sect_case : exists (m m0 : model (N:=XR)) s g k n, let b := geometric 100 2 4 in
  isSect m b 2 /\ isSect m0 b 2 /\ goodBins b /\ hasAll m k /\ hasAll m0 (noNucl k) /\ okAll k /\ isP k = true /\ noPah g /\ valid s g n /\ length n = length b /\
  regular k g (number n) (mass b n) /\ located None 2 (/ ln 2) /\ el n 0 = 1 /\
  forall eig, (exists r, setSourceTerms None eig m s = Ok r) /\ (exists r, setSourceTerms None eig m0 s = Ok r).
Proof. exact nopah_case_sect. Qed.
Example C45_logn_case : forall co, co = C_FM \/ co = C_CONTINUUM \/ co = C_HM -> exists (m : model (N:=XR)) s, readyLogn m s dryGas (mkMechs N_PAH G_LL O_LL co 1) 3 4 7 /\ noPah dryGas.
Proof. intros co H. destruct (nopah_case_logn co H) as (m & s & A). exists m, s. split; [exact A|exact dry_none]. Qed.
Example C45_momic_case : forall co, co = C_FM \/ co = C_CONTINUUM \/ co = C_HM ->
  exists (m : model (N:=XR)) s, readyMomic m s dryGas (mkMechs N_PAH G_LL O_LL co 1) [3; 4; 7; 15] /\ allPos [3; 4; 7; 15].
Proof. exact nopah_case_momic. Qed.
