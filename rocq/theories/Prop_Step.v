(** Properties C73 and C74: the sectional model on one size; the length of a time step. *)
From Coq Require Import ZArith List Reals.
From Verif Require Import Num Defs State Nucl Growth Oxid Coag Tar SootModel Qmom Calls XR SpecChem SpecCoag SpecValid SpecRates SpecGas
  SpecPah SpecPsd SpecSect SpecStep SectFinal MonoCases StepProofs.
Import ListNotations.
Local Open Scope R_scope.

(** ** C73 *)
(** all soot in bin [p]: the sections together gain the mass that the monodisperse model
    gives, the gas and PAH sources are the same, and the numbers differ by the terms shown *)
Theorem C73_one_size : forall (mS mM : model (N:=XR)) s s' g k c0 F ns n p N0 st eig, (0 < c0)%Z -> doubleAbove1 F -> sane ns ->
  let b := geometric c0 F ns in let x := el b p in let o := nucl k g (N0 * kernel k g (dimerMass g) x) in
  isSect mS b F -> hasAll mS k -> okAll k -> ownConst st F ->
  sm_psd mM = P_MONO -> hasAll mM k -> noTar mM -> length (wts s') = 1%nat -> length (absc s') = 1%nat ->
  0 < N0 -> length n = ns -> oneSize n p N0 -> valid s g n -> valid s' g [N0; N0 * x] -> regular k g N0 (N0 * x) ->
  exists st' rS rM t t' q q0 q1, setSourceTerms st eig mS s = Ok (st', rS, t) /\ setSourceTerms st eig mM s' = Ok (st, rM, t') /\
    soots rS = map Fin q /\ length q = ns /\ soots rM = [Fin q0; Fin q1] /\
    mass b q = q1 /\ gases rS = gases rM /\ (pahs mS = pahs mM -> pahs rS = pahs rM) /\
    number q - q0 =
      (oN1 o / el b 0 - oJ o)
      + (if Nat.eqb (S p) ns then (kgrow k g N0 (N0 * x) * sphere x + kernel k g (oMass o) x * oConc o * oMass o) * N0 / x else 0)
      - (if Nat.eqb p 0 then koxid k g N0 (N0 * x) * sphere x * N0 / x else 0)
      + (if Rle_dec (el b (ns - 1)) (2 * x) then 1 / 2 * kernel k g x x * N0 ^ 2 * (2 * x / el b (ns - 1) - 1) else 0).
Proof. exact C73_. Qed.
Print Assumptions C73_one_size.
(** neither first nor last bin, products below the last bin, particles born at the mass
    of the first bin: the numbers agree too *)
Theorem C73_same_totals : forall (mS mM : model (N:=XR)) s s' g k c0 F ns n p N0 st eig, (0 < c0)%Z -> doubleAbove1 F -> sane ns ->
  let b := geometric c0 F ns in let x := el b p in
  isSect mS b F -> hasAll mS k -> okAll k -> ownConst st F ->
  sm_psd mM = P_MONO -> hasAll mM k -> noTar mM -> length (wts s') = 1%nat -> length (absc s') = 1%nat ->
  0 < N0 -> length n = ns -> oneSize n p N0 -> valid s g n -> valid s' g [N0; N0 * x] -> regular k g N0 (N0 * x) ->
  mN k = N_NONE \/ isP k = false /\ gCMin g = IZR c0 -> (0 < p)%nat -> (S p < ns)%nat -> 2 * x < el b (ns - 1) ->
  exists st' rS rM t t' q q0 q1, setSourceTerms st eig mS s = Ok (st', rS, t) /\ setSourceTerms st eig mM s' = Ok (st, rM, t') /\
    soots rS = map Fin q /\ soots rM = [Fin q0; Fin q1] /\ number q = q0 /\ mass b q = q1 /\ gases rS = gases rM.
Proof. exact C73_same_. Qed.
Print Assumptions C73_same_totals.
(** soot in the second of four bins, with and without PAH *)
Example C73_case : forall nm, nm = N_LL \/ nm = N_PAH -> exists (mS mM : model (N:=XR)) s s' g k n N0, let b := geometric 100 2 4 in
  isSect mS b 2 /\ hasAll mS k /\ okAll k /\ sm_psd mM = P_MONO /\ hasAll mM k /\ noTar mM /\ length (wts s') = 1%nat /\ length (absc s') = 1%nat /\
  0 < N0 /\ length n = 4%nat /\ oneSize n 1 N0 /\ valid s g n /\ valid s' g [N0; N0 * el b 1] /\ regular k g N0 (N0 * el b 1) /\
  doubleAbove1 2 /\ sane 4 /\ ownConst None 2 /\ mN k = nm /\ mC k = C_FM /\ massCutoff < el b 1 /\ 2 * el b 1 < el b 3 /\ pahs mS = pahs mM /\ gCMin g = 100.
Proof. exact C73_case_. Qed.

(** ** C74 *)
(** no bin loses particles faster than the rate [loss j] per particle; so an explicit step
    with [dt * loss j <= 1] leaves no negative number *)
Theorem C74_sect : forall m s g k c0 F ns n st eig, (0 < c0)%Z -> doubleAbove1 F -> sane ns ->
  let b := geometric c0 F ns in
  isSect m b F -> hasAll m k -> okAll k -> valid s g n -> length n = ns -> regular k g (number n) (mass b n) -> ownConst st F ->
  let loss := sectLoss k g b n (nucl k g (dimerHits k g b n)) in
  exists st' m' s' q, setSourceTerms st eig m s = Ok (st', m', s') /\ soots m' = map Fin q /\ length q = ns /\
    (forall j, (j < ns)%nat -> - (loss j * el n j) <= el q j) /\
    forall dt, 0 <= dt -> (forall j, (j < ns)%nat -> dt * loss j <= 1) -> forall y, In y (euler dt n q) -> 0 <= y.
Proof. exact C74_sect_. Qed.
Print Assumptions C74_sect.
Theorem C74_mono : forall m s g k M0 M1 st eig, sm_psd m = P_MONO -> hasAll m k -> okAll k -> noTar m -> valid s g [M0; M1] -> 0 < M0 ->
  regular k g M0 M1 -> length (wts s) = 1%nat -> length (absc s) = 1%nat ->
  exists m' s' q0 q1, setSourceTerms st eig m s = Ok (st, m', s') /\ soots m' = [Fin q0; Fin q1] /\
    - (monoLoss0 k g M0 M1 * M0) <= q0 /\ - (monoLoss1 k g M0 M1 * M1) <= q1 /\
    (mN k = N_NONE -> q0 = - (monoLoss0 k g M0 M1 * M0)) /\
    forall dt, 0 <= dt -> dt * monoLoss0 k g M0 M1 <= 1 -> dt * monoLoss1 k g M0 M1 <= 1 -> forall y, In y (euler dt [M0; M1] [q0; q1]) -> 0 <= y.
Proof. exact C74_mono_. Qed.
Print Assumptions C74_mono.
(** without nucleation a longer step gives a negative number *)
Theorem C74_sharp : forall m s g k M0 M1 st eig, sm_psd m = P_MONO -> hasAll m k -> okAll k -> noTar m -> valid s g [M0; M1] -> 0 < M0 ->
  regular k g M0 M1 -> length (wts s) = 1%nat -> length (absc s) = 1%nat -> mN k = N_NONE ->
  exists m' s' q0 q1, setSourceTerms st eig m s = Ok (st, m', s') /\ soots m' = [Fin q0; Fin q1] /\
    forall dt, 0 <= M0 + dt * q0 <-> dt * monoLoss0 k g M0 M1 <= 1.
Proof. exact C74_sharp_. Qed.
Print Assumptions C74_sharp.
Example C74_case : exists (m : model (N:=XR)) s g k M0 M1,
  sm_psd m = P_MONO /\ hasAll m k /\ okAll k /\ mN k = N_NONE /\ noTar m /\ valid s g [M0; M1] /\ 0 < M0 /\ regular k g M0 M1 /\
  length (wts s) = 1%nat /\ length (absc s) = 1%nat /\ 0 < monoLoss0 k g M0 M1.
Proof. exact C74_case_. Qed.
(** C74_sect: soot in bins 0 and 2 of four, with and without PAH *)
Example C74_sect_case : forall nm, nm = N_LL \/ nm = N_PAH -> exists (m : model (N:=XR)) s g k n, let b := geometric 100 2 4 in
  isSect m b 2 /\ hasAll m k /\ okAll k /\ mN k = nm /\ mC k <> C_NONE /\ valid s g n /\ length n = 4%nat /\
  regular k g (number n) (mass b n) /\ el n 0 = 1 /\ el n 1 = 0 /\ el n 2 = 1 /\ goodBins b /\ doubleAbove1 2 /\ sane 4 /\
  forall eig, exists r, setSourceTerms None eig m s = Ok r.
Proof. exact case_own. Qed.
