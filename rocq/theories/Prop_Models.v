(** Property C86: the equations of the documentation pages of the size models against the code. *)
From Coq Require Import ZArith List Reals.
From Verif Require Import Num Defs State Coag Nucl Growth Oxid Tar SootModel Logn Qmom Calls XR SpecState SpecChem SpecCoag SpecValid SpecRates SpecPah SpecPsd SpecSect SpecQmom SpecLogn SpecModels
  ValidProofs QmomSame ModelsProofs.
Import ListNotations.
Local Open Scope R_scope.

(** ** fractional moments *)
(** lognormal: the printed product, and the printed median and variance give the same *)
Theorem C86_moments : forall M0 M1 M2 r, 0 < M0 -> 0 < M1 -> 0 < M2 ->
  lognMr (N:=XR) (Fin r) (Fin M0) (Fin M1) (Fin M2) = Fin (docLognMoment M0 M1 M2 r) /\
  docLognMoment M0 M1 M2 r = M0 * Rpower (docMedian M0 M1 M2) r * exp (r ^ 2 * docVariance M0 M1 M2 / 2).
Proof. exact C86_moment_. Qed.
Print Assumptions C86_moments.

(** monodisperse: surface reactions see the printed moment of order 2/3 *)
Theorem C86_mono : forall (m : model (N:=XR)) s g k M0 M1 st eig,
  sm_psd m = P_MONO -> hasAll m k -> okAll k -> noTar m -> valid s g [M0; M1] -> 0 < M0 -> 0 < M1 -> regular k g M0 M1 ->
  length (wts s) = 1%nat -> length (absc s) = 1%nat -> onlySurface k ->
  exists m' s', setSourceTerms st eig m s = Ok (st, m', s') /\
    soots m' = [Fin 0; Fin ((kgrow k g M0 M1 - koxid k g M0 M1) * (piC * Rpower (6 / (piC * sootDensity)) (2 / 3)) * docMonoMoment M0 M1 (2 / 3))].
Proof. exact C86_mono_. Qed.
Print Assumptions C86_mono.

(** ** lognormal coagulation *)
(** free-molecular: as printed times FM_multiplier, [b] to 5e-5 the printed average *)
Theorem C86_logn_FM : forall (m : model (N:=XR)) s g k M0 M1 M2 st eig, readyLogn m s g k M0 M1 M2 -> onlyCoag k C_FM -> 0 < M0 -> 0 < M1 -> 0 < M2 ->
  exists m' b, setSourceTerms st eig m s = Ok (st, m', s) /\ soots m' = [Fin (mF k * docLognFM0 g M0 M1 M2 b); Fin 0; Fin (mF k * docLognFM2 g M0 M1 M2 b)] /\
    Rabs (b - docB) < 5 / 10 ^ 5.
Proof. exact C86_fm_. Qed.
Print Assumptions C86_logn_FM.
(** the approximation is said to cost at worst 15 percent: for equal masses it costs
    more than 20 (never more than 21) *)
Theorem C86_factor_refuted : forall m, 0 < m -> 20 / 100 < docError docB m m /\ 20 / 100 < docError (8536 / 10000) m m.
Proof. exact C86_error_. Qed.
Print Assumptions C86_factor_refuted.
Theorem C86_factor_worst : forall m mu, 0 < m -> 0 < mu -> docError (8536 / 10000) m mu < 21 / 100.
Proof. exact C86_error_most. Qed.
Print Assumptions C86_factor_worst.
(** continuum: as printed with 1.657; the printed 1.675 gives a faster loss of
    particles and a faster gain of the second moment for all soot *)
Theorem C86_logn_continuum_refuted : forall (m : model (N:=XR)) s g k M0 M1 M2 st eig, readyLogn m s g k M0 M1 M2 -> onlyCoag k C_CONTINUUM -> 0 < M0 -> 0 < M1 -> 0 < M2 ->
  exists m' r0 r2, setSourceTerms st eig m s = Ok (st, m', s) /\ soots m' = [Fin r0; Fin 0; Fin r2] /\
    r0 = docLognC0 g M0 M1 M2 (1657 / 1000) /\ r2 = docLognC2 g M0 M1 M2 (1657 / 1000) /\
    docLognC0 g M0 M1 M2 (1675 / 1000) < r0 /\ r2 < docLognC2 g M0 M1 M2 (1675 / 1000).
Proof. exact C86_continuum_. Qed.
Print Assumptions C86_logn_continuum_refuted.
Example C86_logn_case : forall co M0 M1 M2, co = C_FM \/ co = C_CONTINUUM -> 0 < M0 -> 0 < M1 -> 0 < M2 ->
  exists (m : model (N:=XR)) s, constructEnum P_LOGN 3 N_NONE G_NONE O_NONE co 0 T_NONE (Fin 2) 100 = Ok m /\
    call (newState 3 0) (argsOf demoGas [M0; M1; M2] []) = SetOk s /\ readyLogn m s demoGas (mkMechs N_NONE G_NONE O_NONE co 1) M0 M1 M2 /\
    onlyCoag (mkMechs N_NONE G_NONE O_NONE co 1) co.
Proof. exact case_logn. Qed.

(** ** quadrature: the printed double sum over the nodes *)
Theorem C86_qmom : forall m s g k c soot p eig st r m' s' w x, readyQmom m s g k soot p -> onlyCoag k c -> setSourceTerms st eig m s = Ok (r, m', s') -> nodesAre s' w x ->
  nth_error (soots m') 0 = Some (Fin (- (1 / 2) * Sum (length w) (fun i => Sum (length w) (fun j => kernel k g (el x i) (el x j) * el w i * el w j)))).
Proof. exact C86_qmom_. Qed.
Print Assumptions C86_qmom.
Example C86_qmom_case : forall soot p, (1 <= p <= 50)%nat -> length soot = (2 * p)%nat -> nonneg soot ->
  exists m s, constructEnum P_QMOM (2 * p) N_NONE G_NONE O_NONE C_FM 0 T_NONE (Fin 2) 100 = Ok m /\
    call (newState (2 * p) 0) (argsOf demoGas soot []) = SetOk s /\ readyQmom m s demoGas (mkMechs N_NONE G_NONE O_NONE C_FM 1) soot p.
Proof. exact (fun soot p => quad_case N_NONE G_NONE O_NONE soot p (or_intror (or_intror eq_refl)) (or_intror eq_refl) (or_intror eq_refl)). Qed.

(** ** sections *)
(** growth as printed; oxidation as printed with k_o in the first bin too *)
Theorem C86_sect_surface : forall (m m' : model (N:=XR)) s s' g k b n F c st st' eig,
  isSect m b F -> goodBins b -> hasAll m k -> okAll k -> valid s g n -> length n = length b ->
  regular k g (number n) (mass b n) -> located st F c -> setSourceTerms st eig m s = Ok (st', m', s') -> onlySurface k ->
  let a := fun l => sphere (el b l) in let kg := kgrow k g (number n) (mass b n) in let ko := koxid k g (number n) (mass b n) in
  soots m' = map (fun j => Fin (docGrowBin b n a kg j + docOxidBin b n a ko ko j)) (seq 0 (length b)).
Proof. exact C86_sect_. Qed.
Print Assumptions C86_sect_surface.
(** the page prints k_g there: another rate for the first bin, and the bins together
    do not lose the mass that is oxidised *)
Theorem C86_sect_oxidation_refuted : forall g k b n, goodBins b -> length n = length b ->
  let a := fun l => sphere (el b l) in let kg := kgrow k g (number n) (mass b n) in let ko := koxid k g (number n) (mass b n) in
  0 < el n 0 -> kg <> ko -> docOxidBin b n a ko kg 0 <> docOxidBin b n a ko ko 0 /\
  Sum (length b) (fun j => el b j * docOxidBin b n a ko ko j) = - (ko * totalArea b n) /\
  Sum (length b) (fun j => el b j * docOxidBin b n a ko kg j) <> - (ko * totalArea b n).
Proof. exact C86_printed_. Qed.
Print Assumptions C86_sect_oxidation_refuted.
Example C86_surface_case : forall gr ox, gr = G_LL \/ gr = G_NONE -> ox = O_LL \/ ox = O_NONE ->
  exists (mM mS : model (N:=XR)) s s', let k := mkMechs N_NONE gr ox C_NONE 1 in let b := geometric 100 2 4 in let n := [1; 0; 1; 0] in
  (sm_psd mM = P_MONO /\ hasAll mM k /\ okAll k /\ noTar mM /\ valid s demoGas [1; 1] /\ regular k demoGas 1 1 /\ length (wts s) = 1%nat /\ length (absc s) = 1%nat /\ onlySurface k) /\
  (isSect mS b 2 /\ goodBins b /\ hasAll mS k /\ valid s' demoGas n /\ length n = length b /\ regular k demoGas (number n) (mass b n) /\ located None 2 (/ ln 2) /\
   (gr = G_NONE -> ox = O_LL -> kgrow k demoGas (number n) (mass b n) <> koxid k demoGas (number n) (mass b n)) /\
   forall eig, exists r, setSourceTerms None eig mS s' = Ok r).
Proof. exact case_surface. Qed.

(** coagulation: the printed sum pairs bins whose numbers add up, which makes mass
    for soot in the second of four bins; the code makes none *)
Theorem C86_sect_coagulation_refuted : forall c0 F n0 m s g k st eig, (0 < c0)%Z -> 2 <= F -> let b := geometric c0 F 4 in let n := [0; n0; 0; 0] in
  isSect m b F -> hasAll m k -> okAll k -> valid s g n -> onlyCoag k (mC k) -> mC k <> C_NONE -> 0 < n0 -> massCutoff < el b 1 -> ownConst st F ->
  exists m' s' st' q, setSourceTerms st eig m s = Ok (st', m', s') /\ soots m' = map Fin q /\ length q = 4%nat /\ mass b q = 0 /\
    0 < mass b (map (docCoagBin b n (kernel k g)) (seq 0 4)).
Proof. exact C86_coag_. Qed.
Print Assumptions C86_sect_coagulation_refuted.
Example C86_sect_case : forall F, 2 <= F -> exists (m : model (N:=XR)) s, let k := mkMechs N_NONE G_NONE O_NONE C_FM 1 in
  isSect m (geometric 100 F 4) F /\ hasAll m k /\ okAll k /\ valid s demoGas [0; 1; 0; 0] /\ onlyCoag k (mC k) /\ mC k <> C_NONE /\
  massCutoff < el (geometric 100 F 4) 1 /\ ownConst None F.
Proof. exact case_sect. Qed.
