(** Property C83: growth, PAH and coagulation formulas of the documentation against the code. *)
From Coq Require Import ZArith List Reals.
From Verif Require Import Num Defs State Coag Nucl Growth Oxid SootModel XR SpecChem SpecCoag SpecState SpecValid SpecRates SpecPah SpecPsd SpecSites SpecDocs ValidProofs DocsProofs.
Import ListNotations.
Local Open Scope R_scope.

(** ** growth: total rates per volume *)
Theorem C83_growth_LL_refuted : forall (s : state (N:=XR)) g soot, valid s g soot -> forall v M0 M1 gr, seesMoments v soot M0 M1 -> 0 < M0 -> 0 < M1 -> gr_class gr = G_LL ->
  exists r, growRate gr v s = Ok (Fin r) /\ 2 * massC * docGrowLL g M0 M1 = 10 * exp (- 9000 / gT g) * (r * surface M0 M1) /\
    (0 < gY g C2H2 -> gT g <= 3600 -> 2 * massC * docGrowLL g M0 M1 < r * surface M0 M1).
Proof. exact C83_ll_. Qed.
Print Assumptions C83_growth_LL_refuted.

Theorem C83_growth_LIN_refuted : forall (s : state (N:=XR)) g soot, valid s g soot -> forall v M0 M1 gr, seesMoments v soot M0 M1 -> 0 < M1 <= M0 -> gr_class gr = G_LIN ->
  exists r, growRate gr v s = Ok (Fin r) /\ r * surface M0 M1 = docGrowLIN g M0 * sphere (M1 / M0) /\ 0 < sphere (M1 / M0) < 1 /\
    (0 < gY g C2H2 -> r * surface M0 M1 < docGrowLIN g M0).
Proof. exact C83_lin_. Qed.
Print Assumptions C83_growth_LIN_refuted.

(** two carbon atoms per reaction *)
Theorem C83_growth_HACA_refuted : forall (s : state (N:=XR)) g soot, valid s g soot -> forall v M0 M1 gr, seesMoments v soot M0 M1 -> (M1 < M0 \/ M0 = 0) ->
  gr_class gr = G_HACA -> gT g <= 2153 -> hacaDown g <> 0 -> growRate gr v s = Ok (Fin (2 * hacaMass (docGrowHACA g))).
Proof. exact C83_haca_. Qed.
Print Assumptions C83_growth_HACA_refuted.

(** ** oxidation by O2: the pressure in atm, the rate in thousandths of the documented unit *)
Theorem C83_oxidation_LEE : forall (s : state (N:=XR)) g soot, valid s g soot -> forall v M0 M1 o, seesMoments v soot M0 M1 -> ox_class o = O_LEE_NEOH -> gY g OH = 0 ->
  exists r, oxidRate o v s = Ok (Fin r) /\ r = docLee (gT g) (atm (partialP g O2)) / 1000 * exp (- (824 / 100) / gT g) /\
    (0 < gY g O2 -> r < docLee (gT g) (atm (partialP g O2)) / 1000).
Proof. exact C83_lee_. Qed.
Print Assumptions C83_oxidation_LEE.

(** ** dimers formed from PAH *)
Theorem C83_dimers : forall (s : state (N:=XR)) g soot, valid s g soot -> forall coll nu i eff, somePah g -> nu_class nu = N_PAH -> 0 <= i ->
  coll (with_cMin s (Fin (pahCMin g))) (Fin (dimerMass g)) = Ok (Fin i, eff) ->
  exists nu' J r, nuclRate coll nu s = Ok (Fin J, nu', with_cMin s (Fin (pahCMin g)), Some eff) /\ nDotD nu' = Fin r /\
    89 / 100 * docDimers g <= r <= 133 / 100 * docDimers g /\
    (gPah g C10H8 = 0 -> gPah g C12H8 = 0 -> r = docDimers g) /\
    ((forall sp, sp <> C10H8 -> gPah g sp = 0) -> r = 133 / 100 * docDimers g /\ docDimers g < r) /\
    ((forall sp, sp <> C12H8 -> gPah g sp = 0) -> r = 89 / 100 * docDimers g /\ r < docDimers g).
Proof. exact C83_dimers_. Qed.
Print Assumptions C83_dimers.

(** ** coagulation *)
Theorem C83_FM_refuted : forall (s : state (N:=XR)) t p rho mu, gasState s t p rho mu -> forall c m1 m2,
  co_class c = C_FM -> co_FM c = Fin 1 -> massCutoff < m1 -> massCutoff < m2 ->
  exists r, coagRate c s (Fin m1) (Fin m2) = Fin r /\ docFM t m1 m2 = sqrt (piC * boltzmann * t / 2) * r /\ (t <= 10 ^ 6 -> docFM t m1 m2 < r / 10 ^ 8).
Proof. exact C83_fm_. Qed.
Print Assumptions C83_FM_refuted.

Theorem C83_continuum : forall (s : state (N:=XR)) t p rho mu, gasState s t p rho mu -> forall c f m1 m2, 0 < f ->
  co_class c = C_CONTINUUM -> co_FM c = Fin f -> massCutoff < m1 -> massCutoff < m2 -> coagRate c s (Fin m1) (Fin m2) = Fin (docSumC t p rho mu m1 m2).
Proof. exact C83_cont_. Qed.
Print Assumptions C83_continuum.

Theorem C83_continuum_refuted : forall (s : state (N:=XR)) t p rho mu, gasState s t p rho mu -> forall c f m, 0 < f ->
  co_class c = C_CONTINUUM -> co_FM c = Fin f -> massCutoff < m <= 1 / 10 ^ 12 ->
  exists r, coagRate c s (Fin m) (Fin m) = Fin r /\ 0 < r /\ 5000 * r < docC t p rho mu m m.
Proof. exact C83_cont_bad. Qed.
Print Assumptions C83_continuum_refuted.

Theorem C83_harmonic_mean_refuted : forall (s : state (N:=XR)) t p rho mu, gasState s t p rho mu -> forall f m1 m2, 0 < f -> massCutoff < m1 -> massCutoff < m2 ->
  exists fm c hm, coagRate (with_f C_FM f) s (Fin m1) (Fin m2) = Fin fm /\ coagRate (with_f C_CONTINUUM f) s (Fin m1) (Fin m2) = Fin c /\
    coagRate (with_f C_HM f) s (Fin m1) (Fin m2) = Fin hm /\ 1257 / 1657 * (fm * c / (fm + c)) <= hm < fm * c / (fm + c).
Proof. exact C83_hm_. Qed.
Print Assumptions C83_harmonic_mean_refuted.

(** hypotheses met together *)
Example C83_case : exists (s : state (N:=XR)) v, call (newState 2 0) (argsOf (hotGas 1900) [10 ^ 15; / 10 ^ 4] []) = SetOk s /\ valid s (hotGas 1900) [10 ^ 15; / 10 ^ 4] /\
  gasState s 1900 101325 (1 / 5) (1 / 20000) /\ seesMoments v [10 ^ 15; / 10 ^ 4] (10 ^ 15) (/ 10 ^ 4) /\ 0 < / 10 ^ 4 < 10 ^ 15 /\ gT (hotGas 1900) <= 2153 /\
  hacaDown (hotGas 1900) <> 0 /\ 0 < gY (hotGas 1900) C2H2 /\ 0 < gY (hotGas 1900) O2 /\ somePah (hotGas 1900) /\ massCutoff < / 10 ^ 19 <= 1 / 10 ^ 12.
Proof. exact C83_case_. Qed.
