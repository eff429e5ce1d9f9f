(** Properties C16-C18 and C54: rates of the nucleation, growth and oxidation mechanisms. *)
From Coq Require Import ZArith List Reals.
From Verif Require Import Num Defs State Nucl Growth Oxid XR SpecChem SpecCoag SpecState SpecValid SpecRates ValidProofs RateProofs.
Import ListNotations.
Local Open Scope R_scope.

(** every physical gas and every list of non-negative soot variables is stored by some setState call *)
Example valid_reached : forall g soot tar, okGas g -> (forall sp, gY g sp <= 1) -> fold_left Rplus (pahVec (gPah g)) 0 <= 1 ->
  (forall x, In x soot -> 0 <= x) -> (forall x, In x tar -> 0 <= x) ->
  exists s, call (newState (length soot) (length tar)) (argsOf g soot tar) = SetOk s /\ valid s g soot /\ tarVar s = map Fin tar.
Proof. exact argsOf_ok. Qed.

(** ** C16 *)
Theorem C16_nucleation_nonnegative : forall s g soot, valid s g soot -> forall coll nu, gasOnly (nu_class nu) ->
  exists r, nuclRate coll nu s = Ok (Fin r, nu, s, None) /\ 0 <= r.
Proof. exact C16_nucl. Qed.
Print Assumptions C16_nucleation_nonnegative.

Theorem C16_growth_nonnegative : forall s g soot, valid s g soot -> forall gr v M0 M1, seesMoments v soot M0 M1 ->
  (gr_class gr = G_HACA -> ~ hacaDegenerate g M0 M1) -> exists r, growRate gr v s = Ok (Fin r) /\ 0 <= r.
Proof. exact C16_grow. Qed.
Print Assumptions C16_growth_nonnegative.

Theorem C16_oxidation_nonnegative : forall s g soot, valid s g soot -> forall o v M0 M1, seesMoments v soot M0 M1 ->
  (ox_class o = O_HACA -> ~ hacaDegenerate g M0 M1) -> exists r, oxidRate o v s = Ok (Fin r) /\ 0 <= r.
Proof. exact C16_oxid. Qed.
Print Assumptions C16_oxidation_nonnegative.

(** ** C17 *)
Theorem C17_no_acetylene_nucleation : forall s g soot, valid s g soot -> forall coll nu,
  (nu_class nu = N_LL \/ nu_class nu = N_LIN \/ nu_class nu = N_MB \/ nu_class nu = N_FAIR) ->
  gY g C2H2 = 0 -> nuclRate coll nu s = Ok (Fin 0, nu, s, None).
Proof. exact C17_nucl. Qed.
Print Assumptions C17_no_acetylene_nucleation.

Theorem C17_no_benzene_nucleation : forall s g soot, valid s g soot -> forall coll nu,
  nu_class nu = N_LINA1 -> gY g C6H6 = 0 -> nuclRate coll nu s = Ok (Fin 0, nu, s, None).
Proof. exact C17_lina1. Qed.
Print Assumptions C17_no_benzene_nucleation.

Theorem C17_no_acetylene_growth : forall s g soot, valid s g soot -> forall gr v M0 M1, seesMoments v soot M0 M1 ->
  (gr_class gr = G_HACA -> ~ hacaDegenerate g M0 M1) -> gY g C2H2 = 0 -> growRate gr v s = Ok (Fin 0).
Proof. exact C17_grow. Qed.
Print Assumptions C17_no_acetylene_growth.

Theorem C17_no_oxidiser_oxidation : forall s g soot, valid s g soot -> forall o v M0 M1, seesMoments v soot M0 M1 ->
  (ox_class o = O_HACA -> ~ hacaDegenerate g M0 M1) -> gY g O2 = 0 -> gY g OH = 0 -> oxidRate o v s = Ok (Fin 0).
Proof. exact C17_oxid. Qed.
Print Assumptions C17_no_oxidiser_oxidation.

(** for every collision function of the soot model *)
Theorem C17_no_pah_nucleation : forall s g soot, valid s g soot -> forall coll nu s' nu' r e,
  (forall sp, gPah g sp = 0) -> nu_class nu = N_PAH -> nuclRate coll nu s = Ok (r, nu', s', e) ->
  r = Fin 0 /\ nu_pah nu' = repeat (Fin 0) 6.
Proof. exact C17_pah_. Qed.
Print Assumptions C17_no_pah_nucleation.

(** ** C18 *)
Theorem C18_active_fraction : forall s g soot, valid s g soot -> forall M0 M1, 0 <= M0 -> 0 <= M1 -> ~ hacaDegenerate g M0 M1 ->
  exists a, hacaAlpha s (Fin M0) (Fin M1) = Fin a /\ 0 <= a <= 1.
Proof. exact (fun s g soot V M0 M1 H0 H1 ND => ex_intro _ _ (conj (alpha_val s g soot V M0 M1 H0 H1 ND) (active_bounds g M0 M1))). Qed.
Print Assumptions C18_active_fraction.

Theorem C18_growth_bounded : forall s g soot, valid s g soot -> forall v M0 M1 gr,
  gr_class gr = G_HACA -> seesMoments v soot M0 M1 -> ~ hacaDegenerate g M0 M1 ->
  exists r, growRate gr v s = Ok (Fin r) /\ 0 <= r <= hacaMass (haca4 g * hacaRadicals g).
Proof. exact C18_bound. Qed.
Print Assumptions C18_growth_bounded.

Theorem C18_degenerate_refuted : forall s g soot, valid s g soot -> forall v M0 M1 gr,
  gr_class gr = G_HACA -> seesMoments v soot M0 M1 -> hacaDegenerate g M0 M1 -> growRate gr v s = Ok NaN.
Proof. exact C18_nan. Qed.
Print Assumptions C18_degenerate_refuted.

(** ** C54 *)
Theorem C54_nucleation_formula : forall s g soot, valid s g soot -> forall coll nu, gasOnly (nu_class nu) ->
  nuclRate coll nu s = Ok (Fin (nuclFormula (nu_class nu) g), nu, s, None).
Proof. exact nucl_formula. Qed.
Print Assumptions C54_nucleation_formula.

Theorem C54_growth_formula : forall s g soot, valid s g soot -> forall gr v M0 M1, seesMoments v soot M0 M1 ->
  (gr_class gr = G_HACA -> ~ hacaDegenerate g M0 M1) -> growRate gr v s = Ok (Fin (growFormula (gr_class gr) g M0 M1)).
Proof. exact grow_formula. Qed.
Print Assumptions C54_growth_formula.

Theorem C54_oxidation_formula : forall s g soot, valid s g soot -> forall o v M0 M1, seesMoments v soot M0 M1 ->
  (ox_class o = O_HACA -> ~ hacaDegenerate g M0 M1) -> oxidRate o v s = Ok (Fin (oxidFormula (ox_class o) g M0 M1)).
Proof. exact oxid_formula. Qed.
Print Assumptions C54_oxidation_formula.

Theorem C54_documented_nucleation : forall s g soot, valid s g soot -> forall coll nu d,
  nu_class nu = N_LL -> docNucl N_LL g = Some d -> nuclRate coll nu s = Ok (Fin d, nu, s, None).
Proof. exact C54_doc_nucl_ll. Qed.
Print Assumptions C54_documented_nucleation.

Theorem C54_documented_nucleation_refuted : forall s g soot, valid s g soot -> forall coll nu d,
  nu_class nu = N_LIN /\ 0 < gY g C2H2 \/ nu_class nu = N_LINA1 /\ 0 < gY g C6H6 -> docNucl (nu_class nu) g = Some d ->
  exists r, nuclRate coll nu s = Ok (Fin r, nu, s, None) /\ r < d.
Proof. exact C54_doc_nucl_bad. Qed.
Print Assumptions C54_documented_nucleation_refuted.

Theorem C54_documented_oxidation : forall s g soot, valid s g soot -> forall v M0 M1 o d,
  ox_class o = O_LL \/ ox_class o = O_NSC_NEOH -> seesMoments v soot M0 M1 -> docOxid (ox_class o) g = Some d ->
  oxidRate o v s = Ok (Fin d).
Proof. exact C54_doc_oxid_good. Qed.
Print Assumptions C54_documented_oxidation.

(** the documented O2 terms of the optimised models are larger by the factor T *)
Theorem C54_documented_oxidation_refuted : forall s g soot, valid s g soot -> forall v M0 M1 o d,
  ox_class o = O_OPTG \/ ox_class o = O_OPTJ -> seesMoments v soot M0 M1 -> 0 < gY g O2 -> gY g OH = 0 ->
  docOxid (ox_class o) g = Some d -> exists r, oxidRate o v s = Ok (Fin r) /\ d = r * gT g /\ 0 < r.
Proof. exact C54_doc_oxid_bad. Qed.
Print Assumptions C54_documented_oxidation_refuted.

(** cases meeting the hypotheses *)
Example C16_hyps : exists (s : state (N:=XR)) g soot v1 v2 M0 M1, valid s g soot /\ 0 < gY g C2H2 /\ 0 < gY g O2 /\
  sv_psd v1 = P_MONO /\ seesMoments v1 soot M0 M1 /\ sv_psd v2 = P_SECT /\
  (exists M0' M1', seesMoments v2 soot M0' M1' /\ 0 < M0' /\ ~ hacaDegenerate g M0' M1') /\
  0 < M0 /\ ~ hacaDegenerate g M0 M1.
Proof. exact rates_case. Qed.
Example C18_degenerate_hyps : exists (s : state (N:=XR)) g soot v M0 M1,
  valid s g soot /\ seesMoments v soot M0 M1 /\ hacaDegenerate g M0 M1.
Proof. exact haca_case. Qed.
