{
 "claims": [
  {
   "property": "C01",
   "status": "proved",
   "theorems": [
    "C01_setState_accepts"
   ],
   "note": "Every number system with C++ comparison laws; laws proved for binary64 and extended reals."
  },
  {
   "property": "C02",
   "status": "proved",
   "theorems": [
    "C02_stored_positive",
    "C02_nan_refuted",
    "C02_negative_gas_refuted"
   ],
   "note": "The two false expectations named in the property are refuted by explicit calls."
  },
  {
   "property": "C03",
   "status": "proved",
   "theorems": [
    "C03_partial_update",
    "C03_atomic_refuted"
   ],
   "note": ""
  },
  {
   "property": "C04",
   "status": "proved",
   "theorems": [
    "C04_setState_out_of_bounds",
    "C04_two_soot_calls_refuted",
    "C04_two_tar_calls_refuted"
   ],
   "note": ""
  },
  {
   "property": "C05",
   "status": "proved",
   "theorems": [
    "C05_history_independent",
    "C05_negative_refuted"
   ],
   "note": ""
  },
  {
   "property": "C06",
   "status": "proved",
   "theorems": [
    "C06_ideal_gas",
    "C06_ideal_gas_pah"
   ],
   "note": "Exact real arithmetic (instance XR)."
  },
  {
   "property": "C07",
   "status": "proved",
   "theorems": [
    "C07_throws_exactly_outside",
    "C07_binomial_exact",
    "C07_binomial_binary64_exact",
    "C07_binomial_binary64_close",
    "C07_binomial_binary64_always_exact_refuted"
   ],
   "note": "Throwing and safety in every number system; values in exact arithmetic and in binary64."
  },
  {
   "property": "C08",
   "status": "proved",
   "theorems": [
    "C08_enum_configurations",
    "C08_pointer_configurations"
   ],
   "note": "Every number system."
  },
  {
   "property": "C09",
   "status": "proved",
   "theorems": [
    "C09_reported_types"
   ],
   "note": "Every number system."
  },
  {
   "property": "C10",
   "status": "proved",
   "theorems": [
    "C10_no_undefined_release",
    "C10_released_once",
    "C10_caller_keeps",
    "C10_destructor",
    "C10_enum_constructor",
    "C10_ptr_constructor",
    "C10_lost_exactly",
    "C10_nothing_leaks_refuted",
    "C10_default_tar_refuted",
    "C10_deleteAll",
    "C10_deleteAll_shared_refuted",
    "C10_enum_owns",
    "C10_ptr_borrows"
   ],
   "note": "Object lifetimes only; addresses are never reused. Histories are unbounded sequences."
  },
  {
   "property": "C100",
   "status": "proved",
   "theorems": [
    "C100_equilibrium",
    "C100_surface"
   ],
   "note": "exact arithmetic; LL growth: equality of growth and oxidation at the limit, existence of the loop, monotone approach and limit; LIN, FAIR and MB growth: the three cases; HACA growth and oxidation depend on the moments and are excluded"
  },
  {
   "property": "C11",
   "status": "proved",
   "theorems": [
    "C11_last_constructor",
    "C11_never_given",
    "C11_unshared",
    "C11_redirected",
    "C11_shared_growth",
    "C11_dangling",
    "C11_dangling_reached_refuted"
   ],
   "note": "C11_shared_growth in exact real arithmetic (XR); the rest for any number type."
  },
  {
   "property": "C12",
   "status": "proved",
   "theorems": [
    "C12_kernels_symmetric",
    "C12_kernels_symmetric_binary64"
   ],
   "note": ""
  },
  {
   "property": "C13",
   "status": "proved",
   "theorems": [
    "C13_kernel_formulas",
    "C13_kernels_positive",
    "C13_kernels_zero_below_cutoff"
   ],
   "note": "Exact real arithmetic (instance XR)."
  },
  {
   "property": "C14",
   "status": "proved",
   "theorems": [
    "C14_transition_below_limits"
   ],
   "note": "Exact real arithmetic (instance XR)."
  },
  {
   "property": "C15",
   "status": "proved",
   "theorems": [
    "C15_multiplier",
    "C15_multiplier_zero"
   ],
   "note": "Exact real arithmetic (instance XR)."
  },
  {
   "property": "C16",
   "status": "proved",
   "theorems": [
    "C16_nucleation_nonnegative",
    "C16_growth_nonnegative",
    "C16_oxidation_nonnegative"
   ],
   "note": "Exact real arithmetic (instance XR)."
  },
  {
   "property": "C17",
   "status": "proved",
   "theorems": [
    "C17_no_acetylene_nucleation",
    "C17_no_benzene_nucleation",
    "C17_no_acetylene_growth",
    "C17_no_oxidiser_oxidation",
    "C17_no_pah_nucleation"
   ],
   "note": "Exact real arithmetic (instance XR)."
  },
  {
   "property": "C18",
   "status": "proved",
   "theorems": [
    "C18_active_fraction",
    "C18_growth_bounded",
    "C18_degenerate_refuted"
   ],
   "note": "Exact real arithmetic (instance XR)."
  },
  {
   "property": "C19",
   "status": "proved",
   "theorems": [
    "C19_nucleation_mass",
    "C19_growth_mass",
    "C19_oxidation_mass",
    "C20_none_zero"
   ],
   "note": "Exact real arithmetic (instance XR)."
  },
  {
   "property": "C20",
   "status": "proved",
   "theorems": [
    "C20_nucleation_elements",
    "C20_growth_elements",
    "C20_oxidation_elements",
    "C20_none_zero"
   ],
   "note": "Exact real arithmetic (instance XR)."
  },
  {
   "property": "C21",
   "status": "proved",
   "theorems": [
    "C21_mono",
    "C21_logn",
    "C21_qmom",
    "C21_momic",
    "C21_sect"
   ],
   "note": "whole call, exact arithmetic, mass and element balances; any eigen-solver for QMOM; SECT and QMOM for every call that returns"
  },
  {
   "property": "C22",
   "status": "proved",
   "theorems": [
    "C22_mono_rates",
    "C22_mono_rates_gas"
   ],
   "note": "Exact real arithmetic. K is zero at or below the code's mass cutoff; HACA's degenerate parameter case (see C18) excluded."
  },
  {
   "property": "C23",
   "status": "proved",
   "theorems": [
    "C23_current_state_only",
    "C23_stale_node_refuted"
   ],
   "note": "Independence for any number type (also IEEE doubles); the counterexample is a history of public calls, for every coagulation kernel and every earlier soot above the mass cutoff."
  },
  {
   "property": "C24",
   "status": "proved",
   "theorems": [
    "C24_brown_sources",
    "C24_aj_red_sources",
    "C24_no_tar_variable"
   ],
   "note": "Exact real arithmetic, all nucleation mechanisms except PAH; no_tar_variable for any number type."
  },
  {
   "property": "C25",
   "status": "proved",
   "theorems": [
    "C25_lognormal",
    "C25_given_moments",
    "C25_homogeneous",
    "C25_vanishing"
   ],
   "note": "closure over extended reals, all real orders"
  },
  {
   "property": "C26",
   "status": "proved",
   "theorems": [
    "C26_sources",
    "C26_signs",
    "C26_loss",
    "C26_gain",
    "C26_continuum_kernel",
    "C26_fm_kernel",
    "C26_hm_loss_refuted"
   ],
   "note": "whole call with explicit sources; averaged kernels tied to Smoluchowski sums over any population; the harmonic mean of the M0 terms is always 0 (refuted)"
  },
  {
   "property": "C27",
   "status": "proved",
   "theorems": [
    "C27_monodisperse",
    "C27_fm_factor"
   ],
   "note": "whole calls of both models; equality only in the continuum regime"
  },
  {
   "property": "C28",
   "status": "proved",
   "theorems": [
    "C28_bins_enum",
    "C28_bins_pointers"
   ],
   "note": "Both constructors; exact real arithmetic."
  },
  {
   "property": "C29",
   "status": "proved",
   "theorems": [
    "C29_sect_mass"
   ],
   "note": "For every call that returns, any bins, any constant; exact real arithmetic; HACA's degenerate parameter case excluded."
  },
  {
   "property": "C30",
   "status": "proved",
   "theorems": [
    "C30_sect_number",
    "C30_coagulation_only"
   ],
   "note": "As C29."
  },
  {
   "property": "C31",
   "status": "proved",
   "theorems": [
    "C31_own_constant",
    "C31_brackets",
    "C31_first_model_wins",
    "C31_second_model_refuted",
    "C31_second_model_share"
   ],
   "note": "F at least 1+2^-52 and at most 2^62 sections, so that the located index fits in a size_t."
  },
  {
   "property": "C32",
   "status": "proved",
   "theorems": [
    "C32_empty_bin"
   ],
   "note": "PAH included."
  },
  {
   "property": "C33",
   "status": "proved",
   "theorems": [
    "C33_nodes_whatever_solver"
   ],
   "note": "Exact real arithmetic; the LAPACK solver is an arbitrary function; HACA's degenerate parameter case excluded."
  },
  {
   "property": "C34",
   "status": "proved",
   "theorems": [
    "C34_gauss",
    "C34_population",
    "C34_down_selected"
   ],
   "note": "Exact real arithmetic; the LAPACK solver is an arbitrary function; HACA's degenerate parameter case excluded. Honesty of the solver is a hypothesis; an honest solver of order 2 is constructed for the example."
  },
  {
   "property": "C35",
   "status": "proved",
   "theorems": [
    "C35_sources",
    "C35_mass",
    "C35_number",
    "C35_higher",
    "C35_throws_from_36"
   ],
   "note": "Exact real arithmetic; the LAPACK solver is an arbitrary function; HACA's degenerate parameter case excluded."
  },
  {
   "property": "C36",
   "status": "proved",
   "theorems": [
    "C36_zero_node",
    "C36_positive_nodes",
    "C36_monodisperse_refuted"
   ],
   "note": "Exact real arithmetic; the LAPACK solver is an arbitrary function; HACA's degenerate parameter case excluded."
  },
  {
   "property": "C37",
   "status": "proved",
   "theorems": [
    "C37_two_moments"
   ],
   "note": "Exact real arithmetic; the LAPACK solver is an arbitrary function; HACA's degenerate parameter case excluded."
  },
  {
   "property": "C38",
   "status": "proved",
   "theorems": [
    "C38_given_moments",
    "C38_lognormal",
    "C38_negative_orders"
   ],
   "note": "closure over extended reals, any number of moments"
  },
  {
   "property": "C39",
   "status": "proved",
   "theorems": [
    "C39_seven",
    "C39_eight",
    "C39_eight_accepted",
    "C39_all_sizes_refuted"
   ],
   "note": "every number type, all histories"
  },
  {
   "property": "C40",
   "status": "proved",
   "theorems": [
    "C40_sources",
    "C40_low_orders",
    "C40_high_orders",
    "C40_call",
    "C40_documented"
   ],
   "note": "whole call with explicit sources; shortfall of the kept term for every order from 3; documented sum tied to Smoluchowski"
  },
  {
   "property": "C41",
   "status": "proved",
   "theorems": [
    "C41_hmom",
    "C41_accepted",
    "C41_safe_refuted"
   ],
   "note": "every number type, every state"
  },
  {
   "property": "C42",
   "status": "proved",
   "theorems": [
    "C42_dimer_balance"
   ],
   "note": "Exact real arithmetic; for every collision function of the soot model returning a finite non-negative value."
  },
  {
   "property": "C43",
   "status": "proved",
   "theorems": [
    "C43_half_of_the_carbon",
    "C43_mono"
   ],
   "note": ""
  },
  {
   "property": "C44",
   "status": "proved",
   "theorems": [
    "C44_history_dependent"
   ],
   "note": "Stated through two public calls on MONO."
  },
  {
   "property": "C45",
   "status": "proved",
   "theorems": [
    "C45_mono",
    "C45_qmom",
    "C45_sect",
    "C45_logn",
    "C45_momic"
   ],
   "note": "whole call over extended reals"
  },
  {
   "property": "C46",
   "status": "proved",
   "theorems": [
    "C46_inputs",
    "C46_twice",
    "C46_histories"
   ],
   "note": "every number type; without PAH nucleation"
  },
  {
   "property": "C47",
   "status": "proved",
   "theorems": [
    "C47_histories",
    "C47_enum_histories",
    "C47_tar_refuted"
   ],
   "note": "every number type, all histories by induction"
  },
  {
   "property": "C48",
   "status": "proved",
   "theorems": [
    "C48_real",
    "C48_binary64"
   ],
   "note": "all histories; binary64 with arbitrary libm"
  },
  {
   "property": "C49",
   "status": "proved",
   "theorems": [
    "C49_surface",
    "C49_any_model"
   ],
   "note": "every number type, both constructors and any point of a history"
  },
  {
   "property": "C50",
   "status": "proved",
   "theorems": [
    "C50_call_equivalent",
    "C50_after_call",
    "C50_laws_binary64",
    "C50_cMin_respected_refuted"
   ],
   "note": "Every number system with ordinary comparisons, binary64 included."
  },
  {
   "property": "C51",
   "status": "proved",
   "theorems": [
    "C51_cracking_formula",
    "C51_hydrogen_irrelevant"
   ],
   "note": "Exact real arithmetic (instance XR)."
  },
  {
   "property": "C52",
   "status": "proved",
   "theorems": [
    "C52_gas_names",
    "C52_biomass_names",
    "C52_biomass_names_inverse_refuted"
   ],
   "note": ""
  },
  {
   "property": "C53",
   "status": "proved",
   "theorems": [
    "C53_constructor",
    "C53_increasing_total",
    "C53_increasing_chord",
    "C53_nodes",
    "C53_decreasing",
    "C53_decreasing_nodes_refuted",
    "C53_short_tables_refuted",
    "C53_nan_query_refuted"
   ],
   "note": "Exact real arithmetic (instance XR). NaN queries in binary64."
  },
  {
   "property": "C54",
   "status": "proved",
   "theorems": [
    "C54_nucleation_formula",
    "C54_growth_formula",
    "C54_oxidation_formula",
    "C54_documented_nucleation",
    "C54_documented_nucleation_refuted",
    "C54_documented_oxidation",
    "C54_documented_oxidation_refuted"
   ],
   "note": "Exact real arithmetic (instance XR)."
  },
  {
   "property": "C55",
   "status": "proved",
   "theorems": [
    "C55_tar_nucleation",
    "C55_default_molar_mass",
    "C55_deposition_diameter_refuted"
   ],
   "note": ""
  },
  {
   "property": "C56",
   "status": "proved",
   "theorems": [
    "C56_growth_factor_refuted",
    "C56_growth_factor_pointers_refuted",
    "C56_accepted"
   ],
   "note": "Extended real arithmetic."
  },
  {
   "property": "C57",
   "status": "proved",
   "theorems": [
    "C57_one_size"
   ],
   "note": "whole call; continuum shortfall r/(2^r-2)"
  },
  {
   "property": "C58",
   "status": "proved",
   "theorems": [
    "C58_population",
    "C58_weight_refuted"
   ],
   "note": "computed and documented sums over any population; refuted for every one-size population with x <> 1"
  },
  {
   "property": "C59",
   "status": "proved",
   "theorems": [
    "C59_nucleation",
    "C59_growth",
    "C59_oxidation",
    "C22_mono_rates",
    "C26_sources",
    "C29_sect_mass"
   ],
   "note": "mechanism level; whole calls via gasBudget"
  },
  {
   "property": "C60",
   "status": "proved",
   "theorems": [
    "C60_configuration",
    "C60_state",
    "C60_unused_sources"
   ],
   "note": "calls that return; generic in the arithmetic"
  },
  {
   "property": "C61",
   "status": "proved",
   "theorems": [
    "C61_enough",
    "C61_eight",
    "C61_ten",
    "C61_short",
    "C61_c_interface"
   ],
   "note": "the bin search of SECT and QMOM beyond 34 moments excepted as in C47; generic in the arithmetic"
  },
  {
   "property": "C62",
   "status": "proved",
   "theorems": [
    "C62_biomass",
    "C62_one_atmosphere",
    "C62_ten_atmospheres",
    "C62_negative_mass",
    "C62_coal",
    "C62_coal_given",
    "C62_short",
    "C62_new_state",
    "C62_frame",
    "C62_depends",
    "C62_positive_mass_refuted"
   ],
   "note": "exact real arithmetic for values and ranges; positivity of the molar mass is refuted"
  },
  {
   "property": "C63",
   "status": "proved",
   "theorems": [
    "C63_history",
    "C63_momic_refuted",
    "C63_any_sign",
    "C63_overshoot_refuted",
    "C63_tar",
    "C63_tar_refuted"
   ],
   "note": "exact arithmetic: overflow is not represented; tar with PAH nucleation, HMOM and 8-moment MOMIC are outside (see C41, C38); the unconditional claim is refuted for MOMIC with a vanished or negative moment and for AJ_RED tar with mass but no particles"
  },
  {
   "property": "C64",
   "status": "proved",
   "theorems": [
    "C64_grid",
    "C64_kernel",
    "C64_two_points",
    "C64_three_points",
    "C64_call"
   ],
   "note": "the population theorems assume the exact moments of the population at fractional orders; the closure that supplies these orders in a call is C38. For four-point interpolation (orders up to 2) no bound is claimed"
  },
  {
   "property": "C65",
   "status": "proved",
   "theorems": [
    "C65_orders",
    "C65_coagulation"
   ],
   "note": "exact arithmetic; PAH nucleation is excluded because the dimer balance is quadratic in the amount of soot; HMOM calls end in undefined behaviour (C41)"
  },
  {
   "property": "C66",
   "status": "proved",
   "theorems": [
    "C66_processes",
    "C66_signs"
   ],
   "note": "exact arithmetic; LOGN with coagulation HM satisfies the number claim with 0 (C26); MONO needs a positive number density (C23) and MOMIC positive moments; PAH, tar and HMOM excluded"
  },
  {
   "property": "C67",
   "status": "proved",
   "theorems": [
    "C67_fields",
    "C67_arguments"
   ],
   "note": "for every Num instance; the species read are those of C61; HMOM included up to its undefined behaviour (C41)"
  },
  {
   "property": "C68",
   "status": "proved",
   "theorems": [
    "C68_trajectory",
    "C68_model_built",
    "C68_midpoint",
    "C68_midpoint_refuted",
    "C68_safe",
    "C68_hmom",
    "C68_momic8",
    "C68_tar"
   ],
   "note": "on the exact real arithmetic XR; reading the input file and formatting the output are not modelled; of the tar program only the first evaluation is modelled, since it is undefined behaviour"
  },
  {
   "property": "C69",
   "status": "proved",
   "theorems": [
    "C69_mono",
    "C69_logn",
    "C69_qmom",
    "C69_momic",
    "C69_sect",
    "C69_conserved_refuted"
   ],
   "note": "MONO and LOGN with positive soot, MOMIC with positive moments (otherwise not finite, C63); HMOM is undefined behaviour (C41)"
  },
  {
   "property": "C70",
   "status": "proved",
   "theorems": [
    "C70_fuel",
    "C70_oxidiser",
    "C70_oh_refuted"
   ],
   "note": "moments of the bins for SECT, the moments themselves otherwise; MONO with particles, MOMIC with positive moments; HMOM is undefined behaviour (C41)"
  },
  {
   "property": "C71",
   "status": "proved",
   "theorems": [
    "C71_nucleation",
    "C71_growth",
    "C71_oxidation",
    "C71_kernels",
    "C71_mono"
   ],
   "note": "exp and pow of the math library are assumed accurate to one unit in the last place (record accurate; met by a correctly rounding library, Example C71_library); sums have an error relative to the magnitudes of their terms, since production and consumption may cancel; HACA (a jump in its fit), NSC_NEOH and FUCHS (cancellation) are not covered"
  },
  {
   "property": "C72",
   "status": "proved",
   "theorems": [
    "C72_nucleation",
    "C72_growth",
    "C72_oxidation",
    "C72_kernels",
    "C72_mono",
    "C72_number_refuted"
   ],
   "note": "of the math library only signs are assumed (record sane; met by a correctly rounding library, Example C72_library); for PAH in the monodisperse model the particle number passed must be positive, because otherwise the weight left by an earlier call is used; negative gas fractions, which setState accepts (C02), are excluded by hypothesis"
  },
  {
   "property": "C73",
   "status": "proved",
   "theorems": [
    "C73_one_size",
    "C73_same_totals"
   ],
   "note": "real arithmetic; geometric bins as the constructor builds them, the process-wide locating constant being the model's own (C31)"
  },
  {
   "property": "C74",
   "status": "proved",
   "theorems": [
    "C74_sect",
    "C74_mono",
    "C74_sharp"
   ],
   "note": "real arithmetic; the other models have no such bound stated (their losses involve other moments)"
  },
  {
   "property": "C75",
   "status": "proved",
   "theorems": [
    "C75_histories"
   ],
   "note": "any number type; the static of the sectional model is the same in both evaluations (C30); MONO at zero particles keeps old weights (C23)"
  },
  {
   "property": "C76",
   "status": "proved",
   "theorems": [
    "C76_shared_state",
    "C76_pah_disturbs",
    "C76_pah_refuted"
   ],
   "note": "any number type for the first theorem; MONO in real arithmetic for the other two"
  },
  {
   "property": "C77",
   "status": "proved",
   "theorems": [
    "C77_nucleation",
    "C77_growth",
    "C77_oxidation",
    "C77_fair_refuted",
    "C77_nsc_refuted",
    "C77_mono"
   ],
   "note": "HACA rates are not claimed in either direction"
  },
  {
   "property": "C78",
   "status": "proved",
   "theorems": [
    "C78_empty_section",
    "C78_refuted"
   ],
   "note": "PAH nucleation is not covered by the first theorem; the second is the failing part of the statement"
  },
  {
   "property": "C79",
   "status": "proved",
   "theorems": [
    "C79_delivered",
    "C79_returned",
    "C79_arguments_refuted",
    "C79_results_refuted",
    "C79_exported",
    "C79_AJ_RED_refuted",
    "C79_count",
    "C79_count_refuted",
    "C79_any_compiler",
    "C79_source_terms_refuted"
   ],
   "note": "the refuted theorems are the exceptions named in the statement; the tables of the model give the lines of each declaration"
  },
  {
   "property": "C80",
   "status": "proved",
   "theorems": [
    "C80_program",
    "C80_buffer",
    "C80_gas_buffer_refuted",
    "C80_state",
    "C80_bio"
   ],
   "note": "the refuted theorem is the failing part of the statement"
  },
  {
   "property": "C81",
   "status": "proved",
   "theorems": [
    "C81_all_sites",
    "C81_switch",
    "C81_continuous_refuted",
    "C81_published_refuted"
   ],
   "note": "exact real arithmetic; the refuted theorems are the failing parts of the statement"
  },
  {
   "property": "C82",
   "status": "proved",
   "theorems": [
    "C82_nucleation",
    "C82_oxidation",
    "C82_growth",
    "C82_mono",
    "C82_logn",
    "C82_sect",
    "C82_cutoff_refuted"
   ],
   "note": "exact real arithmetic; the refuted theorem is the failing part of the statement"
  },
  {
   "property": "C83",
   "status": "proved",
   "theorems": [
    "C83_growth_LL_refuted",
    "C83_growth_LIN_refuted",
    "C83_growth_HACA_refuted",
    "C83_oxidation_LEE",
    "C83_dimers",
    "C83_FM_refuted",
    "C83_continuum",
    "C83_continuum_refuted",
    "C83_harmonic_mean_refuted"
   ],
   "note": "exact real arithmetic; the refuted theorems give the exact relation between the printed formula and the computed value"
  },
  {
   "property": "C84",
   "status": "proved",
   "theorems": [
    "C84_mono"
   ],
   "note": "binary64 with an arbitrary library accurate to 2^-52; exact balance (C21) plus the errors of C71"
  },
  {
   "property": "C85",
   "status": "proved",
   "theorems": [
    "C85_same",
    "C85_ninth",
    "C85_values",
    "C85_hmom_refuted",
    "C85_tar_data_refuted",
    "C85_tar_data_ieee_refuted"
   ],
   "note": "literals of the programs as parameters; printed text and deletions not modelled"
  },
  {
   "property": "C86",
   "status": "proved",
   "theorems": [
    "C86_moments",
    "C86_mono",
    "C86_logn_FM",
    "C86_factor_refuted",
    "C86_factor_worst",
    "C86_logn_continuum_refuted",
    "C86_qmom",
    "C86_sect_surface",
    "C86_sect_oxidation_refuted",
    "C86_sect_coagulation_refuted"
   ],
   "note": "exact arithmetic; sources with one process switched on at a time (they add up, C26 C29 C35)"
  },
  {
   "property": "C87",
   "status": "proved",
   "theorems": [
    "C87_same",
    "C87_histories",
    "C87_never_completes",
    "C87_sources_frozen",
    "C87_state",
    "C87_left_behind"
   ],
   "note": "any arithmetic; C87_left_behind in exact arithmetic"
  },
  {
   "property": "C88",
   "status": "proved",
   "theorems": [
    "C88_unique",
    "C88_exists",
    "C88_population",
    "C88_three_moments",
    "C88_four_moments",
    "C88_bound_refuted"
   ],
   "note": "C88_bound_refuted is the failing part named in the statement"
  },
  {
   "property": "C89",
   "status": "proved",
   "theorems": [
    "C89_conserved",
    "C89_goes_on",
    "C89_carbon"
   ],
   "note": "C84 gives the size of the rounding errors of one MONO evaluation"
  },
  {
   "property": "C90",
   "status": "proved",
   "theorems": [
    "C90_mirror",
    "C90_impossible",
    "C90_long_step"
   ],
   "note": "four moments; C36 covers M0 M2 = M1^2"
  },
  {
   "property": "C91",
   "status": "proved",
   "theorems": [
    "C91_accepted",
    "C91_mono_number",
    "C91_qmom_number",
    "C91_qmom_higher",
    "C91_mono_mass",
    "C91_logn",
    "C91_logn_harmonic",
    "C91_sect"
   ],
   "note": "QMOM with a NaN higher moment: four moments, for solvers that return NaN for a NaN matrix"
  },
  {
   "property": "C92",
   "status": "proved",
   "theorems": [
    "C92_same",
    "C92_enum",
    "C92_pointers",
    "C92_quiet",
    "C92_silence_refuted"
   ],
   "note": ""
  },
  {
   "property": "C93",
   "status": "proved",
   "theorems": [
    "C93_creates",
    "C93_consumes",
    "C93_balance",
    "C93_from_nothing_refuted"
   ],
   "note": ""
  },
  {
   "property": "C94",
   "status": "proved",
   "theorems": [
    "C94_mono",
    "C94_sect"
   ],
   "note": ""
  },
  {
   "property": "C95",
   "status": "proved",
   "theorems": [
    "C95_mono",
    "C95_sect"
   ],
   "note": ""
  },
  {
   "property": "C96",
   "status": "proved",
   "theorems": [
    "C96_mono",
    "C96_exact",
    "C96_sect",
    "C96_ll",
    "C96_ll_exact"
   ],
   "note": ""
  },
  {
   "property": "C97",
   "status": "proved",
   "theorems": [
    "C97_mass"
   ],
   "note": "exact arithmetic; existence of the loop and its mass at every step"
  },
  {
   "property": "C98",
   "status": "proved",
   "theorems": [
    "C98_yield"
   ],
   "note": "exact arithmetic; existence of the loop, its soot mass and tar at every step, and their limits"
  },
  {
   "property": "C99",
   "status": "proved",
   "theorems": [
    "C99_number",
    "C99_limit"
   ],
   "note": "exact arithmetic; existence of the loop, bound on the number at every step, bound independent of the start, unbounded mean mass; for CONTINUUM, HM and FUCHS the limit of the number (the number under FM, whose kernel grows without bound, is not part of the limit claim)"
  }
 ]
}
