# Machine-checked model of sootlib: design

Source modelled: BYUignite/sootlib, `/repo/src` (C++), plus the interpolation
helper and the time loops of the drivers in `/repo/examples/burner_flame`. The source is neither built nor run.

## 1. Approach

Each C++ function is written once as a total Gallina function. Every definition cites the
lines it models.

* **Numbers.** All model functions are generic in a record `Num` (carrier, `+ - * /`,
  negation, `sqrt exp pow log log10 tanh`, C++ comparisons returning `bool`, `isfinite`,
  truncation to an index, decimal literals). A theorem about every `Num` holds for real
  IEEE doubles with any libm, bit for bit. Instances:
  * `XR`: real numbers plus `+inf`, `-inf`, `NaN`, with IEEE/C99 Annex F rules for the
    exceptional values, and exact (unrounded) arithmetic on finite values. Division by
    zero, `pow(0,-x)`, `log(0)`, 0/0 have their IEEE results, never a junk value of
    a totalised operation. This is the instance for conservation, sign and finiteness theorems.
  * `F64 lm`: IEEE binary64 from the standard library's `SpecFloat` (signed zeros, rounding,
    overflow), with the libm functions `lm` as parameters. Used for bit-exact statements, and for
    rounding-error bounds (C71), where `lm` is assumed `accurate` and the rounding theorems of Flocq
    are used; the proof that `SpecFloat` and Flocq compute the same is in `RoundProofs`.
* **Failure.** `res A = Ok a | Throw e | UB u`. C++ exceptions and undefined behaviour
  are distinct outcomes. The kinds of UB are: index outside a vector, conversion of a
  double that no `size_t` can hold, read of a never-written member, use of a released object.
* **Vectors.** A vector whose length depends on the caller or on the history (`sootVar`,
  `tarVar`, `yGas`, `yPah`, `yBio`, weights, abscissas, moment tables, `beta_DSi`, the source
  vectors read or written by index) is read and written with a check that yields UB. Vectors
  sized by the constructor and never resized (ratio tables, molar masses, bins, local
  work arrays) are read with `nth` or as functions of the index; the comment at the definition
  says so and why the index is in range.
* **Objects.** `state` and the soot models are records; a method returns the new record.
  `setState` also returns the partially updated object when it throws. The
  function-local `static` of the sectional model is an explicit process-global value.
  Object identity (ownership, back pointers) is modelled separately by a small heap (`Objects`).
* **LAPACK** `dstev_` is an arbitrary function argument. Theorems either hold for every
  such function or assume `honest` (an orthonormal eigen-decomposition of the given matrix).
* **Histories** are lists of user actions of any length (`runActions`, `runOps`).

## 2. What is not modelled

* `XR`: no rounding, no overflow/underflow, zero is unsigned (treated as +0).
* `int`/`size_t` are `Z`/`nat`; overflow of machine integers is not modelled except
  where the source relies on unsigned wrap-around (`binomial_coefficient`, negative index).
* Memory exhaustion, and writes to the console other than the warnings of the constructors (`Console`).
* Of exceptions of `setSourceTerms` only what they leave behind is described (`Catch`); stack
  unwinding itself is not. `runActions` ends at the first of them, `runCatching` goes on.
* `getInceptionTarRate` (commented out in the source).
* Fortran array shapes and the examples' file I/O (`Flame` takes the profile as a list and returns the
  rows that are printed), build files, the unit tests.

## 3. Layout (`rocq/theories`)

* Model, definitions only: `Num Defs State Binomial Coag Nucl Growth Oxid Tar SootModel Mono Logn
  Qmom Sect Momic Hmom Calls Catch Console Objects CInterface Fortran Interp Flame Simple` and whatever section 4 adds. Instances: `XR`, `F64`.
* Specification vocabulary, written without the model's helpers: `Spec*`. The formulas there are
  over the reals (`R`), the model's are over `Num`; lemmas connect them.
* Lemmas: `*Proofs *XR *Main *Run *Cases *Bins *Final *Same Round* NumLaws XRLemmas PahRaw ChemAll MonoTar`.
* Property theorems: `Prop_*`, containing only theorems closed by `exact`, `Print Assumptions`
  and examples showing that the hypotheses can be met by objects made with the public constructors
  and `setState`.

A property that is false of the code is stated as what is true, and the expectation that fails
has its own theorem with the suffix `_refuted`, giving a witness (or failing for every input).

## 4. Per property: what is modelled and how it is proved

| id | model | technique | theorems in |
|----|-------|-----------|-----|
| C01-C05 | `setState` with partial-update result | case analysis over the check sequence, generic `Num` with comparison laws (proved for `XR` and `F64`) | `Prop_State` |
| C06 | `getGasSpC/P`, PAH variants | field algebra on `XR` | `Prop_State` |
| C07 | `binomial_coefficient`, table literals | case analysis + arithmetic on the unsigned wrap; binary64 by computation over the finite domain | `Prop_Binomial` |
| C08, C09 | all constructors | enumerator analysis, arithmetic on `nsoot` | `Prop_Config` |
| C10, C11 | heap of mechanism objects, constructor/destructor | invariant by induction over operation sequences | `Prop_Objects` |
| C12 | the five kernels | commutativity rewriting, generic `Num`; `F64` instance | `Prop_Coag` |
| C13-C15 | the kernels on `XR` | real analysis (positivity, `exp(-x) < 1`) | `Prop_Coag` |
| C16-C18, C54 | rate functions on `XR` | finiteness/sign propagation; closed formulas; special values for NSC, HACA | `Prop_Rates` |
| C19, C20 | gas-rate functions, ratio tables | computation per mechanism + field | `Prop_Gas` |
| C21 | whole `setSourceTerms` of MONO, LOGN, QMOM, MOMIC, SECT | C19 + per-model mass lemmas | `Prop_Balance` |
| C22-C24, C55 | MONO, tar | evaluation on `XR`; generic for history independence | `Prop_Mono` |
| C25-C27 | LOGN | real powers; Smoluchowski sums over populations | `Prop_Logn` |
| C28-C32, C56 | SECT | induction over bins (telescoping), log/floor bracketing | `Prop_Sect` |
| C33-C37 | QMOM, oracle eigen-solver | downselection by induction; Wheeler recurrence and orthogonal polynomials; binomial theorem | `Prop_Qmom` |
| C38, C40, C57, C58 | MOMIC | Newton interpolation; term-by-term comparison with Smoluchowski's sums | `Prop_Momic` |
| C39, C47 | all models, histories | size invariant and a weakest-precondition style safety proof, generic `Num` | `Prop_Safe` |
| C41 | HMOM | the out-of-range access is reached on every path | `Prop_Safe` |
| C42-C44 | PAH nucleation | quadratic formula; exact budget; two-call history | `Prop_Pah` |
| C45 | PAH nucleation without PAH, whole calls | special values through 0*inf | `Prop_NoPah` |
| C46, C49 | whole calls | relational argument on the user-set fields, generic `Num` | `Prop_History` |
| C48 | histories with no mechanisms | induction; `XR` and `F64` | `Prop_None` |
| C50 | C interface | unfolding | `Prop_Misc` |
| C51 | tar cracking | integer quotients compute to 0 | `Prop_Misc` |
| C52 | name tables | enumeration (finite domain) | `Prop_Config` |
| C53 | interpolator | binary search by induction on the range | `Prop_Interp` |
| C59 | whole calls, every model | per-species gas sources | `Prop_Gas` |
| C60 | whole histories | fields left unchanged, in any arithmetic (generic `Num`) | `Prop_Frame` |
| C61 | gas vectors shorter than 11 | safety calculus with the length as a parameter | `Prop_Safe` |
| C62 | `get_mtar_ytar`, `get_mtar_ytar_coal` | evaluation on `XR`; polynomial inequalities | `Prop_Bio` |
| C63 | whole histories, every model but HMOM | invariant over steps; first non-finite entry of the MOMIC difference table | `Prop_Finite`, `Prop_Sign`, `Prop_TarHist` |
| C64 | MOMIC free-molecular grid functions, whole calls | double sums; Cauchy-Schwarz (log-convexity in the exponent) | `Prop_Pairs` |
| C65 | whole histories, every model but HMOM | homogeneity of each closure; scaling of the Wheeler recursion on `XR` | `Prop_Scale` |
| C66 | whole histories, every model but HMOM | sign of each part of C65; convexity of powers for the sections | `Prop_Signs` |
| C67 | whole histories, every model, any `Num` | replacing the fields nobody reads commutes with every function of a call | `Prop_Needs` |
| C68 | whole runs of the flame drivers | induction over the steps; C46/C67 reduce each call to a new object; C63 for finiteness, C61 for safety | `Prop_Flame` |
| C69 | whole calls with PAH nucleation | element sums of the per-species sources; steady state of the dimers (C42) | `Prop_Carbon` |
| C70 | pairs of whole histories | the sources depend on the composition through three rates only; each rate is monotone in each species | `Prop_Rich` |
| C71 | rates, kernels, whole MONO calls, in binary64 | rounding-error analysis by reflection: the model is run on symbolic expressions, an interval and relative-error calculus on those expressions is proved sound against Flocq's rounding theorems | `Prop_Round` |
| C72 | rates, kernels, whole MONO calls, in binary64 with every special value | a sign calculus for the SpecFloat operations (NaN, signed zeros, infinities), one monotonicity lemma of rounding for 1 - 1/(1+q) | `Prop_Ieee` |
| C73 | whole SECT and MONO calls | C29/C30 totals at a single occupied bin against C22; bracketing of C31 | `Prop_Step` |
| C74 | whole SECT and MONO calls | lower bound of each contribution to a bin by its outflow; credits are not negative (C31) | `Prop_Step` |
| C75 | whole MONO, LOGN, QMOM, MOMIC, SECT calls, histories of calls | two runs related by what an evaluation may have left behind (cMin, weights, ratios, rates, dimer data); one public call preserves and then forgets the relation | `Prop_PahHist` |
| C76 | whole calls of every model except HMOM on a shared state, histories of calls | an evaluation without PAH nucleation changes only weights, abscissas and the static; then the two-run relation of C75; the PAH case from the exact MONO sources of C22/C44 | `Prop_Share` |
| C77 | rates of every mechanism but PAH and HACA, whole MONO calls | closed formulas of C54 and C22 compared at two temperatures; NSC counterexample from rational bounds of exp(1/4) | `Prop_Heat` |
| C78 | whole SECT calls in binary64, histories of calls | signs through every sum and product; the share of an enclosed product is in [0,1] after rounding; counterexample: log and pow pinned to one double by Taylor bounds, kernel bounded by the error analysis of C71 | `Prop_Sections` |
| C79 | declarations of soot_module.f90 and heads of c_interface.cc as tables, argument passing | agreement of passing, C type and Fortran type decided per routine by computation, its meaning proved for every argument value and platform | `Prop_Fortran` |
| C80 | histories of C-interface calls, output buffers, getters | translation of each C call to the C++ call of C50, then C61 with ten gases; loops over buffers by induction | `Prop_Calls` |
| C81 | rates of HACA growth and oxidation | sign of the argument of tanh as a function of the temperature; monotone bounds of the Arrhenius terms between 2153 K and 2303 K | `Prop_Sites` |
| C82 | rates of every mechanism but HACA, whole MONO, LOGN and SECT calls | limits of sequences through every formula; growth times surface rewritten without its threshold; kernel eventually above or below the cutoff | `Prop_Cont` |
| C83 | rates of LL, LIN, HACA growth, LEE_NEOH, PAH dimers, FM, CONTINUUM, HM kernels | the printed formulas written down separately; algebra of real powers relating the two | `Prop_Docs` |
| C84 | whole MONO call in `F64 lm` | the exact balance of the reactions plus the error bounds of C71, summed over species with the magnitudes of the stoichiometric coefficients | `Prop_Drift` |
| C85 | example programs (`Simple.v`) over any arithmetic with an order; values in `XR` | both programs build the same model and read the same entries of the state, so equal sources follow by comparing the two calls; the values from the MONO theorem C22 | `Prop_Simple` |
| C86 | the printed equations (`SpecModels.v`) against whole calls in `XR` | the call formulas of C22, C26, C29, C35 with one process switched on, rewritten to the printed form; differences by positivity of the terms | `Prop_Models` |
| C87 | calls wrapped in a catch-all (`Catch.v`), any arithmetic | induction over histories; a completed coagulation loop would contain a completed binomial coefficient of 35; sizes from the lemmas of C47 | `Prop_Catch` |
| C88 | polynomials and spheres (`SpecClosure.v`) against `momMr` and whole calls in `XR` | division of polynomials (a polynomial with more roots than its degree vanishes); tangent inequality for the 2/3 power; logarithms of the condition | `Prop_Closure` |
| C89 | histories of `setState`/`setSourceTerms` at linear combinations of earlier rates, `XR` | invariant of C63 for the objects, balance of C21 at each call, linearity of mass and atoms | `Prop_Vessel` |
| C90 | QMOM, four moments | the modulus of the second coefficient makes the map even; explicit step as a quadratic in the step length | `Prop_Mirror` |
| C91 | setState, MONO, LOGN, QMOM, SECT | comparisons with NaN are false in both arithmetics; NaN propagation through the sources in `XR` | `Prop_Nan` |
| C92 | constructors with a log of warnings (`Console.v`), any arithmetic | case analysis; projection to the constructors of C08; C39/C41 for the silent ones | `Prop_Console` |
| C93 | AJ_RED tar, MONO | bounds on the fitted fractions and on the ratio of the rate constants; intermediate value theorem; whole call without soot | `Prop_Crack` |
| C94 | time loops of MONO and SECT with coagulation only | monotone bounds of the four kernels for equal particles; recursion 1/N; invariant over all steps (C63 histories, C29/C30, C74) | `Prop_March` |
| C95 | time loops of MONO and SECT with oxidation only | clipping in setState commutes with the loop; recursion M - h M^(2/3); surface per mass decreases with size, so the mass falls geometrically | `Prop_Burn` |
| C96 | time loops of MONO and SECT with growth only | recursion for the cube root (LIN, FAIR, MB) or the 2/3 power (LL) of the mass with a second-order error bound, limit of refined steps; surface per mass is least in the last section, from which nothing leaves | `Prop_Grow`, `Prop_GrowLL` |
| C97 | time loops with nucleation and coagulation, every model but HMOM | mass source from the gas balance (C21) and the gas budget of nucleation after any history of clipped steps (C63) | `Prop_NuclLoop` |
| C98 | time loop of MONO with BROWN tar and nucleation | after any history of clipped steps (C63) the tar source is -K times the tar and the mass source kF times the tar; geometric recursion and limits | `Prop_TarLoop` |
| C99 | time loop of MONO with nucleation and coagulation | number source at most J - B N^2/2 after any history of clipped steps (lower bound of every kernel from C94), at most J where the stale node is used; mass from C97; limit by a contraction perturbed by the slip correction, which vanishes, and by the free-molecular part of HM and the stopping distance of FUCHS, which vanish relative to the rest, as the mean mass grows | `Prop_NumLoop` |
| C100 | time loop of MONO with LL growth and oxidation | sources of every call as in C22; the recursion of the mass contracts towards the balance, at a rate bounded by the cube roots of the initial and the final mass (LL); growth per surface reduces to the recursions of C95 and C96 | `Prop_Equil` |

All properties are expressible in this model.

## 5. Testing the theorems

`seeded/LOG.jsonl` records edits of a scratch copy of the model, each a realistic bug, with the
claim it breaks and what stopped compiling. `proof_broke_at` is where proofs failed first.
`theorems_failed` are theorems seen not to compile when the mutant was built; a file is built as
a whole, so this includes theorems that only share a file or lemma with the broken one.
`statements_false_of_mutant` are the theorems whose statement is false of the mutant, judged by
reading. `judged_false_but_not_built` are those among them whose file was not built against the
mutant, so their failure was not observed. Theorems that survived a breaking edit were tightened
and are named there.

## 6. Trusted base

* The Coq 8.16.1 kernel.
* The faithfulness of the transcription in the model files (section 1 and 2).
* The readings of the properties in the `Spec*` files and theorem statements.
* The axioms printed by `Print Assumptions` (standard library only; none of our own):

  * `ClassicalDedekindReals.sig_forall_dec`, `ClassicalDedekindReals.sig_not_dec` and
    `FunctionalExtensionality.functional_extensionality_dep`: the construction of the reals.
  * `Classical_Prop.classic`: used by the standard library's real analysis (`Rpower`, `exp`, `ln`).

Per theorem:

* No axioms ("Closed under the global context") (96 theorems):
  C01_setState_accepts C02_stored_positive C03_partial_update C04_setState_out_of_bounds
  C05_history_independent C07_throws_exactly_outside C08_enum_configurations
  C08_pointer_configurations C09_reported_types C10_caller_keeps C10_default_tar_refuted
  C10_deleteAll C10_deleteAll_shared_refuted C10_destructor C10_enum_constructor C10_enum_owns
  C10_lost_exactly C10_no_undefined_release C10_nothing_leaks_refuted C10_ptr_borrows
  C10_ptr_constructor C10_released_once C11_dangling C11_last_constructor C11_never_given
  C11_redirected C11_unshared C12_kernels_symmetric C12_kernels_symmetric_binary64
  C23_current_state_only C24_no_tar_variable C39_eight C39_eight_accepted C39_seven C41_accepted
  C41_hmom C46_histories C46_inputs C46_twice C47_enum_histories C47_histories C48_binary64
  C49_any_model C49_surface C50_after_call C50_call_equivalent C50_laws_binary64 C52_biomass_names
  C52_biomass_names_inverse_refuted C52_gas_names C53_nan_query_refuted C60_configuration
  C60_state C60_unused_sources C61_c_interface C61_eight C61_enough C61_short C61_ten C62_depends
  C62_frame C62_new_state C62_short C67_arguments C67_fields C72_number_refuted C75_histories
  C76_shared_state C79_AJ_RED_refuted C79_any_compiler C79_arguments_refuted C79_count
  C79_count_refuted C79_delivered C79_exported C79_results_refuted C79_returned
  C79_source_terms_refuted C80_bio C80_buffer C80_gas_buffer_refuted C80_program C80_state
  C85_hmom_refuted C85_ninth C85_same C85_tar_data_ieee_refuted C87_histories C87_never_completes
  C87_same C87_sources_frozen C87_state C92_enum C92_pointers C92_quiet C92_same

* `sig_forall_dec`, `functional_extensionality_dep` (4 theorems):
  C07_binomial_binary64_always_exact_refuted C07_binomial_binary64_close
  C07_binomial_binary64_exact C90_impossible

* `sig_forall_dec`, `sig_not_dec`, `functional_extensionality_dep` (1 theorems):
  C27_fm_factor

* `sig_forall_dec`, `sig_not_dec`, `classic`, `functional_extensionality_dep` (268 theorems):
  C02_nan_refuted C02_negative_gas_refuted C03_atomic_refuted C04_two_soot_calls_refuted
  C04_two_tar_calls_refuted C05_negative_refuted C06_ideal_gas C06_ideal_gas_pah
  C07_binomial_exact C100_equilibrium C100_surface C11_dangling_reached_refuted C11_shared_growth
  C13_kernel_formulas C13_kernels_positive C13_kernels_zero_below_cutoff
  C14_transition_below_limits C15_multiplier C15_multiplier_zero C16_growth_nonnegative
  C16_nucleation_nonnegative C16_oxidation_nonnegative C17_no_acetylene_growth
  C17_no_acetylene_nucleation C17_no_benzene_nucleation C17_no_oxidiser_oxidation
  C17_no_pah_nucleation C18_active_fraction C18_degenerate_refuted C18_growth_bounded
  C19_growth_mass C19_nucleation_mass C19_oxidation_mass C20_growth_elements C20_none_zero
  C20_nucleation_elements C20_oxidation_elements C21_logn C21_momic C21_mono C21_qmom C21_sect
  C22_mono_rates C22_mono_rates_gas C23_stale_node_refuted C24_aj_red_sources C24_brown_sources
  C25_given_moments C25_homogeneous C25_lognormal C25_vanishing C26_continuum_kernel C26_fm_kernel
  C26_gain C26_hm_loss_refuted C26_loss C26_signs C26_sources C27_monodisperse C28_bins_enum
  C28_bins_pointers C29_sect_mass C30_coagulation_only C30_sect_number C31_brackets
  C31_first_model_wins C31_own_constant C31_second_model_refuted C31_second_model_share
  C32_empty_bin C33_nodes_whatever_solver C34_down_selected C34_gauss C34_population C35_higher
  C35_mass C35_number C35_sources C35_throws_from_36 C36_monodisperse_refuted C36_positive_nodes
  C36_zero_node C37_two_moments C38_given_moments C38_lognormal C38_negative_orders
  C39_all_sizes_refuted C40_call C40_documented C40_high_orders C40_low_orders C40_sources
  C41_safe_refuted C42_dimer_balance C43_half_of_the_carbon C43_mono C44_history_dependent
  C45_logn C45_momic C45_mono C45_qmom C45_sect C47_tar_refuted C48_real
  C50_cMin_respected_refuted C51_cracking_formula C51_hydrogen_irrelevant C53_constructor
  C53_decreasing C53_decreasing_nodes_refuted C53_increasing_chord C53_increasing_total C53_nodes
  C53_short_tables_refuted C54_documented_nucleation C54_documented_nucleation_refuted
  C54_documented_oxidation C54_documented_oxidation_refuted C54_growth_formula
  C54_nucleation_formula C54_oxidation_formula C55_default_molar_mass
  C55_deposition_diameter_refuted C55_tar_nucleation C56_accepted
  C56_growth_factor_pointers_refuted C56_growth_factor_refuted C57_one_size C58_population
  C58_weight_refuted C59_growth C59_nucleation C59_oxidation C62_biomass C62_coal C62_coal_given
  C62_negative_mass C62_one_atmosphere C62_positive_mass_refuted C62_ten_atmospheres C63_any_sign
  C63_history C63_momic_refuted C63_overshoot_refuted C63_tar C63_tar_refuted C64_call C64_grid
  C64_kernel C64_three_points C64_two_points C65_coagulation C65_orders C66_processes C66_signs
  C68_hmom C68_midpoint C68_midpoint_refuted C68_model_built C68_momic8 C68_safe C68_tar
  C68_trajectory C69_conserved_refuted C69_logn C69_momic C69_mono C69_qmom C69_sect C70_fuel
  C70_oh_refuted C70_oxidiser C71_growth C71_kernels C71_mono C71_nucleation C71_oxidation
  C72_growth C72_kernels C72_mono C72_nucleation C72_oxidation C73_one_size C73_same_totals
  C74_mono C74_sect C74_sharp C76_pah_disturbs C76_pah_refuted C77_fair_refuted C77_growth
  C77_mono C77_nsc_refuted C77_nucleation C77_oxidation C78_empty_section C78_refuted
  C81_all_sites C81_continuous_refuted C81_published_refuted C81_switch C82_cutoff_refuted
  C82_growth C82_logn C82_mono C82_nucleation C82_oxidation C82_sect C83_FM_refuted C83_continuum
  C83_continuum_refuted C83_dimers C83_growth_HACA_refuted C83_growth_LIN_refuted
  C83_growth_LL_refuted C83_harmonic_mean_refuted C83_oxidation_LEE C84_mono C85_tar_data_refuted
  C85_values C86_factor_refuted C86_factor_worst C86_logn_FM C86_logn_continuum_refuted
  C86_moments C86_mono C86_qmom C86_sect_coagulation_refuted C86_sect_oxidation_refuted
  C86_sect_surface C87_left_behind C88_bound_refuted C88_exists C88_four_moments C88_population
  C88_three_moments C88_unique C89_carbon C89_conserved C89_goes_on C90_long_step C90_mirror
  C91_accepted C91_logn C91_logn_harmonic C91_mono_mass C91_mono_number C91_qmom_higher
  C91_qmom_number C91_sect C92_silence_refuted C93_balance C93_consumes C93_creates
  C93_from_nothing_refuted C94_mono C94_sect C95_mono C95_sect C96_exact C96_ll C96_ll_exact
  C96_mono C96_sect C97_mass C98_yield C99_limit C99_number

