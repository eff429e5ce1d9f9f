{"id": "C01", "title": "setState accepts exactly the documented inputs", "statement": "A call setState(T,P,rho,mu,yGas,yPah,sootVar,nsoot,tarVar,Ntar,cMin) that stays inside its vectors either returns normally or throws; it returns normally exactly when T,P,rho,mu,cMin are not <= 0, no soot/tar entry beyond the previously stored counts is < 0, no yGas entry is > 1, yPah has as many entries as before (6), each yPah entry is not <0 and not >1, and their sum is not > 1. On normal return the stored fields are exactly the arguments (negative soot/tar entries below the previous counts replaced by 0) and MWGas = rho*Rg*T/P.", "quantifier": "for every state object, every argument tuple, every number system with C++ comparison semantics (in particular IEEE doubles)", "why_tests_cant": "the argument space is 11-dimensional with unbounded vectors, and the accept/reject boundary involves NaN and the previous contents of the object", "anchors": ["src/state.cc:36-140 state::setState", "src/state.h:94-103 state::state"]}
{"id": "C02", "title": "stored physical quantities are positive, unless NaN was supplied", "statement": "After a normal return of setState with non-NaN scalars, T,P,rhoGas,muGas,cMin are > 0, every sootVar and tarVar entry is >= 0 (when no NaN was supplied), every yGas entry is <= 1, every yPah entry lies in [0,1] and the yPah sum is <= 1. The stronger expectation 'setState never stores an unphysical scalar' is false: a NaN temperature is accepted and stored. The expectation 'stored gas mass fractions are non-negative' is false too: a negative entry passes the clipping loop unchanged.", "quantifier": "for every previous object and all arguments; refutations by explicit states", "why_tests_cant": "NaN-ordering and copy-versus-reference loop semantics only show on inputs nobody enumerates", "anchors": ["src/state.cc:43-57", "src/state.cc:88-102"]}
{"id": "C03", "title": "what a throwing setState leaves behind", "statement": "If setState throws, the object has been updated exactly up to the failing check, in the order T,P,rho,mu,cMin,MWGas,(nsoot),sootVar,(Ntar),tarVar,yGas,yPah; all later fields keep their old values. In particular setState is not all-or-nothing: some throwing calls change the object (for instance a rejected pressure leaves the new temperature in place).", "quantifier": "for every object and every throwing argument tuple", "why_tests_cant": "needs every prefix of checks combined with every prior object", "anchors": ["src/state.cc:36-140"]}
{"id": "C04", "title": "setState only accesses memory in bounds when the new vectors are long enough", "statement": "Provided the five scalar checks pass, setState indexes outside a vector exactly when sootVar has fewer entries than the nsoot stored by the previous call, or (the soot check having passed) tarVar has fewer entries than the previously stored Ntar. Consequently two consecutive valid-looking calls can have undefined behaviour (first with nsoot=4, then with a 2-entry soot vector; or first with Ntar=1, then with the default empty tar vector).", "quantifier": "for every object and all arguments", "why_tests_cant": "undefined behaviour need not be visible in a test run, and it depends on the previous call", "anchors": ["src/state.cc:65-67", "src/state.cc:76-78", "src/state.h:50-54"]}
{"id": "C05", "title": "setState results depend only on the arguments, for non-negative soot and tar", "statement": "For arguments whose soot and tar entries are all non-negative (or NaN), with vectors at least as long as the counts stored before, two arbitrary earlier objects with the same number of PAH entries give the same outcome (both return normally or both throw the same exception) and, after a normal return, agree on every field setState documents. Without the non-negativity requirement this is false: whether a negative soot value is clipped to 0 or rejected depends on the nsoot of the previous call.", "quantifier": "for all pairs of objects and all arguments", "why_tests_cant": "a relational (two-run) property over unbounded histories", "anchors": ["src/state.cc:63-85"]}
{"id": "C06", "title": "concentrations and partial pressures obey the ideal gas law", "statement": "After every normal return of setState, the concentration reported for each gas species (and each PAH) is rho*y divided by the molar mass of its chemical formula, and the partial pressure reported equals that concentration times Rg*T.", "quantifier": "for every finite valid input and every species index present in the vectors", "why_tests_cant": "an algebraic identity over all real inputs", "anchors": ["src/state.h:59-71", "src/state.cc:61"]}
{"id": "C07", "title": "binomial_coefficient is exact on its domain and throws elsewhere", "statement": "binomial_coefficient(r,k) returns the binomial number C(r,k) for all k <= r <= 34 and throws runtime_error for every other pair of unsigned arguments, including k > r; it never reads outside its table. In binary64 arithmetic the result is still exactly C(r,k) for all k <= r <= 22, is within one part in 2^52 for r <= 34, and is not always exact from r = 23 on.", "quantifier": "for all natural (unsigned) r and k", "why_tests_cant": "the unsigned wrap-around region is infinite, and exactness is a statement about every table entry pair", "anchors": ["src/binomial.h:24-67 binomial_coefficient"]}
{"id": "C08", "title": "each particle-size model accepts exactly its documented configurations", "statement": "Constructing a soot model from enumerators succeeds exactly when every enumerator names a real mechanism and: MONO has nsoot=2; LOGN has nsoot=3, coagulation FM, CONTINUUM or HM and no tar; QMOM has even nsoot>=2 and no tar; MOMIC has 3<=nsoot<=8, coagulation FM/CONTINUUM/HM and no tar; SECT has nsoot>=2 and no tar; HMOM has 4<=nsoot<=9, coagulation FM/CONTINUUM/HM and no tar. Otherwise an exception is thrown. A constructed model has source vectors of sizes nsoot, 11, 6 and Ntar.", "quantifier": "for all nsoot, Ntar and all enumerator combinations", "why_tests_cant": "nsoot ranges over all naturals and the combination space is large", "anchors": ["src/sootModel.cc:60-180", "src/sootModel_*.cc constructors"]}
{"id": "C09", "title": "a mechanism reports the type it was built from", "statement": "For every enumerator, the mechanism object built for it reports that enumerator as its mechType, for nucleation, growth, coagulation, tar and oxidation, with one exception: the FAIR oxidation object reports LL.", "quantifier": "for all enumerators", "why_tests_cant": "a cross-class consistency statement; the defect is invisible to source-term tests", "anchors": ["src/oxidationModels/oxidationModel_FAIR.cc", "src/*Models/*.cc constructors"]}
{"id": "C10", "title": "mechanism objects are released exactly once", "statement": "In every history in which the caller passes its own live mechanisms of the right kinds, destroys existing models and deletes its own mechanisms, no operation releases an object that is not live, no mechanism is ever released twice and no caller-owned mechanism is released except by the caller. An enumerator-built model allocates exactly its five mechanisms and its destructor releases exactly those; a pointer-built model releases none; a rejected configuration releases the five again; sootModel_delete_C_interface releases the model and each of its five mechanisms once. 'Nothing leaks' is false, and the objects that leak are exactly: those allocated before an enumerator that names no mechanism, and the default tar object of a pointer constructor. Deleting two models that share mechanisms through the C interface is undefined.", "quantifier": "for every sequence of construct/destroy operations", "why_tests_cant": "leaks and double frees over arbitrary histories are not visible to functional tests", "anchors": ["src/sootModel.h ~sootModel", "src/sootModel.cc:60-180"]}
{"id": "C11", "title": "sharing mechanism objects between two soot models redirects the first model", "statement": "After any history a mechanism object refers back to the model made by the most recent constructor call that received it (also if that call threw), and to none if it was never handed over. Hence if no mechanism is handed out twice every model's mechanisms refer to that model, and with a shared growth object the first model computes growth from the soot number and mass as the second model's type reads them. If the most recent model has been destroyed, or its constructor threw, the mechanisms of the still living first model hold a dangling reference.", "quantifier": "for every history of pointer constructions", "why_tests_cant": "aliasing effects appear only for particular construction orders", "anchors": ["src/sootModel.cc:60-74", "src/growthModels/*.cc"]}
{"id": "C12", "title": "every coagulation kernel is symmetric, bit for bit", "statement": "getCoagulationSootRate(state,m1,m2) and getCoagulationSootRate(state,m2,m1) return identical results for all five kernels.", "quantifier": "for all states and masses, in every arithmetic in which + and * are commutative, including IEEE binary64 with any libm", "why_tests_cant": "bitwise equality for all pairs of doubles", "anchors": ["src/coagulationModels/*.cc getCoagulationSootRate"]}
{"id": "C13", "title": "kernels are finite and positive above the mass cutoff and zero below", "statement": "With T,P,rho,mu,FM multiplier > 0: each of FM, CONTINUUM, HM, FUCHS returns a finite value > 0 when both masses exceed 2e-26 kg and exactly 0 when either does not; NONE always returns 0.", "quantifier": "for all positive states and masses", "why_tests_cant": "positivity/finiteness over a 6-dimensional continuum", "anchors": ["src/coagulationModels/*.cc", "src/sootDefs.h mmin"]}
{"id": "C14", "title": "transition kernels never exceed the limiting kernels", "statement": "For every state and masses above the cutoff: HM < FM, HM < CONTINUUM and 1/HM is the sum of 1/FM and the reciprocal of a continuum rate; FUCHS < FM.", "quantifier": "for all positive states and masses", "why_tests_cant": "inequality between transcendental expressions over all inputs", "anchors": ["src/coagulationModels/coagulationModel_HM.cc", "src/coagulationModels/coagulationModel_FUCHS.cc", "src/coagulationModels/coagulationModel_FM.cc", "src/coagulationModels/coagulationModel_CONTINUUM.cc"]}
{"id": "C15", "title": "the FM multiplier scales what it should", "statement": "Replacing the FM multiplier f > 0 by c*f with c > 1 multiplies the FM kernel by exactly c, leaves CONTINUUM unchanged, and makes HM and FUCHS larger, by less than the factor c; setting the multiplier to 0 makes FM, HM and FUCHS exactly 0.", "quantifier": "for all states, masses and multipliers", "why_tests_cant": "scaling law over reals", "anchors": ["src/coagulationModels/coagulationModel.h set_FM_multiplier"]}
{"id": "C16", "title": "nucleation, growth and oxidation rates are finite and non-negative", "statement": "For every state with positive T, P, rho, mu, cMin, non-negative mass fractions in full-length vectors and non-negative soot variables, every non-PAH, non-tar nucleation mechanism, every growth mechanism and every oxidation mechanism (for HACA away from the single combination of temperature and mean mass at which its active-site fit degenerates, see C18) returns a finite value >= 0, whether attached to a moment or to a sectional soot model. This includes NSC_NEOH with no oxygen present (an intermediate division by zero).", "quantifier": "for all such states and mechanisms", "why_tests_cant": "needs all real inputs including boundary zeros", "anchors": ["src/nucleationModels/*.cc", "src/growthModels/*.cc", "src/oxidationModels/*.cc"]}
{"id": "C17", "title": "no precursor, no rate", "statement": "With zero C2H2 every acetylene-based nucleation mechanism and every growth mechanism returns 0; with zero C6H6 LINA1 returns 0; with zero O2 and OH every oxidation mechanism returns 0; with all six PAH fractions zero PAH nucleation returns 0 and its PAH rates are all 0, whatever collision function the soot model supplies.", "quantifier": "for all states", "why_tests_cant": "universally quantified over the remaining state variables", "anchors": ["src/nucleationModels/*.cc", "src/growthModels/*.cc", "src/oxidationModels/*.cc"]}
{"id": "C18", "title": "HACA active-site fraction lies in [0,1]", "statement": "The HACA active-site fraction used by growth and oxidation lies in [0,1] for every positive temperature and every non-negative M0,M1 (including M0=0, M1=0, M1=M0), hence the HACA growth rate never exceeds the rate with all sites active. The one exception is M1=M0>0 at the temperature where the fit coefficient a vanishes: there the growth rate is NaN.", "quantifier": "for all T and M0,M1 >= 0", "why_tests_cant": "corner cases are measure-zero sets", "anchors": ["src/growthModels/growthModel_HACA.cc:63-106", "src/oxidationModels/oxidationModel_HACA.cc"]}
{"id": "C19", "title": "gas sources balance soot mass for every mechanism", "statement": "For any soot mass rate mdot, the gas-species rates derived from a nucleation, growth or oxidation mechanism (PAH excepted) sum to exactly -mdot, or to 0 for NONE; the solid-carbon entry is 0.", "quantifier": "for all mechanisms and all real mdot", "why_tests_cant": "exact conservation for all values", "anchors": ["src/nucleationModels/nucleationModel.cc:16-26", "src/growthModels/growthModel.cc", "src/oxidationModels/oxidationModel.cc", "src/sootDefs.h gasSpMW"]}
{"id": "C20", "title": "element balances of every mechanism", "statement": "For any soot mass rate mdot the C, H and O atoms carried by the gas rates, together with mdot counted as carbon, balance exactly for every nucleation, growth and oxidation mechanism except PAH; for PAH nucleation see C43.", "quantifier": "for all mechanisms and all real mdot", "why_tests_cant": "exact conservation for all values", "anchors": ["src/*Models/* constructor RxnRatios", "src/sootDefs.h"]}
{"id": "C21", "title": "overall gas plus soot source is zero, in mass and in atoms", "statement": "After setSourceTerms on a valid state without PAH and tar, all gas sources are finite; their sum plus the soot mass source (M1 for moment models, sum of bin mass times bin source for the sectional model) is 0, the carbon atoms they carry plus those of the soot source are 0, and so are their hydrogen and oxygen atoms; for MONO (without particles the node kept by the state must be finite), LOGN, QMOM, MOMIC and SECT.", "quantifier": "for all valid states and mechanism combinations, any number of moments/sections", "why_tests_cant": "exact conservation through the whole call for all inputs and sizes", "anchors": ["src/sootModel_MONO.cc:74-283", "src/sootModel_LOGN.cc", "src/sootModel_QMOM.cc", "src/sootModel_MOMIC.cc", "src/sootModel_SECT.cc"]}
{"id": "C22", "title": "MONO source terms equal the monodisperse rate equations", "statement": "For MONO without tar, on every valid state with M0>0 and any mechanisms (PAH included): source 0 is J - 1/2 K(m,m) M0^2 and source 1 is J*m_nuc + condensation K(m_D,m) M0 n_D m_D + (k_g - k_o)*A with m = M1/M0 and A = M0 times the surface of a sphere of mass m; the source of every gas species is that of the reactions of nucleation (mass J*m_nuc; PAH: only hydrogen released), growth (k_g*A) and oxidation (k_o*A).", "quantifier": "for all valid states and mechanisms", "why_tests_cant": "functional correctness over all reals", "anchors": ["src/sootModel_MONO.cc:201-282"]}
{"id": "C23", "title": "MONO results depend on the current state only, when M0>0", "statement": "For M0>0 MONO source terms do not depend on the weights and abscissas left in the state object by earlier calls. For M0=0 this is false: a state that previously held soot yields a non-zero coagulation source although there is no soot.", "quantifier": "for all pairs of states that agree on the user-set fields", "why_tests_cant": "two-run property over histories", "anchors": ["src/sootModel_MONO.cc:85-88", "src/sootModel_MONO.cc:206", "src/sootModel_MONO.cc:252"]}
{"id": "C24", "title": "MONO tar coupling loses or multiplies mass", "statement": "With BROWN tar the soot mass source omits the surface-growth mass that the gas sources charge: gas plus soot mass sources sum to -k_g*A instead of 0, and the nucleated mass is charged to both gas and tar. With AJ_RED the growth and oxidation mass rate enters the soot mass source multiplied once more by the surface area A. With either, every gas species' source is that of the reactions of nucleation, growth and oxidation. With no tar variables allocated and a tar mechanism selected, setSourceTerms reads out of bounds.", "quantifier": "for all states (exact formulas), refutation by explicit non-zero growth", "why_tests_cant": "a conservation defect invisible without the exact budget", "anchors": ["src/sootModel_MONO.cc:90-199"]}
{"id": "C25", "title": "LOGN fractional moments interpolate the given moments", "statement": "For positive M0,M1,M2 the closure Mr returns M0, M1, M2 at orders 0, 1, 2, is homogeneous of degree one in the moments, and at every real order equals the moment of the lognormal distribution with these three moments (variance non-negative exactly when M1^2 <= M0 M2). If any of the three moments vanishes it returns 0 at every order.", "quantifier": "for all positive moments and all real orders", "why_tests_cant": "identity in real powers", "anchors": ["src/sootModel_LOGN.cc:338-351 Mr"]}
{"id": "C26", "title": "LOGN coagulation and the harmonic mean", "statement": "On valid states the LOGN sources are nucleation, growth/oxidation on the moment of order 2/3 (5/3), condensation, and coagulation: coagulation adds nothing to M1; for FM and CONTINUUM and positive moments it removes particles and adds to M2, the sums of moments being Smoluchowski's for a kernel that is the CONTINUUM kernel exactly, and the FM kernel up to a factor between 0.8536 and 0.8536 sqrt 2. For HM the contribution to M0 is exactly 0: coagulation never removes particles, contradicting the documented harmonic mean.", "quantifier": "for all states with positive moments", "why_tests_cant": "sign statement for all inputs", "anchors": ["src/sootModel_LOGN.cc coagulation section (about 240-300)"]}
{"id": "C27", "title": "LOGN against MONO on monodisperse soot", "statement": "When M0*M2 = M1^2 and the mean mass is above the cutoff, without PAH, LOGN and MONO give the same M1 source, and the loss of particles by coagulation in LOGN is that of MONO for CONTINUUM, 0.8536 sqrt 2 (1.207 to 1.208) times that of MONO for FM, and 0 for HM.", "quantifier": "for all positive monodisperse moments", "why_tests_cant": "equality of independently coded formulas over all inputs", "anchors": ["src/sootModel_LOGN.cc", "src/coagulationModels/coagulationModel_CONTINUUM.cc"]}
{"id": "C28", "title": "sectional bins form an increasing geometric sequence", "statement": "After construction with growth factor F>1 the bin masses are m_k = cMin*F^k*MW_C/Na, strictly increasing and positive.", "quantifier": "for all nsoot>=2, cMin>0, F>1", "why_tests_cant": "unbounded number of bins", "anchors": ["src/sootModel_SECT.cc:96-101"]}
{"id": "C29", "title": "sectional growth, oxidation, condensation and nucleation carry exactly the right mass", "statement": "The bin-mass-weighted sum of the sectional sources equals J*m_nuc (nucleation) plus (k_g - k_o) times the total surface area plus n_D*m_D*sum(beta_k n_k) (PAH condensation); coagulation contributes nothing, whichever target bins are selected. The source of every gas species is that of the reactions of nucleation, growth and oxidation with these masses.", "quantifier": "for every number of sections >= 2 and every state", "why_tests_cant": "telescoping identity for unbounded nsoot", "anchors": ["src/sootModel_SECT.cc setSourceTerms"]}
{"id": "C30", "title": "sectional coagulation conserves mass and destroys number at the right rate", "statement": "The bin-mass-weighted sum of the sectional coagulation sources is exactly 0, for every kernel and whichever target bins are selected; the unweighted sum is -1/2 sum_ij K_ij n_i n_j when no collision product lies at or beyond the last bin, and otherwise exceeds it by 1/2 sum K_ij n_i n_j ((m_i+m_j)/m_last - 1) over the products located there. The number effects of nucleation, growth, condensation and oxidation are likewise only those at the first and last bins.", "quantifier": "for every number of sections and every state", "why_tests_cant": "double sum over unbounded bins", "anchors": ["src/sootModel_SECT.cc:240-325"]}
{"id": "C31", "title": "sectional coagulation picks the bins that bracket the collision product", "statement": "When the growth-factor constant used is the model's own, every call returns and for every pair of bins the product mass lies between the masses of the selected bin and the next one, so the split fraction is in (0,1]. The first sectional coagulation in the process fixes the constant for all models: after a model with growth factor 2, a model with growth factor 4 uses 1/ln 2, the split fraction is 7/6 and an empty bin gets a negative source.", "quantifier": "for all bins and every growth factor F>1 representable as a double; refutation for every state with soot in the first bin only", "why_tests_cant": "process-global state: depends on which model ran first", "anchors": ["src/sootModel_SECT.cc:256 static const double ilnF"]}
{"id": "C32", "title": "an empty section never gets a negative source", "statement": "On every valid state, PAH included, if bin k is empty its sectional source is >= 0 (nucleation, growth, condensation, oxidation, coagulation), when the growth-factor constant in use is the model's own.", "quantifier": "for every number of sections and every state", "why_tests_cant": "universal positivity-preservation over unbounded bins", "anchors": ["src/sootModel_SECT.cc setSourceTerms"]}
{"id": "C33", "title": "QMOM weights and abscissas are finite and non-negative whatever the eigen-solver returns", "statement": "On every valid state and with any behaviour of the LAPACK eigen-solver (infinities and NaN included) a QMOM call returns, and the weights and abscissas it leaves in the state are finite and non-negative; if M0=0 they are all zero.", "quantifier": "for all moments and all solver results", "why_tests_cant": "quantifies over all solver behaviours, including failures", "anchors": ["src/sootModel_QMOM.cc:218-331 getWtsAbs, wheeler"]}
{"id": "C34", "title": "QMOM quadrature reproduces the given moments", "statement": "If the eigen-solver returns true orthonormal eigen-decompositions and the moments are realizable, QMOM with p nodes finds p positive weights and p different positive abscissas that reproduce all 2p given moments; if the moments come from exactly p particle sizes, those sizes and concentrations are recovered. After down-selection to q nodes the first 2q moments are still reproduced (for q=1, M0 and M1, whatever the solver).", "quantifier": "for all moments and any number of nodes", "why_tests_cant": "identity over all inputs", "anchors": ["src/sootModel_QMOM.cc:288-331 wheeler"]}
{"id": "C35", "title": "QMOM coagulation is the exact Smoluchowski moment source", "statement": "For every number of nodes and every order r<nsoot the QMOM source is the sum of nucleation, condensation, growth and oxidation terms and of 1/2 sum_ij K_ij w_i w_j ((x_i+x_j)^r - x_i^r - x_j^r) (coagulation), which is 0 for r=1, <= 0 for r=0 and >= 0 for r>=2. For nsoot>=36 setSourceTerms with coagulation always throws.", "quantifier": "for all valid states, nodes, weights and orders", "why_tests_cant": "binomial identity for unbounded sizes", "anchors": ["src/sootModel_QMOM.cc:151-178"]}
{"id": "C36", "title": "QMOM surface growth disappears after down-selection", "statement": "If any weight or abscissa is zero (as after every down-selection), all QMOM growth and oxidation sources, soot and gas, are exactly 0 although soot and a positive rate are present; with all nodes positive the sources are k*A_c*r*sum w x^(r-1/3). For soot of a single size and nsoot>=4 this always happens (with a solver that passes NaN on): growth and oxidation are lost.", "quantifier": "for all states and node sets", "why_tests_cant": "occurs only for unrealizable moment sets", "anchors": ["src/sootModel_QMOM.cc:344-354 Mr", "src/sootModel_QMOM.cc:100-150"]}
{"id": "C37", "title": "QMOM with two moments equals MONO", "statement": "On every valid state with M0>0, without tar, QMOM with nsoot=2 and MONO with the same mechanisms (PAH included) produce the same soot, gas and PAH sources and leave the same state.", "quantifier": "for all such states, mechanism combinations and solvers", "why_tests_cant": "equality of two independently coded models over all inputs", "anchors": ["src/sootModel_QMOM.cc", "src/sootModel_MONO.cc"]}
{"id": "C38", "title": "MOMIC interpolation passes through the given moments", "statement": "For three or more positive moments the MOMIC difference table is built, and the closure returns the k-th moment at integer order k for every k below the number of moments; it is exact at every real order when the moments are those of a lognormal distribution. At negative orders only the first three moments are used.", "quantifier": "for all numbers of moments and all positive moments", "why_tests_cant": "Newton interpolation identity for all sizes", "anchors": ["src/sootModel_MOMIC.cc:624-670 setDiffTable, Mr"]}
{"id": "C39", "title": "MOMIC memory safety", "statement": "MOMIC with 3 to 7 moments stays inside all its vectors and returns, through every sequence of setState calls with matching sizes and setSourceTerms calls; with the accepted number 8 every call reads out of bounds, whatever the state.", "quantifier": "for all states and histories, every number type", "why_tests_cant": "out-of-bounds reads need not crash", "anchors": ["src/sootModel_MOMIC.h np,nq", "src/sootModel_MOMIC.cc"]}
{"id": "C40", "title": "MOMIC continuum coagulation keeps only one term of the sum", "statement": "The continuum coagulation rate MOMIC computes for moment r equals the documented sum over k=1..r-1 for r = 0, 1 and 2, but for r>=3 it keeps only the k=r-1 term and is smaller than the documented sum for every positive moment function, so every CONTINUUM call returns less than the documented source there. The documented sum is Smoluchowski's for every population of particles.", "quantifier": "for all states and moments", "why_tests_cant": "needs the exact formula for every r", "anchors": ["src/sootModel_MOMIC.cc:505-530"]}
{"id": "C41", "title": "HMOM always reads outside its moment table", "statement": "Every call of HMOM setSourceTerms reads outside its moment tables, for every accepted configuration (4 to 9 moments, FM, CONTINUUM or HM) and whatever the state.", "quantifier": "for all states and accepted configurations, every number type", "why_tests_cant": "undefined behaviour that usually looks harmless at run time", "anchors": ["src/sootModel_HMOM.cc get_Ik, g_grid_L"]}
{"id": "C42", "title": "PAH dimer balance", "statement": "When dimers are produced and the soot collision rate is finite and non-negative, the dimer concentration is the unique positive solution of beta_DD*n^2 + I*n = production, and the nucleation rate is half of beta_DD*n^2.", "quantifier": "for all states with some PAH present", "why_tests_cant": "algebraic identity over reals", "anchors": ["src/nucleationModels/nucleationModel_PAH.cc:47-124"]}
{"id": "C43", "title": "PAH carbon budget is off by a factor of two", "statement": "The carbon mass that PAH nucleation plus condensation moves into soot is exactly half of the carbon mass removed from the PAH species, plus an offset J*(previous cMin/PAH molecules consumed)*m_C; so carbon is not conserved. For MONO with PAH only, source 1 equals this.", "quantifier": "for all states with some PAH present", "why_tests_cant": "exact budget over all inputs", "anchors": ["src/nucleationModels/nucleationModel_PAH.cc:60-124"]}
{"id": "C44", "title": "PAH nucleation changes cMin in a history-dependent way", "statement": "A PAH nucleation call stores in cMin twice the rate-averaged PAH carbon number plus the previous cMin divided by the number of PAH molecules consumed per volume and time (quantities of different dimension). So calling setSourceTerms twice on the same MONO state gives a different cMin and a different soot mass source, unless cMin was already at the fixed point.", "quantifier": "for all states with some PAH present", "why_tests_cant": "two-call property", "anchors": ["src/nucleationModels/nucleationModel_PAH.cc:55-110"]}
{"id": "C45", "title": "absent PAH poisons LOGN and MOMIC with NaN", "statement": "With PAH nucleation selected and all PAH fractions zero, MONO, QMOM and SECT return exactly the soot and gas sources they return without nucleation, and set all PAH sources to zero; LOGN returns NaN for both mass sources for all non-negative moments; MOMIC returns NaN for every moment source from 1 on for all positive moments.", "quantifier": "for all valid states, all nucleation-independent mechanisms, any number of moments or sections", "why_tests_cant": "special values propagate through 0*inf; tests use non-zero PAH", "anchors": ["src/sootModel_LOGN.cc pahSootCollisionRatePerDimer", "src/nucleationModels/nucleationModel_PAH.cc"]}
{"id": "C46", "title": "repeat evaluation gives the same answer", "statement": "For LOGN, QMOM, MOMIC and SECT without PAH, the outcome of setSourceTerms depends only on the user-set fields of the state, not on weights, abscissas, sources or work arrays left by earlier calls: evaluating twice gives the same soot and gas sources, and two objects with different histories set to the same accepted conditions give the same outcome.", "quantifier": "for all states and all earlier histories", "why_tests_cant": "two-run property over unbounded histories", "anchors": ["src/sootModel_*.cc setSourceTerms"]}
{"id": "C47", "title": "vector sizes are invariant and indexing is safe through every history", "statement": "For a model and a state built with the same sizes, after any sequence of setState calls with matching sizes and setSourceTerms calls, all vectors keep their sizes and no call indexes out of bounds (MONO, LOGN, QMOM, SECT and MOMIC with nsoot<=7; mechanisms reading tar need one tar variable, else the first call leaves the vector). The only other endings are the throw of the binomial coefficients in QMOM beyond 34 moments and the bad cast in SECT's bin search, both only with coagulation.", "quantifier": "for every finite sequence of operations with arbitrary values", "why_tests_cant": "unbounded histories; undefined behaviour is not observable", "anchors": ["src/state.cc", "src/sootModel_*.cc"]}
{"id": "C48", "title": "no mechanisms, no sources", "statement": "With all mechanisms NONE, setSourceTerms of MONO, QMOM and SECT leaves all soot, gas and PAH sources zero after any sequence of calls and whatever the state holds, NaN and infinities included; over the reals and, for finite bin sizes, in binary64.", "quantifier": "for all histories, states and sizes", "why_tests_cant": "for all inputs", "anchors": ["src/sootModel_MONO.cc", "src/sootModel_QMOM.cc", "src/sootModel_SECT.cc"]}
{"id": "C49", "title": "growth and oxidation leave particle number alone in moment models", "statement": "In MONO, LOGN, QMOM and MOMIC the M0 source consists of nucleation and coagulation only: changing the growth or oxidation mechanism does not change source 0.", "quantifier": "for all states and mechanism pairs", "why_tests_cant": "two-run property over all inputs", "anchors": ["src/sootModel_MONO.cc", "src/sootModel_LOGN.cc", "src/sootModel_QMOM.cc", "src/sootModel_MOMIC.cc"]}
{"id": "C50", "title": "the C interface drops cMin and the last gas species", "statement": "setState through the C interface behaves as the C++ call with the first 10 gas species and cMin=100, whatever cMin is passed. After a call that returns normally, reading species CO2 (mass fraction, concentration or partial pressure) is out of bounds, while every other species reads back the value passed in.", "quantifier": "for all arguments", "why_tests_cant": "holds for every argument; defect shows only with non-default cMin", "anchors": ["src/fortran_wraps/c_interface.cc:304-315"]}
{"id": "C51", "title": "AJ_RED tar cracking drops the hydrogen-dependent reactions", "statement": "Because integer quotients such as 1/3 and 50/128 evaluate to 0, the AJ_RED cracking rate equals the combination of the phenol and benzene reactions that do not involve hydrogen, and does not depend on the H2 mass fraction although the source reads it.", "quantifier": "for all states", "why_tests_cant": "a dependence statement over all inputs", "anchors": ["src/tarModels/tarModel_AJ_RED.cc getCrackingTarRate"]}
{"id": "C52", "title": "species-name maps", "statement": "The gas-species name and enumerator maps are mutually inverse on all 11 species, the index map agrees with them, and each name read as a chemical formula gives the atoms of that species. The biomass maps are mutually inverse for every biomass type except softwood hemicellulose, whose name maps back to nothing.", "quantifier": "for all enumerators", "why_tests_cant": "cross-table consistency", "anchors": ["src/sootDefs.h:100-165"]}
{"id": "C53", "title": "tabulated profile interpolation", "statement": "The constructor accepts exactly the tables with equal lengths whose abscissas are strictly monotone or number at most two. For strictly increasing abscissas (two or more points) the interpolator returns the tabulated value at each node, the chord value between neighbours and the end chords outside, without out-of-bounds access. For a decreasing table it uses the first segment for queries up to the first abscissa and the last segment otherwise, so it does not reproduce its nodes. A table with fewer than two points, and a NaN query, is read out of bounds.", "quantifier": "for all table lengths, tables and query points", "why_tests_cant": "unbounded tables", "anchors": ["examples/burner_flame/interp_linear.h"]}
{"id": "C54", "title": "rates follow closed formulas, and which of them are the documented ones", "statement": "Every non-PAH, non-tar nucleation rate, every growth rate and every oxidation rate equals an explicit formula in temperature, concentrations, partial pressures and the soot number and mass. LL nucleation, LL oxidation and NSC_NEOH oxidation equal the documented expressions. LIN and LINA1 nucleation are strictly smaller than documented whenever their precursor is present, and without OH the documented OPTG and OPTJ oxidation rates are T times what the code computes.", "quantifier": "for all physical states and all mechanisms", "why_tests_cant": "the formulas hold for all inputs; documentation mismatches are invisible without an independent reference", "anchors": ["src/nucleationModels/*.cc", "src/growthModels/*.cc", "src/oxidationModels/*.cc", "docs/models/1_chemistry.md:26-187"]}
{"id": "C55", "title": "AJ_RED tar molecules: size, speed and default molar mass", "statement": "The AJ_RED tar nucleation rate equals the collision formula with molecule diameter 1.395e-10*sqrt(3)*sqrt(2 M/(3*12.011)) but with the mean speed computed for a molecule of mass M*Na instead of M/Na; with the molar mass a newly constructed state has (0) the rate is NaN. Tar deposition uses a molecule diameter larger by the factor sqrt(1/1.395e-10) than nucleation does.", "quantifier": "for all physical states, tar molar masses and tar densities", "why_tests_cant": "both functions return plausible positive numbers; the inconsistency only shows by comparing the two closed formulas", "anchors": ["src/nucleationModels/nucleationModel_AJ_RED.cc:32-47", "src/tarModels/tarModel_AJ_RED.cc"]}
{"id": "C56", "title": "sectional growth factor is not validated", "statement": "The sectional constructor accepts every bin growth factor. For a negative one or one in [1/2,1] the first coagulation evaluation in the process converts an out-of-range value to an integer (undefined behaviour) on every state, so setSourceTerms never returns normally.", "quantifier": "for all such growth factors, mechanisms with coagulation, section numbers and states", "why_tests_cant": "tests use the default factor 2; the failure is undefined behaviour that may look harmless on one platform", "anchors": ["src/sootModel_SECT.cc:26-101", "src/sootModel_SECT.cc:256"]}
{"id": "C57", "title": "MOMIC on particles of one size", "statement": "For n particles of one mass x above the cutoff (M_j = n x^j), without PAH, MOMIC's sources are nucleation, surface reaction on n x^(r-1/3), and Smoluchowski's coagulation rate exactly for FM; for CONTINUUM exactly for r = 0, 1, 2 and only the share r/(2^r-2) of it for r >= 3.", "quantifier": "for all n, x, numbers of moments 3..7, valid gas states", "why_tests_cant": "needs the exact value of the half-order grid interpolation for every moment order", "anchors": ["src/sootModel_MOMIC.cc:440-530"]}
{"id": "C58", "title": "MOMIC continuum condensation ignores the moment order", "statement": "The continuum collision sum MOMIC uses for condensation on moment r is that of order 0 for every r, while the comments document weights mass^(r-1): on particles of one mass x it is wrong by the factor x^(r-1) for r >= 2.", "quantifier": "for all populations, all r, all valid gas states", "why_tests_cant": "the wrong value is finite and positive, no test compares the orders", "anchors": ["src/sootModel_MOMIC.cc:165-195"]}
{"id": "C59", "title": "every gas species' source is that of the mechanism's reaction", "statement": "For any soot mass rate mdot the gas rates of a mechanism are, species by species, those of its reaction: acetylene mechanisms C2H2 -> 2C + H2; LINA1 C6H6 -> 6C + 3H2; HACA growth C2H2 + H + OH -> 2C + H2 + H2O; oxidation by O2 C + 1/2 O2 -> CO (LL, FAIR, AJ_RED, BROWN); by O2 and OH 2C + OH + 1/2 O2 -> 2CO + H (LEE_NEOH, NSC_NEOH, OPTJ, OPTG); MB C + OH -> CO + H; HACA 3C + O2 + OH -> 3CO + H; NONE nothing. Whole calls of all models (C22, C24, C26, C29, C36, C40) add these up.", "quantifier": "for all mechanisms but PAH and all real mass rates", "why_tests_cant": "a wrong stoichiometric coefficient can keep every mass and element balance (and so pass balance tests) while taking the wrong species; tests sample a few rates and mechanisms", "anchors": ["src/nucleationModels", "src/growthModels", "src/oxidationModels", "src/sootModel.cc"]}
{"id": "C60", "title": "what calls leave alone", "statement": "No history of setState and setSourceTerms calls changes a soot model's configuration: size distribution, number of soot and tar variables, growth, oxidation, coagulation and tar objects, section grid and section factor, nucleation mechanism. setSourceTerms changes nothing the user put into the state; it may only set weights and abscissas (MONO and QMOM) and cMin (PAH nucleation). Sources no selected mechanism concerns keep their initial 0: PAH sources without PAH nucleation, tar sources without a tar mechanism or with any model but MONO, all tar sources but the first, and all tar gas sources always.", "quantifier": "for all constructor arguments, all histories of calls with any arguments, any eigen-solver, and any arithmetic (binary64 included)", "why_tests_cant": "silent modification of the state or a stray source shows only for particular combinations of mechanism, model and history", "anchors": ["src/sootModel.cc", "src/sootModel_MONO.cc", "src/sootModel_SECT.cc", "src/state.cc"]}
{"id": "C61", "title": "how many gas mass fractions a configuration needs", "statement": "The gas vector handed to setState may be shorter than the 11 species of gasSp as long as it reaches the last species the chosen mechanisms read: then every history of calls stays inside its vectors as with all 11. Eight entries (as in the flame drivers) suffice except with LINA1 nucleation or AJ_RED tar; ten (as passed by the C interface) suffice except with AJ_RED tar. If a species that is read is missing, every setSourceTerms call reads outside the vector, whatever the rest of the state (growth by LL, MB or FAIR reads acetylene only where there is soot surface). In particular AJ_RED tar can never be used through the C interface.", "quantifier": "for all constructor arguments, all histories, all states, any eigen-solver and any arithmetic (binary64 included)", "why_tests_cant": "reading past a vector usually returns some value; only particular combinations of mechanism and caller are affected", "anchors": ["src/state.cc", "src/fortran_wraps/c_interface.cc", "src/tarModels/tarModel_AJ_RED.cc", "src/nucleationModels/nucleationModel_LINA1.cc"]}
{"id": "C62", "title": "tar yield and molar mass from biomass and coal", "statement": "get_mtar_ytar sets the tar yield and molar mass to the composition-weighted sums of the five constituents' correlations in temperature and log10 of pressure, changes nothing else in the state and depends only on T, P and yBio; with fewer than five fractions (as in a new state) it reads out of bounds. get_mtar_ytar_coal does the same with the coal correlations. At one atmosphere and 600-2000 K, fractions summing to one give a molar mass between 200 and 500 kg/kmol and a yield between 0 and 1. The molar mass is not always positive: at ten atmospheres and 700-2000 K softwood hemicellulose gets a negative one, and then every MONO call with AJ_RED nucleation that returns has NaN as particle source.", "quantifier": "for all temperatures, positive pressures and compositions off the poles (values); all T in the stated ranges and all compositions (ranges); any arithmetic (frame, dependence, short vector)", "why_tests_cant": "sampling a few temperatures shows neither the absence of poles nor the range; the negative mass appears only at elevated pressure", "anchors": ["src/state.cc", "src/state.h", "src/nucleationModels/nucleationModel_AJ_RED.cc"]}
{"id": "C63", "title": "source terms are finite over any history", "statement": "A model built by the enumerator constructor with MONO, LOGN, QMOM, MOMIC (up to 7 moments) or SECT, nucleation from the gas or from PAH, and no tar, survives any number of setState/setSourceTerms steps with physical data, and afterwards every soot, gas, PAH and tar source is a real number: no infinity, no NaN. Steps must avoid the hole of the HACA fit; LOGN and MOMIC with PAH need some PAH in the gas and positive moments; MOMIC with FM or HM coagulation needs either no soot or positive moments. This last condition is necessary: without PAH, positive number density and any vanished higher moment (what setState makes of a slightly negative one) always return NaN as source of the first moment. The soot variables handed over may have any sign: for all these models (LOGN without PAH, MOMIC without PAH and with CONTINUUM coagulation) every call still returns finite sources, those for the variables with the negative ones replaced by zero; in MOMIC with FM or HM coagulation and without PAH, a positive number density and any moment that is zero or negative always return NaN. With the tar mechanisms (MONO, at least one tar variable, positive tar molar mass, nucleation not from PAH) the sources are finite over any history and for soot variables of any sign with BROWN, and with AJ_RED as long as no step has soot mass without soot particles; a step with positive soot mass and zero or negative number makes AJ_RED return NaN as soot mass source and tar source.", "quantifier": "for all configurations of the stated kinds, all lists of steps of any length, all eigenvalue solvers (exact real arithmetic with infinities and NaN)", "why_tests_cant": "NaN from 0*inf or 0/0 appears only at boundary values of particular mechanism combinations and may depend on what earlier calls left behind", "anchors": ["src/sootModel_MONO.cc", "src/sootModel_LOGN.cc", "src/sootModel_QMOM.cc", "src/sootModel_MOMIC.cc", "src/sootModel_SECT.cc", "src/state.cc"]}
{"id": "C64", "title": "MOMIC free-molecular coagulation against the exact collisions of a population", "statement": "For the moments of any finite population of particles of positive mass, the grid functions MOMIC evaluates at whole l equal the exact sums over all pairs of a^p b^q (a+b)^l times the free-molecular kernel without its factor sqrt(a+b), and l = 1/2 is that kernel. Where MOMIC interpolates on two points (second order of at least 4) the result never falls below the exact collision sum; where it uses three points (order 3) both the result and the exact sum lie between the same two explicit bounds. With nucleation, growth and oxidation NONE and positive moments, every setSourceTerms call (FM, CONTINUUM or HM) returns a negative number source, a mass source of exactly 0 and a positive source for every higher moment.", "quantifier": "for all populations of any size, all weights and masses, all orders, valid gas states, and for the last part all ready MOMIC models of 3 to 7 moments (exact arithmetic)", "why_tests_cant": "the bounds relate an interpolated quantity to an exact sum over populations of any size; sampling shows neither direction of an inequality", "anchors": ["src/sootModel_MOMIC.cc", "src/coagulationModels/coagulationModel_FM.cc"]}
{"id": "C65", "title": "orders in the amount of soot: nucleation 0, surface reactions 1, coagulation 2", "statement": "Multiply every soot variable by a > 0 (the same soot, more of it). For MONO, LOGN, QMOM, MOMIC and SECT models without PAH nucleation and tar, and after any history of good steps, each soot source of the next call is J_j + e(a)*B_j + a*O_j + a^2*C_j, where J_j is the nucleation source given by the gas alone, B, O, C do not depend on a or on the history, and e(a) = a, except e(a) = sqrt(a) for growth LL; each gas source is the corresponding sum without the coagulation term. B, O, C vanish when growth, oxidation, coagulation are NONE. So with coagulation alone all soot sources scale exactly with a^2 and every gas source is 0. For MONO this needs a positive number density (C23) and for MOMIC positive moments.", "quantifier": "for all configurations of the stated kinds, all soot data, all a > 0, all histories of any length, all eigenvalue solvers, sensible or not (exact arithmetic)", "why_tests_cant": "a relation between infinitely many pairs of runs; for QMOM it must survive every downselection branch of the moment inversion and for MOMIC the logarithmic interpolation", "anchors": ["src/sootModel_MONO.cc", "src/sootModel_LOGN.cc", "src/sootModel_QMOM.cc", "src/sootModel_MOMIC.cc", "src/sootModel_SECT.cc", "src/growthModels/growthModel_LL.cc"]}
{"id": "C66", "title": "every process moves every moment in its physical direction", "statement": "For MONO, LOGN, QMOM, MOMIC and SECT models without PAH nucleation and tar, after any history of good steps, consider the source of each moment sum n m^r of the particle-mass distribution (the r-th soot variable, or the sum over the bins for SECT, every r). The sources of the next call are the sum of four parts: nucleation and growth lower no moment, oxidation raises none, coagulation never raises the number of particles, keeps their mass exactly and lowers no moment of order two or more; with methods of moments surface reactions leave the number alone. In particular: with coagulation alone number <= 0, mass = 0, higher >= 0; without oxidation the soot mass source is >= 0; without nucleation and growth mass and number sources are <= 0; without nucleation no method of moments makes particles.", "quantifier": "for all configurations of the stated kinds, all mechanism combinations, all good data, all moment orders, all histories of any length, all eigenvalue solvers", "why_tests_cant": "sign claims over all states; for SECT they rest on convexity of every power over every pair of bins including pairs that leave the last bin, and for QMOM on every outcome of the moment inversion", "anchors": ["src/sootModel_MONO.cc", "src/sootModel_LOGN.cc", "src/sootModel_QMOM.cc", "src/sootModel_MOMIC.cc", "src/sootModel_SECT.cc"]}
{"id": "C67", "title": "the sources depend only on the data the configured mechanisms need", "statement": "After any history, two accepted setState calls that agree in temperature, gas density, soot variables and cMin give the same outcome of setSourceTerms and the same sources, provided they agree in the gas species that the selected nucleation, growth, oxidation and tar mechanisms read; the PAH mass fractions matter only with PAH nucleation, the tar variables only with tar mechanisms, the pressure only with mechanisms that use partial pressures or the transport properties, the viscosity only where continuum coagulation is used. Any other species (and the number of gas species passed beyond the last one read) may be changed without any effect, in any arithmetic including binary64.", "quantifier": "for all configurations of all six models, all mechanism combinations, all histories, all argument values, all eigenvalue solvers, all number types of the model", "why_tests_cant": "independence from a datum must hold for every value of every other datum and every mechanism combination", "anchors": ["src/state.cc", "src/sootModel_MONO.cc", "src/sootModel_LOGN.cc", "src/sootModel_QMOM.cc", "src/sootModel_MOMIC.cc", "src/sootModel_SECT.cc", "src/sootModel_HMOM.cc", "src/nucleationModels", "src/growthModels", "src/oxidationModels"]}
{"id": "C68", "title": "the burner-flame drivers integrate the soot equation along the flame", "statement": "For complete tables of physical values over increasing heights, the burner-flame program with LOGN (3 moments), QMOM (2 to 34) or MOMIC (3 to 7) and any number of steps returns, reaches the top of the flame, writes the start and every 200th step, and each step is the explicit midpoint rule for d(M/rho)/dz = source/(rho v), the sources being those that a new state and an unused model give at the interpolated gas; with LOGN and QMOM every number stays finite. In the middle of a step the program passes the mass fraction of H as that of O2, so a step is the midpoint rule whenever the two columns agree, and there is a flame for which it is not. For complete tables of any finite values no run has undefined behaviour (MOMIC up to 7 moments; with SECT at most the integer conversion of C38). The HMOM program, MOMIC with 8 moments, and the tar program (first evaluation) have undefined behaviour for every physical flame.", "quantifier": "for all tables, all numbers of steps, all moment numbers, all eigenvalue solvers", "why_tests_cant": "tests run one input file; the claim is for every flame profile and step count, and one wrong gas vector in the half step is invisible in the output", "anchors": ["examples/burner_flame/burner_flame.cc", "examples/burner_flame/burner_flame_MOMIC.cc", "examples/burner_flame/burner_flame_HMOM.cc", "examples/burner_flame/burner_flame_tar.cc", "examples/burner_flame/interp_linear.h"]}
{"id": "C69", "title": "element budget of a call with PAH nucleation, every moment and sectional model", "statement": "With PAH nucleation and any growth, oxidation and coagulation mechanisms, the sources returned by MONO, LOGN, QMOM, MOMIC and SECT conserve oxygen, but not carbon and hydrogen: of the carbon taken from the PAH exactly half is missing in gas plus soot (up to an offset J*cMin/(PAH molecules consumed) from the previous cMin), and of the hydrogen all but the 2*meanH atoms that each nucleus releases; at least half of the hydrogen is always lost, and carbon is lost unless cMin exceeds twice the carbon atoms consumed per m3 and s.", "quantifier": "for all models but HMOM, all valid states with some PAH and some soot, all mechanism choices, all eigenvalue solvers", "why_tests_cant": "exact budget over all inputs and mechanism combinations", "anchors": ["src/nucleationModels/nucleationModel_PAH.cc:60-124", "src/sootModel.cc", "src/sootModel_MONO.cc", "src/sootModel_LOGN.cc", "src/sootModel_QMOM.cc", "src/sootModel_MOMIC.cc", "src/sootModel_SECT.cc"]}
{"id": "C70", "title": "fuel raises and oxidisers lower the soot sources", "statement": "For every model made by the constructors (MONO, LOGN, QMOM, MOMIC, SECT; any nucleation from the gas or PAH, growth, oxidation and coagulation mechanism), giving setState the same data but more acetylene or benzene lowers no moment of the soot sources returned, and giving it more O2 raises none; nor does more OH, unless growth is by HACA. This holds whatever calls came before on either side. With HACA growth the OH claim fails: OH makes surface radicals and can turn a zero mass source into a positive one.", "quantifier": "for all constructor-built models but HMOM, all pairs of physical gases differing in one species, all soot data of someSoot, all histories of both objects, all eigenvalue solvers", "why_tests_cant": "an inequality between two executions over all inputs and all mechanism combinations", "anchors": ["src/sootModel.cc", "src/growthModels/growthModel_HACA.cc", "src/oxidationModels/oxidationModel_HACA.cc", "src/oxidationModels/oxidationModel_NSC_NEOH.cc"]}
{"id": "C71", "title": "double precision keeps twelve digits", "statement": "In IEEE double precision, after a setState accepted with arguments of the size met in flames (300-6000 K, 100 Pa-10^9 Pa, fractions 0 or at least 10^-30, soot variables 0 or 10^-30 to 10^30), every gas-phase nucleation rate, every growth rate but HACA, every oxidation rate but HACA and NSC_NEOH, and the FM, continuum and HM collision rate of two masses of at least 3*10^-26 kg is a finite double within 10^-12 relative of the documented formula evaluated exactly on the same arguments. For a monodisperse model with such mechanisms (oxidation not BROWN), after any history, every soot and gas source returned is a finite double within 10^-12 of the exact value relative to the sum of the magnitudes of its terms.", "quantifier": "for all math libraries whose exp and pow are accurate to 2^-52, all arguments in the ranges, all previous states and call histories, all eigenvalue solvers", "why_tests_cant": "a rounding-error bound over all doubles in the ranges; tests have no exact reference value", "anchors": ["src/nucleationModels", "src/growthModels", "src/oxidationModels", "src/coagulationModels", "src/sootModel_MONO.cc"]}
{"id": "C72", "title": "no wrong sign in floating point", "statement": "In IEEE double arithmetic, after any accepted setState whose gas fractions are not negative - overflow, underflow, infinities, NaNs and negative zeros included - no nucleation, growth or oxidation rate and no collision rate of any two masses compares below zero. For a monodisperse model after any history: without nucleation the number source is not positive, without coagulation not negative; without oxidation the mass source is not negative, without nucleation and growth not positive; the sources of O2, OH, C2H2, C6H6 are never positive and those of CO, H2, H2O never negative (PAH nucleation excepted). A rate may still fail to be a number: NSC_NEOH without O2 is NaN at 60 K, where exp underflows.", "quantifier": "for all doubles as arguments, all math libraries whose exp and pow never produce a sign bit, all previous states and call histories", "why_tests_cant": "all doubles, including the ones where intermediate results overflow or underflow; cancellation in 1 - x must never go below zero", "anchors": ["src/nucleationModels", "src/growthModels", "src/oxidationModels", "src/coagulationModels", "src/sootModel_MONO.cc"]}
{"id": "C73", "title": "sections on particles of one size agree with the monodisperse model", "statement": "A sectional model whose soot is N particles in a single bin of mass x and a monodisperse model given M0 = N, M1 = N x, with the same mechanisms and gas, return the same gas sources and PAH sources, and the mass gained by all sections together (the sum of bin mass times source) is exactly the M1 source. The sum of the sectional sources differs from the M0 source exactly by: particles being born at the mass of the first bin instead of cMin carbons; growth and condensation in the last bin, which multiply particles there; oxidation in the first bin, which removes particles; and collision products heavier than the last bin. With the soot in an inner bin, products inside the bins and no such nucleation mismatch, the two number sources are equal.", "quantifier": "for all bin counts, growth factors, mechanisms (PAH included), gases, bins, particle numbers", "why_tests_cant": "all bins, sizes, kernels and gases; a cross-check between two independent implementations with exact equality", "anchors": ["src/sootModel_SECT.cc", "src/sootModel_MONO.cc"]}
{"id": "C74", "title": "how long an explicit time step may be", "statement": "The source of section j is at least minus L_j times the number in section j, where L_j is the explicit rate of growth and condensation out of the bin, oxidation out of the bin and collisions per particle; hence an explicit Euler step dt with dt L_j <= 1 for every j returns no negative number. For the monodisperse model the same holds with L = K M0 / 2 for the number and the burnt fraction of the mass per unit time for the mass; without nucleation the bound on the number is exact: a step with dt K M0 / 2 > 1 gives a negative number.", "quantifier": "for all mechanisms (PAH included), gases, bins, soot contents and time steps", "why_tests_cant": "all states and step lengths; tests check single source values, never that the losses are proportional to what is there", "anchors": ["src/sootModel_SECT.cc", "src/sootModel_MONO.cc", "examples/"]}
{"id": "C75", "title": "setState forgets the past, PAH nucleation included", "statement": "Every evaluation with PAH nucleation overwrites the state's cMin and the mechanism's stored ratios, dimer numbers and PAH rates, so that evaluating twice in a row gives different answers (C44). Nevertheless two objects built alike, with different histories of setState and setSourceTerms calls, both then given the same accepted setState, have the same outcome at the next evaluation: the same exception or undefined behaviour, or the same soot, gas and tar sources, PAH sources (with PAH nucleation) and cMin. For LOGN, QMOM, MOMIC and SECT with any mechanisms, and for MONO, with tar or without, at a positive number of particles.", "quantifier": "for all mechanisms (PAH or not), histories and accepted conditions, in any number type", "why_tests_cant": "two-run property over unbounded histories; the tests never evaluate after a second setState", "anchors": ["src/nucleationModels/nucleationModel_PAH.cc", "src/state.cc setState", "src/sootModel_*.cc setSourceTerms"]}
{"id": "C76", "title": "several models may share one state object, unless one nucleates from PAHs", "statement": "Evaluations of any soot models without PAH nucleation (any particle representation, any other mechanisms, any earlier use) on a state object do not change the answer another model gives on that object: it ends with the same exception or undefined behaviour, or with the same soot, gas, tar and PAH sources and cMin, as if the others had not been evaluated. The answering model may itself use PAH nucleation; it is LOGN, QMOM, MOMIC, SECT, or MONO, with tar or without, at a positive number of particles, and for a coagulating SECT model the static variable of the sectional coagulation must have been set by an evaluation before all these (C30). With a PAH model among the others this is false: it leaves c1 = 2 (mean carbon number) + cMin/(total dimer loss) in the state's cMin, and a MONO model evaluated next has its number source changed by J(c1) - J(cMin) and its mass source by (J(c1) c1 - J(cMin) cMin) times the mass of a carbon atom.", "quantifier": "for all models, histories, states and chains of evaluations, in any number type; the change by PAH nucleation in real arithmetic for all valid states", "why_tests_cant": "two-run property over unbounded chains of evaluations; the tests use one model per state", "anchors": ["src/sootModel_*.cc setSourceTerms", "src/nucleationModels/nucleationModel_PAH.cc", "src/state.h"]}
{"id": "C77", "title": "heating at constant composition and density speeds up the rates, except FAIR and NSC oxidation", "statement": "For two valid states that differ in temperature but not in density, gas mass fractions, cMin or soot variables (pressure and viscosity may differ), the hotter one has nucleation rates (all but PAH), growth rates (all but HACA) and oxidation rates (all but HACA, FAIR and NSC_NEOH) that are not smaller. FAIR oxidation is strictly slower in the hotter gas whenever O2 is present and the temperature stays below 2*39000/1.987 K, its exponent being positive, and NSC_NEOH oxidation can be slower (1500 K against 2250 K at 0.001 atm of O2). For a whole MONO call with soot present and without tar, PAH nucleation or HACA: the number source is not smaller when there is no coagulation, the mass source is not smaller when there is no oxidation, and not larger when there is only oxidation by one of the accelerating mechanisms.", "quantifier": "for all pairs of valid states and mechanisms, in real arithmetic", "why_tests_cant": "two-run monotonicity over all temperatures and compositions; tests compare single values", "anchors": ["src/nucleationModels/*.cc", "src/growthModels/*.cc", "src/oxidationModels/*.cc", "src/sootModel_MONO.cc setSourceTerms"]}
{"id": "C78", "title": "a section without particles gets no negative source in double precision when collisions are placed rightly, and can get one with a growth factor of sqrt 2", "statement": "In IEEE binary64 arithmetic, for a sectional model with any mechanisms but PAH nucleation, positive and increasing section masses, any history of calls, any doubles passed to an accepted setState (no negative gas fraction) and any cmath whose exp and pow have the right signs: if for every pair of sections the index that setSourceTerms truncates from (1/log F)*log(mass/mass of the first section) is the last section or one whose mass and the next one's enclose the product, then a section whose particle number is zero gets a source that is not negative. That condition is not automatic: with growth factor sqrt 2 (as a double), 5 sections, cMin 100, free-molecular coagulation and a correctly rounding log and pow, the product of two particles of section 1 is placed in section 3 although it is lighter, and the empty section 4 gets a strictly negative source.", "quantifier": "for all libraries, histories, arguments and mechanisms other than PAH nucleation; the counterexample for every correctly rounding library", "why_tests_cant": "it quantifies over every math library and every double; the failing case depends on the last bit of a logarithm", "anchors": ["src/sootModel_SECT.cc 96-101", "src/sootModel_SECT.cc 252-287"]}
{"id": "C79", "title": "the Fortran module hands its arguments to the C functions and their results back, except for the routines that do not", "statement": "With a compiler that leaves intent(out) pointers alone and clears the upper half of a register holding a 32-bit integer, every routine exported by soot_module calls the C function of its name and each parameter of that function receives the caller's argument of the same name; a constructor makes an object of the class it is named after and hands its address back; the pointers of deleted objects become null; nothing else of the caller's changes. Exceptions: tar_delete passes the address of the pointer variable instead of the pointer, getGasSpC, getGasSpP, get_pahSpC, get_pahSpP pass a pointer for an enumerator, get_yGas, get_yPAH the address of a character, setSootScales an array for a std::vector, for every call on every platform; the eleven getters of single values lose the value, whatever it is; no exported routine makes the AJ_RED tar model, though every other C function can be reached. On other compilers the counts of model and state constructors arrive with an unspecified upper half, and setSourceTerms and getGasMeanFreePath, whose objects are declared intent(out), may pass none; the arguments of all other routines outside the exceptions arrive whatever the compiler makes of intent(out).", "quantifier": "for all routines of the module, argument values, C results and platforms", "why_tests_cant": "a test calls a routine with some arguments under one compiler; the mistakes concern every argument value and the freedom the standards leave to the compiler", "anchors": ["src/fortran_wraps/soot_module.f90 12-1194", "src/fortran_wraps/soot_module.f90 291-294", "src/fortran_wraps/c_interface.cc 24-392"]}
{"id": "C80", "title": "a program that uses the C interface sees what a C++ program sees", "statement": "For a model made by the C constructors (any size model but HMOM, interpolative ones with at most 7 moments, tar variables where tar is read, no AJ_RED tar) and any history of setState and setSourceTerms calls through the C interface with arrays that are long enough: the program either ends in the very state and model the C++ history with the first ten gases and cMin 100 ends in, and getSootSources, getGasSources and getTarSources then fill the caller's buffers with all the sources, leaving the rest of the buffers alone; or a setState call is refused and the exception ends the program (or, as in C47, QMOM beyond 34 moments throws or the bin search of SECT casts out of range). For every model the buffer routines return exactly if the count exceeds neither the sources nor the buffer; a gas buffer of ten entries is always overrun. After an accepted setState the getters return the PAH fractions and the non-negative soot and tar variables passed, and an index outside the counts is out of bounds; getyBio stores five values and nothing else.", "quantifier": "for all configurations, histories, argument values, buffers and any arithmetic (binary64 included)", "why_tests_cant": "it covers every history, count and buffer length; reading or writing past an array usually shows nothing in a test", "anchors": ["src/fortran_wraps/c_interface.cc 287-392"]}
{"id": "C81", "title": "the fraction of active sites of the HACA reactions", "statement": "With HACA growth or oxidation, any size model and any mean particle mass below 1 kg: up to 2153 K every surface site counts as active whatever the size of the particles; for every mean mass there is one temperature between 2153 K and 2303 K at which growth and the oxygen part of oxidation are exactly zero while just below it every site is active, so the rate jumps by an amount with a positive lower bound and is not continuous in the temperature; and the fraction is not that of the cited fit, which takes the number of carbon atoms of a particle where the code takes its mass in kg: between 1800 K and 2153 K, for particles of at least a million atoms, the rate with the cited fraction is at most 0.36 of the code's.", "quantifier": "for all valid states, particle numbers and masses, temperatures in the stated ranges and composition", "why_tests_cant": "a test at one temperature sees a plausible rate; the claim is about all sizes below a temperature and about a single temperature depending on the mean mass", "anchors": ["src/growthModels/growthModel_HACA.cc 78-105", "src/oxidationModels/oxidationModel_HACA.cc"]}
{"id": "C82", "title": "sources are continuous in the gas and soot data", "statement": "Along any sequence of valid states whose temperature, pressure, density, viscosity, cMin, mass fractions and soot converge: nucleation (not PAH or tar), oxidation (not HACA) and growth (not HACA, at a positive soot mass) converge to the rate of the limit, for every size model; and all soot and gas sources of the monodisperse model converge, with every such mechanism and every coagulation kernel, also where the soot mass vanishes, unless the mean mass of the limit is exactly the smallest mass that collides (2e-26 kg); and all soot and gas sources of the lognormal model converge where its three moments are positive; and all soot and gas sources of the sectional model, with any bins, converge where there are particles. At the smallest colliding mass the monodisperse number source jumps from 0 by an amount with a positive lower bound. (HACA: see C81.)", "quantifier": "for all valid states, converging sequences and mechanism choices named", "why_tests_cant": "continuity is a statement about all neighbouring states; a test compares two of them", "anchors": ["src/sootModel_MONO.cc", "src/sootModel_LOGN.cc", "src/sootModel_SECT.cc", "src/growthModels", "src/oxidationModels", "src/nucleationModels", "src/coagulationModels", "src/sootDefs.h"]}
{"id": "C83", "title": "which documented growth, PAH and coagulation formulas the code computes", "statement": "On valid states, against docs/models/1_chemistry.md: the CONTINUUM kernel is the documented one with the sum of the two slip terms where the page prints their product (for equal masses up to 1e-12 kg the printed one is more than 5000 times larger); the FM kernel is the documented one with the square root of pi k_B T/2 where the page prints pi k_B T/2 (more than 1e8 times smaller up to 1e6 K); HM is below the documented harmonic mean of the FM and CONTINUUM kernels, by a factor of at least 1257/1657. The dimer rate of PAH is the documented one without C10H8 and C12H8, 1.33 times it for C10H8 alone, 0.89 times it for C12H8 alone, and always between these. The documented LL growth is 10 exp(-9000/T) times the one computed, hence smaller up to 3600 K with C2H2 present; the LIN growth computed is the documented one times the surface of a mean particle in m2, hence smaller for particles up to 1 kg; HACA growth is twice the documented rate up to 2153 K. Without OH, LEE_NEOH oxidation is the documented rate (in atm, thousandths) times exp(-8.24/T).", "quantifier": "for all valid states, all masses above the cutoff, all temperatures as named", "why_tests_cant": "needs the documented formula as an independent reference, for all inputs", "anchors": ["docs/models/1_chemistry.md:38-119", "docs/models/1_chemistry.md:133-135", "docs/models/1_chemistry.md:200-245", "src/growthModels/growthModel_LL.cc", "src/growthModels/growthModel_LIN.cc", "src/growthModels/growthModel_HACA.cc", "src/nucleationModels/nucleationModel_PAH.cc", "src/coagulationModels", "src/oxidationModels/oxidationModel_LEE_NEOH.cc"]}
{"id": "C84", "title": "mass and atoms are conserved to eleven digits in double precision", "statement": "In IEEE double precision, for a monodisperse model without PAH, tar, HACA, NSC_NEOH, BROWN oxidation and FUCHS (the mechanisms of C71), after any history and a setState accepted with arguments of the size met in flames, setSourceTerms returns finite soot and gas sources; the sum of the eleven gas sources and the soot mass source, the net source of carbon atoms with the soot counted as carbon, and those of hydrogen and oxygen atoms are at most 10^-11 of the soot mass formed and burnt per time (for atoms: of that mass divided by the atomic mass of carbon).", "quantifier": "for all math libraries whose exp and pow are accurate to 2^-52, all arguments in the ranges, all previous states and call histories, all eigenvalue solvers", "why_tests_cant": "a bound on accumulated rounding errors over all doubles in the ranges; tests check chosen points with a tolerance", "anchors": ["src/sootModel_MONO.cc", "src/nucleationModels/nucleationModel.cc", "src/growthModels/growthModel.cc", "src/oxidationModels/oxidationModel.cc"]}
{"id": "C85", "title": "the small example programs print the model's rates, and agree across languages", "statement": "The example programs simple_example.cc and simple_example_fort.f90, given the same data, print the same soot and gas sources or end with the same exception; the ninth mass fraction (called CO2 in a comment and held as C6H6) has no effect; for physical data the numbers printed are the documented Leung-Lindstedt nucleation, growth and oxidation rates, the free-molecular coagulation rate and the matching gas consumption. Two flaws: simple_example_HMOM.cc reads out of bounds for all data that setState accepts, and the Fortran program asks for the tar data before setState, so that they are NaN whatever the biomass.", "quantifier": "for all data of the shapes the programs use, all multipliers, all eigenvalue solvers; agreement for every ordered arithmetic including IEEE doubles, values in exact arithmetic", "why_tests_cant": "the programs run one set of literals; agreement and the formulas are claimed for all data", "anchors": ["examples/simple_example.cc", "examples/simple_example_HMOM.cc", "examples/fortran_examples/simple_example_fort.f90", "src/fortran_wraps/c_interface.cc"]}
{"id": "C86", "title": "which equations of the size-model documentation the code computes", "statement": "Of the equations on the documentation pages of the size models the code computes: the fractional moments of the lognormal model (product form, and the form with median and variance) and of the monodisperse model; the lognormal free-molecular coagulation sources (times FM_multiplier, b equal to the average of its bounds to 5e-5); the double sum for the QMOM coagulation of the number; the sectional growth. Not as printed: the lognormal continuum sources use 1.657 where 1.675 is printed, so that the printed loss and gain are larger for all soot; the approximation said to cost at worst 15 percent costs more than 20 for equal masses (and below 21 always); the sectional oxidation has k_o where k_g is printed for the first bin, and the printed bins together do not lose the oxidised mass; the printed sectional coagulation sum (bins whose numbers add up) creates mass for geometric bins while the code conserves it.", "quantifier": "for all valid gas states, positive moments or populations, all FM multipliers, all solvers, all bins (coagulation: four bins, every growth factor from 2 on)", "why_tests_cant": "the claims compare formulas for all values; a test compares numbers at a few points, and with tolerances that hide 1.657 against 1.675", "anchors": ["docs/models/2_mono.md", "docs/models/3_logn.md", "docs/models/4_qmom.md", "docs/models/6_sect.md", "src/sootModel_LOGN.cc", "src/sootModel_SECT.cc"]}
{"id": "C87", "title": "programs that catch the exceptions of setSourceTerms", "statement": "If a program wraps setSourceTerms in a catch-all and goes on, then: histories without exceptions are unchanged; no history of calls with matching sizes throws, and all vectors keep their sizes. A quadrature model with coagulation and at least 36 moments completes no call in any state and any arithmetic, so its sources stay as they were (zero after construction) through every such history, while each caught call has already replaced the nodes in the state by those of the new moments and, with PAH nucleation, cMin: state and sources then belong to different moments. Nothing else of the state changes.", "quantifier": "for all models, states, solvers and histories of any length, in every arithmetic (binary64 with any libm included); the values left behind for all valid states in exact arithmetic", "why_tests_cant": "the claim ranges over all histories and numbers of moments; the tests never catch an exception and go on", "anchors": ["src/sootModel_QMOM.cc:95-202", "src/binomial.h"]}
{"id": "C88", "title": "what the interpolated moments of momic mean for the growth of soot", "statement": "MOMIC's moment of any real order r is 10 to the value at r of the one polynomial of degree below n through the common logarithms of its moments (n all of them for r >= 0, the first three for r < 0): whatever such polynomial the caller computes gives the same number, and one always exists. No finite population of spheres has more surface than equal spheres of the same number and mass. With three moments that satisfy M1^2 <= M0 M2, surface growth never exceeds the growth on that largest surface. With four moments it stays within it exactly when (M1 M3/M2^2)^4 <= (M0 M2/M1^2)^13, and four moments of an actual two-size population break this: the growth source then exceeds what any population of that number and mass could have.", "quantifier": "for all positive moments, orders, polynomials and populations; the calls for all valid states with nucleation and oxidation off and any growth mechanism, in exact arithmetic", "why_tests_cant": "the bound is over all populations sharing two moments and over a continuum of states; tests compare single numbers with earlier output", "anchors": ["src/sootModel_MOMIC.cc:196-212", "src/sootModel_MOMIC.cc:615-670", "docs/models/5_momic.md"]}
{"id": "C89", "title": "a closed vessel keeps its mass and atoms under any explicit time integration", "statement": "A program integrates a closed vessel (densities of the eleven gases and of the rest, soot variables) with one soot model and one state object: it evaluates setState and setSourceTerms at the start changed by any linear combination of the rates obtained so far, so that Euler, Runge-Kutta and multistep methods with any step sizes, temperatures and pressures are included. Then, without PAH and tar, every such combination has the mass and the carbon, hydrogen and oxygen atoms of the start, soot counted as carbon; as long as the content is acceptable (non-negative, away from the hole of the HACA fit, and for MOMIC moments all positive or none) the next evaluation returns finite rates; and while no gas is negative the soot mass never exceeds the carbon of the vessel. For MONO, LOGN, QMOM, MOMIC (up to 7 moments) and SECT.", "quantifier": "for all configurations named, starts, methods, step sizes, eigen-solvers and numbers of evaluations, in exact arithmetic", "why_tests_cant": "the claim ranges over all integration methods and histories of any length; the tests evaluate single states", "anchors": ["src/sootModel.cc", "src/sootModel_MONO.cc:44-120", "src/sootModel_SECT.cc:96-260", "src/state.cc"]}
{"id": "C90", "title": "quadrature with four moments does not notice impossible moments", "statement": "Call the mirror image of four moments the list with the same number and mass and with M2 and M3 reflected at their values for equal particles. A QMOM model with four moments (M0 > 0, M0 M2 != M1^2) gives for moments and for their mirror image the same nodes and the same soot, gas and PAH sources, with any eigen-solver; and when M0 M2 > M1^2 the mirror image is the list of moments of no population. So negative variances are silently evaluated as positive ones. With growth alone, an explicit time step from the moments of any population with at least two sizes, at most as many nodes being used, ends in such impossible moments (all of them positive) exactly when it is longer than (c + sqrt(c^2 + S0^2 (M0 M2 - M1^2))) / (K S0^2), a positive length; c = M0 S1 - M1 S0, Sj the node sums of m^(j+2/3), K the growth rate times pi (6/(pi rho))^(2/3).", "quantifier": "for all mechanisms, gases, moments, eigen-solvers (the step length: for solvers that do diagonalise), in exact arithmetic", "why_tests_cant": "tests evaluate populations; that two different inputs always give the same answer is a statement about all pairs", "anchors": ["src/sootModel_QMOM.cc:218-331", "src/sootModel_QMOM.cc:60-200"]}
{"id": "C91", "title": "soot moments that are not numbers are hidden by some size models and reported by others", "statement": "setState stores soot values that are NaN like any others. A caller that relies on NaN sources to notice them: MONO without tar and QMOM give, for a NaN number concentration, exactly the outcome they give for no soot (same sources, same state apart from the stored moments), whatever the other moments; QMOM with four moments gives, for a NaN second or third moment, the outcome for equal particles of the mean mass. MONO with a NaN mass reports NaN as the source of the number when particles coagulate and of the mass when they grow or oxidise; LOGN with any NaN moment does the same in the free-molecular and continuum regimes, but with the harmonic mean and coagulation alone all its sources are zero; SECT reports NaN as the source of the section that holds it as soon as particles grow, oxidise or coagulate.", "quantifier": "for all constructed models, mechanisms, states and calls; the two statements about the number for doubles with any libm and any eigen-solver too, the others in exact arithmetic with NaN and infinities", "why_tests_cant": "NaN inputs are rarely tested, and that a NaN input always gives the same result as a valid one is a statement about all inputs", "anchors": ["src/state.cc:65-70", "src/sootModel_MONO.cc:79-145", "src/sootModel_QMOM.cc:218-270", "src/sootModel_LOGN.cc:239-300", "src/sootModel_SECT.cc:190-300"]}
{"id": "C92", "title": "the constructors warn exactly about HACA pairs and many quadrature moments", "statement": "A constructor from enumerators writes the HACA warning once, and only, if all five enumerators name mechanisms and exactly one of growth and oxidation is HACA - before the checks of the size model, so also when the construction then fails; it writes the QMOM warning once, and only, if it constructs a QMOM model with 8 or more moments; the HACA warning comes first and nothing else is written. A constructor from pointers does the same by the mechanism types that the objects state. Warnings do not change the constructed model. Silence does not mean that the model can be used: every HMOM model, and every MOMIC model with 8 moments, with matching HACA choices is constructed without a warning although every call of setSourceTerms leaves its tables.", "quantifier": "for all configurations, constructors and arithmetics; for the unusable models also all states and eigen-solvers", "why_tests_cant": "the tests do not capture the error stream, and the number of configurations is large", "anchors": ["src/sootModel.cc:60-74", "src/sootModel.cc:90-197", "src/sootModel_QMOM.cc:25-85"]}
{"id": "C93", "title": "AJ_RED cracking creates tar where there is little of it", "statement": "Up to 2500 K the cracking rate of the AJ_RED tar model, which setSourceTerms subtracts from the tar source, is negative for 1 to 10^5 tar molecules per cubic metre and positive for 10^9 to 10^25; at every temperature some density in between is not cracked at all, so cracking cannot remove the tar. In a gas without CO2 and H2O, without soot and nucleation, a whole setSourceTerms call of MONO with AJ_RED tar then returns a positive tar source while every gas source and the soot mass source are zero: tar mass appears out of nothing.", "quantifier": "for all valid gas states up to 2500 K and tar densities in the ranges; for the whole call all growth, oxidation and coagulation mechanisms", "why_tests_cant": "the sign depends on the logarithm of the tar density and on the temperature through several empirical fits; tests use single densities", "anchors": ["src/tarModels/tarModel_AJ_RED.cc:36-68", "src/sootModel_MONO.cc:148-173"]}
{"id": "C94", "title": "coagulation alone in a time loop empties one size but not the sections", "statement": "A time loop calls setState and setSourceTerms with one model and one state object and adds dt times the soot sources, in a gas that does not change, with coagulation as the only mechanism. If the first step is shorter than the time in which the initial loss would use up the particles (with the free-molecular kernel for FUCHS), the MONO model runs for ever: the mass stays, the number stays positive, falls at every step at least as fast as 1 over the time and tends to zero. If dt times the largest kernel times the initial number is at most 1, the SECT model runs for ever: no section becomes negative, the mass stays, the number never rises, but it never falls below the mass divided by the mass of the largest section, so it does not tend to zero.", "quantifier": "for all numbers of steps, initial soot, physical gas states, step lengths within the bound, kernels, eigen-solvers; for SECT all numbers of sections, growth factors and first sections", "why_tests_cant": "an infinite number of steps; the bound on the first step must carry over to all later states, whose kernels and sizes differ", "anchors": ["src/sootModel_MONO.cc", "src/sootModel_SECT.cc", "src/coagulationModels/"]}
{"id": "C95", "title": "oxidation alone in a time loop burns the mass but leaves the particles of one size", "statement": "A time loop calls setState and setSourceTerms with one model and one state object and adds dt times the soot sources, in a gas that does not change, with oxidation (not HACA) as the only mechanism and a positive rate. For any step length the MONO model runs for ever, although the solver may come to hold a negative mass, which setState replaces by zero in the state: the number never changes; the mass falls at every step until after fewer than M/h^3 + 1 steps it is zero or negative, by no more than 4/27 h^3, where one step burns h M^(2/3) of a mass M; then nothing changes any more, so the particles stay with no mass. In the SECT model with steps in which no section can lose more than it holds, no section becomes negative, the number never rises, the mass falls at least geometrically, and mass and number tend to zero.", "quantifier": "for all numbers of steps, initial soot, physical gas states, oxidation models except HACA, eigen-solvers; for MONO all step lengths; for SECT all step lengths within the bound, numbers of sections, growth factors and first sections", "why_tests_cant": "an infinite number of steps; the overshoot and the number of steps depend on the step length and are bounded for all of them", "anchors": ["src/sootModel_MONO.cc", "src/sootModel_SECT.cc", "src/state.cc", "src/oxidationModels/"]}
{"id": "C96", "title": "growth alone in a time loop follows the cube law for one size but multiplies particles of sections", "statement": "A time loop calls setState and setSourceTerms with one model and one state object and adds dt times the soot sources, in a gas that does not change, with surface growth by LIN, FAIR or MB as the only mechanism. For any step length the MONO model runs for ever, the number never changes, and the cube root of the mass grows by h/3 at every step, less an error of at most h^2/(9 M^(1/3)) per step with M the initial mass, where one step adds h M^(2/3) to a mass M; hence, as the steps get shorter, the mass at a given time tends to the exact solution of dM/dt = K times the surface. With growth by LL instead, the 2/3 power of the mass grows by 2h/3 at every step, less an error of at most h^2/(9 M^(2/3)), where one step adds h M^(1/3) to a mass M, and with shorter steps the mass tends to the exact solution of dM/dt = rate times the square root of the surface. In the SECT model with steps in which no section can lose more than it holds and some soot at the start, no section becomes negative, but the mass grows at least geometrically and the number of particles without bound, although growth makes no particles.", "quantifier": "for all numbers of steps, initial soot, physical gas states, eigen-solvers; for MONO all step lengths; for SECT all step lengths within the bound, numbers of sections, growth factors and first sections", "why_tests_cant": "an infinite number of steps and a limit of ever shorter steps", "anchors": ["src/sootModel_MONO.cc", "src/sootModel_SECT.cc", "src/growthModels/"]}
{"id": "C97", "title": "nucleation and coagulation in a time loop: the soot mass is what nucleated", "statement": "A time loop calls setState and setSourceTerms with one model and one state object and adds dt times the soot sources, with nucleation from the gas and any coagulation as the only mechanisms. Whatever the initial soot variables (of any sign), the sequence of physical gas states, the step lengths and the eigen-solvers, the loop runs for ever with finite sources, and the soot mass (second moment, or bin-mass-weighted sum of the sections) after i steps is exactly the initial mass plus the sum over the steps of dt times nucleation rate times mass of a nucleus: neither coagulation nor the replacement of negative variables by zero in setState creates or destroys mass. For MONO, LOGN, QMOM, SECT and MOMIC with CONTINUUM coagulation (with FM or HM a negative moment gives NaN, C63).", "quantifier": "for all configurations named, numbers of steps, step lengths, gas histories, initial variables and eigen-solvers (exact arithmetic)", "why_tests_cant": "all histories of any length, including those in which explicit steps overshoot; the tests evaluate single states", "anchors": ["src/sootModel_MONO.cc", "src/sootModel_LOGN.cc", "src/sootModel_QMOM.cc", "src/sootModel_MOMIC.cc", "src/sootModel_SECT.cc", "src/state.cc"]}
{"id": "C98", "title": "tar of the BROWN model in a time loop yields a fixed share of soot", "statement": "A time loop calls setState and setSourceTerms with one MONO model with BROWN tar, BROWN nucleation, one tar variable, no oxidation, any coagulation and any growth except HACA, and adds dt times the soot and tar sources, in a gas that does not change. K is the sum of the rate constants for tar to soot (kF), gasification and oxidation of tar. For any step length and any initial tar and soot (of any sign) it runs for ever, and the soot mass has increased by exactly kF/K times the tar used up; coagulation and the growth model have no effect on it. With steps of at most 1/K the tar after i steps is n0 (1 - dt K)^i, so the tar tends to zero and the soot mass gained to kF/K n0. With longer steps the first step makes the tar negative, at n0 (1 - dt K), where it stays for ever, since setState replaces it by zero: more soot is made than the tar can yield.", "quantifier": "for all numbers of steps, step lengths, initial tar and soot, tar masses, physical gas states, growth (not HACA) and coagulation models, eigen-solvers (exact arithmetic)", "why_tests_cant": "an infinite number of steps and a limit; no test runs a loop with tar", "anchors": ["src/tarModels/", "src/sootModel_MONO.cc", "src/nucleationModels/", "src/state.cc"]}
{"id": "C99", "title": "nucleation and coagulation in a time loop: the number stays bounded while the mass grows", "statement": "A time loop calls setState and setSourceTerms with one MONO model and one state object and adds dt times the soot sources, in a gas that does not change, with nucleation from the gas and coagulation (FM, CONTINUUM, HM or FUCHS) as the only mechanisms, nuclei not smaller than the smallest colliding mass (2e-26 kg) and soot whose mean mass is larger than it at the start. For any step length the loop runs for ever; the number never exceeds the larger of the initial number and U = sqrt(2J/B) + dt J, where J is the nucleation rate and B an explicit lower bound of the kernel; if nuclei form at all, the number is at most U from some step on, whatever the start, while the mass grows by dt J times the mass of a nucleus in every step, so that the mean mass of a particle exceeds every bound. With CONTINUUM, HM or FUCHS coagulation and steps short enough not to overshoot (dt K (sqrt(2J/B) + max(N0, U)) at most 2, with N0 > 0 the initial number and K the CONTINUUM kernel of the smallest colliding particles, for FUCHS times 1 + 2r + r^2 with r their stopping distance over their diameter) the number stays positive and tends to sqrt(2J/B') with B' = 8 k_B T/(3 mu), the kernel of large particles, the same limit for the three kernels and every initial soot.", "quantifier": "for all numbers of steps, step lengths, initial soot above the smallest colliding mean mass, physical gas states, nucleation models from the gas, kernels and eigen-solvers (exact arithmetic)", "why_tests_cant": "an infinite number of steps and a bound that holds for every step length, also where explicit steps overshoot and setState replaces a negative number by zero", "anchors": ["src/sootModel_MONO.cc", "src/coagulationModels/", "src/nucleationModels/", "src/state.cc"]}
{"id": "C100", "title": "growth against oxidation in a time loop: where the soot mass goes", "statement": "A time loop calls setState and setSourceTerms with one MONO model and one state object and adds dt times the soot sources, in a gas that does not change, with LL growth and any oxidation model except HACA as the only mechanisms. Growth gains per square root of the surface and oxidation burns per surface, so there is one mass Ms = (k_LL/(K c))^3, with c the square root of the surface over M^(1/3), at which both are equal. If a step would burn at most three times Ms at the mass Ms, the loop runs for ever from any positive number and mass; the number never changes; the mass stays positive and between its initial value and Ms, is never farther from Ms than a step before, and tends to Ms. With LIN, FAIR or MB growth, which gain per surface as oxidation burns, and steps of any length the sign of growth minus oxidation decides: the mass rises at every step beyond every bound, or never changes, or falls at every step until it is zero or negative and then stays, while the number never changes.", "quantifier": "for all numbers of steps, initial numbers and masses, step lengths within the bound, physical gas states with acetylene and an oxidiser, oxidation models except HACA and eigen-solvers (exact arithmetic)", "why_tests_cant": "an infinite number of steps and a limit that must not depend on the initial mass", "anchors": ["src/sootModel_MONO.cc", "src/growthModels/", "src/oxidationModels/", "src/state.cc"]}
