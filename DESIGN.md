# Design of the formal model

The subject is the Python package in `/repo/package/inference` (sub-packages
pie, grid, count, mc, utils, gauss, deriv, integrate) with its C and Fortran
kernels.  Nothing of it is run; it is read as text and transcribed into
executable Gallina, function by function, in `rocq/theories`.

## Conventions

* `XxxModel.v` holds definitions only, each citing the file and lines it
  transcribes and saying what is simplified.  `XxxSpec.v` holds the small
  independent vocabulary in which theorems are stated.  `XxxLemmas.v` holds
  proofs.  `XxxProps.v` holds the property theorems only, each closed by a
  lemma, followed by `Print Assumptions` and a concrete example.
* A Python call that can raise is a function returning a state and an outcome;
  an exception is a value, and the state returned with it is the state the
  Python objects are left in.
* Loops that need not terminate take fuel and return a distinct value when it
  runs out; theorems speak about runs that return.
* Floating point numbers are modelled in one of two ways: an arbitrary carrier
  with arbitrary operations and comparisons (no laws; this includes IEEE
  doubles with NaN), or the real numbers of Coq's standard library, where the
  property is about arithmetic.  Rounding is not modelled in the second case.
* Things the model does not compute (user functions, optimisers, random number
  streams) are ordinary universally quantified arguments of the theorems.


## Per property

* **C01** Every parameter is in exactly the list its status says. Pie*.v: executable state machine of one inference with any number of parameters (values, status, range, step data, three membership lists, stepping_info). Operations return a state and an optional exception. Invariant proved by induction on the list of operations, for an arbitrary arithmetic (no laws assumed, so also for floats with NaN).
* **C02** A rejected assignment changes nothing. Same machine: per-operation frame theorems for every raising path; vary() is refuted with a witness.
* **C03** Parameter values stay in their declared range. Same machine: refuted with witness histories; the positive half is an invariant over histories that do not re-declare the range.
* **C04** Linear stepping visits the advertised equally spaced values. Same machine over the real numbers: path invariant by induction on step lists.
* **C05** Logarithmic stepping visits a geometric sequence. As C04 with exp/log of Coq Reals.
* **C06** Grid stepping visits every grid point exactly once and then restarts. Same machine: the traversal is compared with an independent recursive specification of the boustrophedon path; NoDup/permutation of all tuples, adjacency, restart.
* **C07** do_grid stores at each grid point the score of that grid point. Same machine plus a finite map for the grid; score and optimize are arbitrary functions of the state (oracle arguments).
* **C08** A grid started in mid-traversal is still completely filled. Refuted with a witness reachable by public calls.
* **C09** Predictions always see the current parameter values. History model of on_use with an abstract user hook and cache; evaluation equals evaluation from scratch.
* **C10** Value and status changes are announced to every listener once. Listener list with a notification log; log compared with a specification function of the history.
* **C11** A removed listener is no longer notified. Refuted for every state.
* **C12** Parameter order is the order of the source text. Model over Coq strings of the source-line scan, with removal while iterating; permutation theorem and refutations.
* **C13** Classes and instances do not leak parameter names into each other. Heap model of class attribute lists (references), refuted with witnesses; positive part for root classes.
* **C14** get_params / set_params round trip. Same machine as C01; induction over the parameter list.
* **C15** The unbounded transform is an order preserving bijection onto the open range. Real analysis over Coq Reals.
* **C16** Simulation never touches the shared data. Heap of arrays with references; frame invariant over histories of operations on several handlers.
* **C17** Scores are the documented statistics. Reals; algebra over lists.
* **C18** The peak list keeps exactly the best peaks in order. Executable model of LabeledMaxList.update over an arbitrary total order of heights; invariant over insert histories.
* **C19** Refinement keeps the intervals a gap-free tiling. Executable model of interval list update/merge over integers-with-order or reals.
* **C20** locate finds the interval that contains the point. Fuel-free bisection by well-founded measure or fuel bounded by the length, with fuel sufficiency proved.
* **C21** Trapezoid integrals add up over refined intervals and in log form. Reals.
* **C22** Credible-region fractions are proper and decrease with the level. Reals; loops as folds over lists of cells, compared with Riemann integrals (Coquelicot's RInt) of the interpolating function.
* **C23** Level crossings returned for a grid are genuine and fit the buffer. Executable model of the Fortran loop with explicit buffer writes, out-of-bounds as error value.
* **C24** The critical level search returns a level of the requested probability. Reals; brentq and the chi-squared functions are parameters; a root finder is assumed only to bracket a sign change (bisection is shown to do so).
* **C25** Signal count probabilities form the exact posterior distribution. Two-way recursion over arrays as in the Fortran; closed form with factorials over Reals.
* **C26** The marginal likelihood is the full series, truncated only below the cutoff. As C25; fuel-bounded loops as in the Fortran do-loops.
* **C27** Poisson probabilities do not depend on earlier calls. Stateful model of the saved factorial table; history independence by invariant.
* **C28** pnsig(n) is the n-th entry of pnsig(). Small executable model of pnsig with Python truthiness; refuted at 0.
* **C29** The table sampler reproduces the weights exactly at 30-bit resolution. Executable model over Z of tables (base-64 digits); counting theorem by induction over the population.
* **C30** Sampling without replacement returns distinct population members. Executable model of the rejection loop over an arbitrary stream of random numbers with fuel.
* **C31** Equal probability sampling is without replacement and unbiased. Executable model of the shuffle; bijection between pick sequences and arrangements.
* **C32** Sampford inclusion probabilities are proportional to size. Mean over tapes of uniform numbers as iterated Riemann integrals (Coquelicot) of the loop itself; reduced to sums over ordered samples.
* **C33** Population sampling is reproducible from the NumPy random state. State-passing model of the two generators.
* **C34** The piecewise linear density covers exactly the non-negligible values. Executable model of region construction on lists.
* **C35** Piecewise linear samples have the advertised distribution. Reals with sqrt; the distribution as a Riemann integral over the uniform number.
* **C36** The density can be evaluated everywhere in its domain. Executable model of _pdf with index errors as values.
* **C37** Steppers yield n points from lo to hi. Reals / executable generators.
* **C38** The log summer tracks the log of the sum. Reals.
* **C39** zbracket returns a bracketing interval containing the start interval. Loop with fuel = maxtries over an arbitrary function.
* **C40** Minimum bracketing returns a genuine bracket. Loop with fuel over an arbitrary function on Reals; partial correctness.
* **C41** The line minimiser stays in the bracket and returns its best point. Loop with fuel = maxit over an arbitrary function on Reals.
* **C42** Powell minimisation never ends above its starting point. Nested loops, vectors as lists of reals, uses C40 and C41.
* **C43** Backed up files are never lost. File system as a map from names to contents; a list of fates says of each operation whether it is carried out, refused, or finds the process stopped.
* **C44** Attribute stores round trip. Attribute stores as finite maps with a file system of archives.
* **C45** Saved random state can be restored. File system model with text/binary mode.
* **C46** Bretthorst memoisation never serves stale results. State machine of the memo with failing kernel.
* **C47** The linear algebra kernel solves the least squares problem. Matrices as functions nat -> nat -> R, loops as in C.
* **C48** The covariance kernel inverts the metric. As C47.
* **C49** Observed information is exact for quadratic log likelihoods. Reals, vectors as functions, the loops as in Fortran.
* **C50** Scale search reports success only when the target is met. Loop with fuel and status over arbitrary function on Reals.
* **C51** Cubature rules are exact to their stated degree on every rectangle. Reals, polynomials as coefficient lists, node constants as exact decimals.
* **C52** adapt_vec allocates the workspace it needs and runs. Executable size computation with Python int/float typing; refuted.
* **C53** Survival curve points describe the weighted sample. Executable model over the reals; refuted.
* **C54** Arrays of signal rates are treated element by element. Same model as C25; arrays as lists with an element kind.
* **C55** Refining an interval list never makes it coarser. Reals; same model as C19.
* **C56** Three points of a Gaussian give back its parameters. Reals; algebra.
* **C57** Both ways of evaluating a grid record the same peaks. Same model as C21; refuted with a computed case.
* **C58** Refining a grid succeeds whatever the function. Same model as C21; positive half proved, refuted with a computed case.
* **C59** Two-dimensional regions keep their ranges and use two-dimensional sigmas. Same model as C22; refuted with computed cases.
* **C60** Weights are prepared in decreasing order with the indices they came from. Arrays of indices as lists, read as ints of half the width on 64-bit platforms; refuted there.
* **C61** The local generator is the Mersenne Twister, and integers and doubles are made from its words without bias. The state as a list of 624 words with in-place regeneration; compared with the recurrence on an infinite sequence.
* **C62** safe_open passes the extra arguments to the opener. Same model as C43, openers as arbitrary functions on the disk.
* **C63** A store lists the names of what it holds. Same model as C44.
* **C64** Columns of a text file are read into vectors. Executable model over arbitrary conversion functions.
* **C65** The covariance kernel refuses arrays that are not square. Arrays as lists with bounds-checked access.
* **C66** The Bretthorst classes can compute. The memo model with the placeholder in place of the kernel.
* **C67** Extrapolated information is exact with fourth degree terms. Same model; the tableau is followed for differences of the form c + d h^2.
* **C68** obsinfo for raising and steep functions. Model ninfol with a raising callback and elements that are not set.
* **C69** The step search ends. Model of the first loop of pk_scales with fuel; out of fuel for every amount.
* **C70** Tolerance of the step search is relative. Concrete function.
* **C71** Normal weighted cubature has the degree in the rule name. Reals and the integer tables; moments computed exactly by the kernel, means as limits of integrals over squares.
* **C72** Normal weighted cubature objects are independent. A store of arrays with addresses; histories as lists of uses.
* **C73** adapt covers the box, and its error is bounded by the error estimates. Regions as boxes with values; a relation says which sets of boxes can be reached; additive set functions stand for integrals.
* **C74** Every outcome of adapt. An invariant ties the heap in WRKSTR to the list of regions.
* **C75** adapt does not give up early. As C74.
* **C76** adapt finds the integral when its rules are exact. As C73.
* **C77** adapt returns a result or raises. By the checks at the start of ADAPT.
* **C78** adapt is exact for cubics. The weights as a convolution (Smolyak); FLSM as a sum over permutations and signs; divided differences of the squared generators; then C73, C75.
* **C79** adapt integrates constants in all dimensions it accepts. Count of evaluations of the rule; C74.
* **C80** adapt finds the integral of a linear function. C76 with the rules of C78.
* **C81** adapt evaluates the integrand only inside the box. FLSM visits points strictly inside; halves of a box are inside it.
* **C82** flatten returns the numbers of nested sequences. Induction on the number of nested calls left.
* **C83** Moments of grids. Trapezoid sums are linear and monotone; sums over the grids of C21's invariant.
* **C84** What dcuhre returns. Invariant of the main loop: the heap holds the pieces; DTRHRE keeps a heap of the same columns.
* **C85** dcuhre integrates polynomials exactly, or to the figures of its tables. Moments of the orbits in all dimensions; weights by Lagrange interpolation in the squared generators; additivity. For the tables of keys 1 and 2, all moments in integers by computation.
* **C86** IFAIL is 0 when the accuracy is reached within maxpts. Witness 84 evaluations; general condition from C84.
* **C87** dcuhre stays in the box; exchanged limits change the sign. Generators lie in the unit cube and halves in the box; the sign is the only use of the order of limits.
* **C88** dcuhre does not depend on units or on what memory holds. Simulation of two executions in different units, branch by branch.
* **C89** kmestm computes the product-limit estimate. Invariants of SORT1, XVAR and PLEST1; products over sorted events with ties against products over different points; summation by parts for the mean and its variance; invariant of the removal of ties in KMADJ.
* **C90** kmestm gives all of the detections. Witnesses through C89; evaluation for the third.
* **C91** kmdif counts the expected numbers of values in bins. Invariant of the two indices; the jump of the curve is the probability of its point.
* **C92** quart finds the quartiles by linear interpolation. First gap that contains a height; a decreasing curve.
* **C93** KM makes an estimate with proper weights. C89 with the arguments that KM makes.
* **C94** bistats gives the moments of pairs of numbers. Sums of squares; the Cauchy-Schwarz inequality with its case of equality.
* **C95** The six lines of SixLin are what they are said to be. Each sum of squares as its minimum plus squares; half angles for the bisector.
* **C96** The errors of SixLin follow from its lines by the delta method. The errors as sums over points; derivatives of the slopes as functions of two slopes.
* **C97** wlss gives the weighted least squares line. Weighted sums of squares as in C95; what is left when the weights are infinite.
* **C98** BCES corrects the regressions for errors in both variables. The moments of BESS; the errors of C96 for no errors.
* **C99** romberg gives the integral of a function. Rows of the table by induction; splitting of sums into odd and even terms; errors of a column bounded by those of the one before.
* **C100** rombint gives the entries of Romberg's table. The loop computes the rows of C99; its stride through the points by arithmetic of powers of 2.
* **C101** Rombergs_Integration_Method gives the entries of Romberg's table. Invariant of the array dt; the loop over x visits the odd points.

## Modelled code

| file (under package/inference) | model | what is left out |
|---|---|---|
| pie/param.py, realparam.py, the parameter bookkeeping of inference_base.py | PieModel | printing, plotting |
| pie/inference_base.py:401-574, containers.py:47-64 | PieGridModel | the minimiser and the score are arbitrary functions |
| pie/autoname.py:35-41, param.py:76-91, predictor.py:57-65, inference_base.py:88-182 | NamesModel | text beyond 256 code points |
| pie/gaussian.py, predictor.py:14-83, signalmodel.py:79-93, bayes.py, maxlike.py, chisqr.py | GaussModel | locations that are not scalars |
| utils/nrmin.py:4-224, utils/numutils.py:25-149, 173-211 | MinModel | tracing output |
| count/_cbmlike.f:138-669, count/onoff.py:38-210 | CountModel | the log gamma function is a parameter with a stated accuracy |
| grid/grid1d.py | RefModel, MomModel (moments) | tuple-valued functions (`select`), progress output, floating point rounding |
| utils/numutils.py:11-21 | MomModel | dictionaries and other objects with an item 0 |
| grid/_gridquad.f, grid/hpd.py:29-289, grid/hpdgrid.py:75-307 | HpdModel | plotting; infinite logs, rounding; brentq and the chi-squared functions are parameters |
| mc/randomkit.c:183-259, compact5table.c, sampford.c, _ppssampler.c:114-464, 542-578, 667-792, population.py:20-143 | McModel | rounding of doubles, overflow of C integers, reading of arguments; numpy's argsort and the C library's rand are parameters |
| mc/pwlinear.py:18-215, population.py:185-236 | PwlModel | rounding of doubles; division by a zero norm |
| utils/ioutils.py:8-339, utils/rng.py:9-51 | IoModel | directories, permissions, concurrent processes; the formats of archives and pickles; splitting of lines into words; values changed in place |
| gauss/vbamodule.c:109-339, vecba.py:1-279 | BaModel | rounding of doubles; reading of arguments; zero sigmas; the warning about the untested method |
| deriv/_obsinfo.f:18-323, _obsinfo.pyf, obsinfo.py:11-69 | ObsModel | rounding of doubles; infinities and NaNs stop the model; copies made for arrays of other types; negative niter |
| integrate/cub2d.py:86-270, _cub2d_auto.py, adapt_vec.py:7-87, dchhre.f:128-255 | CubTables (generated from _cub2d_auto.py), CubModel | rounding of doubles: literals are exact decimals |
| integrate/adapt.py:35-93, adapt_py.f:13-276 (ADAPT, BSRL) | AdModel | the basic rules are a parameter (SyModel below gives them); restart of ADAPT (never asked for); lower > upper |
| integrate/adapt_py.f:278-558 (SYMRL, WHT, FLSM, NXPRT) | SyModel | rounding of doubles; FAIL = 1 of SYMRL (never happens); lower > upper |
| integrate/dcuhre_py.f:388-431, dadhre.f, dtrhre.f, drlhre.f, dfshre.f, dinhre.f, d07hre.f, d09hre.f, d132re.f, d113re.f | DcModel, DcTables | rounding of doubles, also of the literals of the tables; restarts; MDIV > 1; the layout of the work array |
| sandbox/asurv/_asurvkm.f:5-345, 538-764, 780-953, KM.py:17-87 | KmModel | rounding of doubles; PLESTM and cdf_pts; Population1D of the weights |
| sandbox/regress/_regress.f, regress.py | RgModel | rounding; infinities and NaN are one value that is not a number; copying of arrays; method of LinRegResult |
| sandbox/integrate/romberg.py:4-20, rombint.m, rombergs_method.c | RoModel, RoModel2, RoModel3 | rounding, also of literals; printing; decdigs that is not a natural number |

Each definition cites the lines it transcribes; simplifications are stated there.

## Trusted base

* Coq 8.16.1 kernel, with its bytecode machine for the moments of the
  cubature tables (`vm_cast_no_check`, which the kernel checks at `Qed`).
* The axioms listed per theorem at the end of this file, as `Print
  Assumptions` reports them.  All are axioms of the standard library
  (`ClassicalDedekindReals.sig_forall_dec`, `ClassicalDedekindReals.sig_not_dec`,
  `FunctionalExtensionality.functional_extensionality_dep`,
  `Classical_Prop.classic`), which the library's real numbers rest on.
* Coquelicot is used for Riemann integrals; it adds no axioms.
* The transcription of the Python, C and Fortran code into Gallina.

## Not modelled

Plotting, printing and logging; `sandbox` except `asurv`, `regress` and
the three codes for Romberg's method in `integrate`; `expt`, `examples`;
restarts of DCUHRE; build scripts; floating point rounding where the
reals are used.


## Axioms reported for each theorem

* no axioms (closed under the global context): C01_status_lists, C02_refused_step, C02_rejected_assignment, C02_rejected_ends, C02_vary_refuted, C03_refuted, C04_ends_exact, C05_ends_exact, C06_grid_order, C08_refuted, C09_evaluation_uses_hook, C09_score_from_scratch, C10_all_changes_announced, C10_fix_announced_once, C10_listener_registered_once, C10_value_change_announced_once, C11_always_raises, C11_refuted, C12_dictionary_order_irrelevant, C12_missing_name_drops_all, C12_source_order, C13_class_statement, C13_instances_refuted, C13_instances_with_source, C13_subclass_refuted, C14_atomic_refuted, C14_round_trip, C14_write_back, C16_caller_list_refuted, C16_others_unaffected, C16_shared_data_unchanged, C31_bad_sizes_are_refused, C31_equal_probability_sample, C31_picks_are_shared_evenly, C33_subset_fails_otherwise, C33_subset_of_everything, C37_linear, C37_logarithmic, C43_backup, C43_backup_succeeds, C43_safe_open, C43_safe_open_succeeds, C43_saving, C43_three_interruptions_refuted, C43_two_interruptions, C44_array_called_file_refuted, C44_attribute_called_save_refuted, C44_extension_raises, C44_extension_refuted, C44_no_name_raises, C44_own_name, C44_round_trip, C45_saving_raises, C45_three_attempts, C61_generator_is_the_twister, C61_interval, C61_state_check_refuted, C62_keywords_dropped, C62_keywords_refuted, C62_opener_gets_arguments, C63_new_names_refuted, C63_nothing_new, C64_arrays_raise, C64_arrays_refuted, C64_columns, C64_short_line_raises.
* `ClassicalDedekindReals.sig_forall_dec`: C45_python2, C45_python2_deviate_refuted, C45_refuted, C45_restoring_raises.
* `ClassicalDedekindReals.sig_forall_dec`, `ClassicalDedekindReals.sig_not_dec`, `Classical_Prop.classic`, `FunctionalExtensionality.functional_extensionality_dep`: C03_in_range_once_set, C04_linear_moves, C04_linear_steps, C05_log_moves, C05_log_steps, C05_signs_rejected, C07_grid_optima, C07_grid_scores, C100_accuracy_refuted, C100_error, C100_limit, C15_unbounded_bijection, C17_chisqr_and_log_like, C17_chisqr_nonneg, C17_chisqr_zero, C17_same_optimum, C17_score, C18_limit_range_keeps_those_in_range, C18_list_for_no_peaks_raises, C18_peak_list_holds_the_best, C18_range_one_refuted, C19_reversed_lists_refuse_updates, C19_updates_keep_a_tiling, C19_zero_points_refuted, C20_nlocate_finds_the_point, C21_basic_grid_sums, C21_integral_is_the_sum_over_grids, C21_refined_grid_sums, C22_double_sum_is_the_integral_over_the_region, C22_flat_floor_refuted, C22_fraction_1d, C22_fraction_2d, C22_fraction_is_proper_1d, C22_fraction_is_proper_2d, C22_fraction_of_what_is_above_the_floor, C22_log_grid_maximum_refuted, C22_sum_is_the_integral_over_the_region, C22_uniform_raises, C24_bounds_are_at_the_edges, C24_failed_call_leaves_no_trace_refuted, C24_flat_grid_refuted, C24_level_1d, C24_level_2d, C24_level_found_1d, C24_level_found_2d, C24_level_not_found_1d, C24_level_not_found_2d, C24_log_bounds_refuted, C25_density, C26_block, C26_complete, C26_derivative, C26_derivative_at_zero, C26_error, C26_offset, C26_value, C27_history, C27_large, C27_log_increasing, C27_log_refuted, C27_log_repeated, C27_small, C28_copy_refuted, C28_not_a_copy, C28_probability, C28_rejects, C28_zero_refuted, C28_zero_returns_all, C34_all_zero_raises, C34_regions_cover_the_values, C34_single_value_refuted, C34_weights_are_areas, C35_inverse_transform, C35_sample, C35_samples, C35_samples_follow_the_density, C36_given_abscissas_raise, C36_given_abscissas_refuted, C36_pdf_interpolates, C36_pdf_is_the_density_of_samples, C36_upper_end_refuted, C37_linear_values, C37_logarithmic_values, C38_deviation, C38_deviation_after_start_refuted, C38_order, C38_squares, C38_status, C38_sum, C51_seventh_degree_on_rectangles, C51_squares, C51_third_degree_on_rectangles, C54_density_floats, C54_floats, C54_integers_refuted, C54_one_element_refuted, C55_linear_lists_never_get_coarser, C55_linear_requests_are_met, C55_log_requests_refuted, C57_vecfunc_records_no_first_peak_refuted, C58_refine_without_peaks_refuted, C59_array_object_has_no_yhi, C59_ranges_kept, C59_sigmas_in_two_dimensions_refuted, C59_yhi_refuted, C71_named_degree_refuted, C71_normal_means, C71_three_rules_miss, C71_weak_rules, C78_cubics, C78_polynomials, C78_rules_exact, C79_constants_refuted, C79_twenty_dimensions, C80_zero_integrals, C80_zero_refuted, C83_basic_grids, C83_basic_refused, C83_default_refuted, C83_refined_grids, C83_refined_refused, C95_lines, C96_errors, C97_same_errors, C97_scatter_refuted, C97_weighted, C98_errors, C99_accuracy_refuted, C99_error, C99_limit.
* `ClassicalDedekindReals.sig_forall_dec`, `ClassicalDedekindReals.sig_not_dec`, `Classical_Prop.classic`, `functional_extensionality_dep`: C84_outcome, C85_nearly, C85_polynomials, C86_accurate_refuted, C86_room.
* `ClassicalDedekindReals.sig_forall_dec`, `ClassicalDedekindReals.sig_not_dec`, `FunctionalExtensionality.functional_extensionality_dep`: C25_normalised, C25_posterior, C32_inclusion_is_proportional_to_size, C32_indices_of_64_bits_refuted, C46_amplitudes_history_free, C46_covar_of_last, C46_marg_stats_history_free, C46_obj_amplitudes_history_free, C46_obj_marg_stats_history_free, C46_obj_residuals_history_free, C46_obj_residuals_refuted, C46_residuals_history_free, C46_residuals_refuted, C46_results, C47_analysis, C47_least_squares, C47_rejects_dependent, C47_rejects_shape, C49_exact_for_quadratics, C49_symmetric_and_restored, C50_errors, C50_exact_for_quadratics, C50_mode_restored_on_runtime_error_refuted, C50_mode_restored_on_value_error_refuted, C50_one_component_changed, C50_success_meets_target, C56_peak_near_the_middle_point, C56_peak_of_a_gaussian, C66_marg_stats_refuted, C66_no_call_succeeds, C67_exact_with_fourth_degree_terms, C67_exact_with_sixth_degree_terms, C68_restored_when_the_function_raises_refuted, C68_result_always_set_refuted, C69_ends_when_values_change, C69_no_end_on_flat_functions, C69_search_ends_refuted, C70_tolerance_relative_to_dll_refuted, C89_lower_limits, C89_mixed_limits, C89_only_limits, C89_upper_limits, C90_detections, C90_detections_refuted, C90_upper_detections_refuted, C90_zero_detection_refuted, C91_km_diff_refuted, C93_index_refuted, C93_llims_refuted, C93_object, C93_ulims_refuted, C93_weights_refuted, C94_refused, C94_rho, C94_statistics, C94_uncorrelated_refuted, C95_object, C95_refused, C95_uncorrelated_refuted, C96_orthog_refuted, C97_collinear, C97_line_refuted, C97_object, C97_refused, C98_corrected, C98_exchange_refuted, C98_no_errors, C98_object, C98_orthog_sign_refuted, C98_refused.
* `ClassicalDedekindReals.sig_forall_dec`, `ClassicalDedekindReals.sig_not_dec`, `functional_extensionality_dep`: C84_refused, C86_no_room, C87_exchanged_limits, C87_inside, C88_memory, C88_units.
* `ClassicalDedekindReals.sig_forall_dec`, `FunctionalExtensionality.functional_extensionality_dep`: C100_refused, C100_romberg, C100_table, C101_factors, C101_one_column, C101_result, C101_trapezoid_refuted, C20_locate_finds_the_interval, C20_outside_raises, C23_buffer_refuted, C23_crossings, C23_crossings_unique, C23_level_on_the_grid_refuted, C23_overrun_by_any_number, C23_overrun_by_one, C25_probabilities, C29_arrays_have_positive_weight, C29_draws_have_positive_weight, C29_draws_in_proportion_to_weights, C29_tables_refuted, C30_limit_index_refuted, C30_limit_refuted, C30_sample_from_tables_is_right, C30_sample_is_right, C33_sample_depends_on_numpy_state_only, C33_sample_moves_numpy_state_on, C33_samplenr_reproducible_refuted, C33_subset_pps_refuted, C39_bracket, C39_first, C39_last_expansion_refuted, C40_bracket, C40_constant_never_ends, C40_equal_starts_never_end, C41_brent, C42_flat_direction_never_ends, C42_powell, C46_covar_needs_computation, C48_covar_inverts, C51_points_inside, C52_checks_agree, C52_every_call_raises, C52_runs_refuted, C53_error_bars_raise, C53_heights, C53_heights_refuted, C60_indices_of_64_bits_refuted, C60_weights_in_decreasing_order, C61_double, C65_covar_not_square_refuted, C65_covar_reads_outside, C72_bad_arguments, C72_objects_independent, C72_tables_kept, C73_boxes_tile, C73_error_bound, C73_exact_rules, C74_outcomes, C75_succeeds, C76_exact_found_refuted, C76_zero_integral, C77_dimensions, C77_result_or_error_refuted, C78_rule_points, C81_inside_only, C82_arrays, C82_arrays_refuted, C82_empty_refuted, C82_long_refuted, C82_long_sequences, C82_nested_sequences, C82_pairs, C82_strings, C91_bins, C91_estimate, C91_past_end_refuted, C92_crossings, C92_same_gap_refuted, C99_cubic, C99_halts, C99_never, C99_quintic, C99_result, C99_returns, C99_reversed, C99_units.

