{"id": "C01", "title": "Every parameter is in exactly the list its status says", "statement": "At any moment after an inference object is created, each of its parameters that has a status (fixed, varying or stepping) appears exactly once in the matching one of fixed_params / varying_params / stepping_params and in neither of the others, stepping_info has an entry for exactly the stepping parameters, and no sequence of fix / range / linstep / logstep / vary / next_step / assignment calls, including calls that raise, can break this.", "quantifier": "every finite sequence of parameter calls with every argument, on any number of parameters, successful or raising", "why_tests_cant": "the list surgery is a 4x4 table of transitions and the interleavings of several parameters and of failing calls are unbounded", "anchors": ["package/inference/pie/inference_base.py: Inference._on_param_status_change, reset_steps", "package/inference/pie/param.py: ScalarParamHandler._set_status", "package/inference/pie/realparam.py: RealParamHandler"]}
{"id": "C02", "title": "A rejected assignment changes nothing", "statement": "If set_value or fix rejects a value (ParamError / ParamRangeError), the parameter's value, status, range, step data and the membership lists of the inference are exactly what they were before; the same holds when next_step or prev_step refuses to move past an end, and when linstep/logstep reject their end points.  vary() is the exception: an out-of-range start raises after the status has already become varying.", "quantifier": "every state reachable by any call history and every rejected argument", "why_tests_cant": "atomicity is a statement about every failure point in every state", "anchors": ["package/inference/pie/realparam.py: set_value, fix, next_step, prev_step, linstep, logstep, vary"]}
{"id": "C03", "title": "Parameter values stay in their declared range", "statement": "Once a parameter has been given a range, its value is always inside that range.  (False: range() and vary(range=...) do not look at the current value.)  What does hold: any successful fix(v), set_value(v), vary(start=v), linstep or logstep on a parameter leaves the value within the declared range, and it stays there until the range is changed.", "quantifier": "all call histories; all ranges and values", "why_tests_cant": "a counterexample or a proof needs all histories, not single calls", "anchors": ["package/inference/pie/realparam.py: range, vary, fix, set_value"]}
{"id": "C04", "title": "Linear stepping visits the advertised equally spaced values", "statement": "After linstep(lo,hi,n) the parameter sits at lo with index 0; after any sequence of next_step / prev_step / first_step / last_step calls (those refused at an end included) the index is in 0..n-1 and the value equals lo + index*(hi-lo)/(n-1), the end values being exactly lo and hi; next_step followed by prev_step restores the state.", "quantifier": "all lo, hi, n >= 2 and all finite step sequences", "why_tests_cant": "value is accumulated incrementally in both directions, so it depends on the whole path", "anchors": ["package/inference/pie/realparam.py: linstep, next_step, prev_step, first_step, last_step"]}
{"id": "C05", "title": "Logarithmic stepping visits a geometric sequence", "statement": "After logstep(lo,hi,n) with lo, hi of the same sign, after any step sequence the value equals lo*(hi/lo)^(index/(n-1)) and the ends are exactly lo and hi; ends of different sign are rejected with no change.", "quantifier": "all same-sign lo, hi, n >= 2 and all finite step sequences", "why_tests_cant": "path dependence; real-valued inputs", "anchors": ["package/inference/pie/realparam.py: logstep, next_step, prev_step"]}
{"id": "C06", "title": "Grid stepping visits every grid point exactly once and then restarts", "statement": "Starting from the reset state of an inference with stepping parameters of sizes n1..nk (each >= 2, k >= 1), successive next_step calls visit all n1*...*nk index tuples exactly once; consecutive tuples differ by one in exactly one coordinate; the call after the last tuple raises StopStepping and leaves every parameter back at its first step with forward direction.", "quantifier": "any number of stepping parameters and any sizes", "why_tests_cant": "the traversal state space grows as the product of the grid sizes; zig-zag direction logic is stateful", "anchors": ["package/inference/pie/inference_base.py: Inference.next_step, reset_steps, step_nums", "package/inference/pie/realparam.py: next_step, prev_step"]}
{"id": "C07", "title": "do_grid stores at each grid point the score of that grid point", "statement": "do_grid called in the reset state returns a grid in which the cell at every index tuple holds the score evaluated with every stepping parameter at that index; with varying parameters the reported opt_val is the best stored value and opt_ind is a cell that holds it (the first one in visiting order).", "quantifier": "any score function, any optimizer oracle, any grid shape", "why_tests_cant": "all grid shapes and all score functions; correctness depends on the traversal order being complete", "anchors": ["package/inference/pie/inference_base.py: do_grid, optimize", "package/inference/pie/containers.py: ScalarGrid"]}
{"id": "C08", "title": "A grid started in mid-traversal is still completely filled", "statement": "do_grid returns a grid with no unfilled (NaN) cell no matter in what stepping state it is called.  (False: do_grid does not reset the steps, so cells before the current point stay NaN.)", "quantifier": "all stepping states reachable through public calls", "why_tests_cant": "needs reachability over histories", "anchors": ["package/inference/pie/inference_base.py: do_grid"]}
{"id": "C09", "title": "Predictions always see the current parameter values", "statement": "Whatever the history of parameter changes and scorings, every log_like / chisqr evaluation calls the user's on_use hook after the most recent parameter change and before using the signal, so the score equals the score computed from scratch at the current parameter values.", "quantifier": "all interleavings of parameter changes and evaluations, any user hook", "why_tests_cant": "staleness bugs only show up for particular interleavings", "anchors": ["package/inference/pie/gaussian.py: SampledGaussianHandler.get_prdxns, log_like, chisqr", "package/inference/pie/signalmodel.py: _on_use, _on_param_value_change"]}
{"id": "C10", "title": "Value and status changes are announced to every listener once", "statement": "Each completed change of a parameter's value or status calls each registered listener exactly once per change, in registration order, after the change is visible; registering the same listener twice has no further effect.", "quantifier": "all histories, any set of listeners", "why_tests_cant": "quantifies over call histories and listener sets", "anchors": ["package/inference/pie/param.py: ParamHandler.add_listener, ScalarParamHandler._set_status, _set_value"]}
{"id": "C11", "title": "A removed listener is no longer notified", "statement": "After del_listener(l), l receives no more notifications.  (False: del_listener refers to a misspelt attribute, raises AttributeError for every listener and removes nothing.)", "quantifier": "every handler state and every listener", "why_tests_cant": "the claim is universal; the proof shows it fails in every state", "anchors": ["package/inference/pie/param.py: ParamHandler.del_listener"]}
{"id": "C12", "title": "Parameter order is the order of the source text", "statement": "When the source of the signal class is available and each parameter is assigned at the start of some line, the inference's params are a permutation of the declared names ordered by first assignment line, independent of the order in which the class dictionary listed them; if a name is missing from the source the signal parameters are silently dropped.", "quantifier": "all parameter name sets (also names that are prefixes of each other), all source texts, all dictionary orders", "why_tests_cant": "text matching with removal during iteration has order-dependent corner cases", "anchors": ["package/inference/pie/inference_base.py: _get_signal_names, _get_pred_names, __init__"]}
{"id": "C13", "title": "Classes and instances do not leak parameter names into each other", "statement": "Defining a subclass with new parameters does not change the parameter list of its base class, and creating an inference never changes the parameter list of its class, so the n-th instance is created like the first.  (False on both counts: the metaclass appends to the inherited list object, and the no-source path extends the class's own list.)", "quantifier": "all class hierarchies and numbers of instances", "why_tests_cant": "aliasing depends on the order and number of definitions and instantiations", "anchors": ["package/inference/pie/param.py: Param._report_name", "package/inference/pie/autoname.py: metaAutoName.__init__", "package/inference/pie/inference_base.py: __init__, _get_signal_names"]}
{"id": "C14", "title": "get_params / set_params round trip", "statement": "For parameters that are all fixed or varying with values within range, set_params(get_params()) succeeds and leaves all values and statuses unchanged, and after arbitrary later value changes set_params(pv) restores the saved values.  set_params is not atomic: if one value is rejected the earlier ones stay assigned.", "quantifier": "all parameter sets, all statuses, all intermediate histories", "why_tests_cant": "universal round trip and failure atomicity", "anchors": ["package/inference/pie/inference_base.py: get_params, set_params", "package/inference/pie/containers.py: ParamValues"]}
{"id": "C15", "title": "The unbounded transform is an order preserving bijection onto the open range", "statement": "Setting a varying parameter through its unbounded transform with any real u gives a value strictly between lo and hi (the limits being used on overflow), reading the transform back returns u, setting the transform it reads back restores the value, and larger u gives larger value.", "quantifier": "all real u, all ranges lo < hi and all interior values", "why_tests_cant": "real-valued input; inverse and monotonicity laws", "anchors": ["package/inference/pie/realparam.py: _unbounded_get_value, _unbounded_set_value"]}
{"id": "C16", "title": "Simulation never touches the shared data", "statement": "After any sequence of sim, sim1 and localize_data calls on any number of inferences that share a predictor, the predictor's original data and the data seen by every inference that did not simulate are unchanged; an array passed by the caller as new locations is not modified.  (The last clause is false.)", "quantifier": "all interleavings over any number of instances", "why_tests_cant": "aliasing between instances is a property of histories", "anchors": ["package/inference/pie/gaussian.py: init, localize_data, changing_data, sim, sim1"]}
{"id": "C17", "title": "Scores are the documented statistics", "statement": "chisqr is the sum over data of ((value-prediction)/sigma)^2, is non-negative and zero only for exact prediction; log_like is exactly minus half of it; the score of an inference is the sum over all its predictors (plus the log prior for Bayesian inference) so that a point is chi-square optimal iff it is likelihood optimal.", "quantifier": "all data sets, all predictions, all sets of predictors", "why_tests_cant": "universal over data and number of predictors", "anchors": ["package/inference/pie/gaussian.py: log_like, chisqr", "package/inference/pie/chisqr.py", "package/inference/pie/maxlike.py", "package/inference/pie/bayes.py: score"]}
{"id": "C18", "title": "The peak list keeps exactly the best peaks in order", "statement": "After any sequence of peak reports to a labelled peak list with maximum size nmax and dynamic range r, the list is sorted by decreasing height, has at most nmax entries, contains only reported peaks, keeps nothing more than log r below the best, and omits no reported peak that is higher than a kept one.", "quantifier": "all sequences of peaks, all nmax >= 1, with and without dynamic range", "why_tests_cant": "invariant over unbounded insert sequences with truncation and pruning", "anchors": ["package/inference/grid/grid1d.py: LabeledMaxList"]}
{"id": "C19", "title": "Refinement keeps the intervals a gap-free tiling", "statement": "After any sequence of (successful or failing) interval updates on a refined 1-D interval list, the intervals stay ordered, contiguous and cover exactly [lo,hi]; the number of abscissae after merging is 1 plus the sum of (n_j - 1) and every abscissa lies in range in increasing order.", "quantifier": "all sequences of update requests", "why_tests_cant": "splitting logic has many overlap cases and is applied repeatedly", "anchors": ["package/inference/grid/grid1d.py: RefinedIntervalList1D.update, merge"]}
{"id": "C20", "title": "locate finds the interval that contains the point", "statement": "For a tiled interval list and any x in [lo,hi], locate returns an index whose interval contains x, after finitely many bisections; nlocate maps a point number to an interval and offset that number that point.", "quantifier": "all tilings of any length, all x", "why_tests_cant": "loop termination and correctness for every length", "anchors": ["package/inference/grid/grid1d.py: RefinedIntervalList1D.locate, nlocate"]}
{"id": "C21", "title": "Trapezoid integrals add up over refined intervals and in log form", "statement": "The integral of a refined grid is the sum of the trapezoid sums of its intervals, is exact for piecewise linear functions on the abscissae and the logarithmic version returns the logarithm of the trapezoid sum of the exponentials, whatever the scale of the log values.", "quantifier": "all grids and all values", "why_tests_cant": "identity over all lengths and values", "anchors": ["package/inference/grid/grid1d.py: BasicGrid1D.trapzd, logtrapzd, Grid1D.trapzd, logtrapzd"]}
{"id": "C22", "title": "Credible-region fractions are proper and decrease with the level", "statement": "The fraction of probability above a critical level computed for a 1-D (2-D) grid lies between 0 and 1, does not increase when the level is raised, is 1 at a level below all values and 0 at or above the maximum.  (False if neighbouring grid values share the minimum, where it can exceed 1, or is undefined if all values are equal; and on logarithmic grids the level is not relative to the maximum of the density compared with it.)", "quantifier": "all grids of non-negative values, all levels", "why_tests_cant": "monotonicity over real-valued levels and grids", "anchors": ["package/inference/grid/_gridquad.f: qgt1d, qgt2d", "package/inference/grid/hpd.py"]}
{"id": "C23", "title": "Level crossings returned for a grid are genuine and fit the buffer", "statement": "Every abscissa returned as a crossing of a level lies in a grid cell whose end values straddle the level and linear interpolation there gives the level; crossings are reported in increasing order; with too small a buffer the routine reports failure instead of writing outside it.  (The last clause is false.)", "quantifier": "all grids, levels and buffer sizes", "why_tests_cant": "memory safety and completeness over all inputs", "anchors": ["package/inference/grid/_gridquad.f: xvalues"]}
{"id": "C24", "title": "The critical level search returns a level of the requested probability", "statement": "When the credible level search for a probability p terminates, the region above the returned level contains probability p within the tolerance, and the returned bounds enclose exactly that region; a level is found whenever one exists, and a failed call records nothing.  (False for the bounds on logarithmic grids, for grids flatter than the first guess, and for calls with more than ten crossings, which raise after recording the level.)", "quantifier": "all pdf grids, all probabilities in (0,1)", "why_tests_cant": "fixed point of an iterative search for all inputs", "anchors": ["package/inference/grid/hpd.py: HPD1D.critlevel", "package/inference/grid/hpdgrid.py"]}
{"id": "C25", "title": "Signal count probabilities form the exact posterior distribution", "statement": "For any on/off counts and exposures, the probabilities that i of the on-source counts are signal are non-negative, sum to one, and are proportional to (1+t_off/t_on)^i (n_on+n_off-i)!/(n_on-i)!, whatever term the recursion starts from.", "quantifier": "all counts n_on, n_off and all positive exposures", "why_tests_cant": "closed form must match a two-way recursion for every size", "anchors": ["package/inference/count/_cbmlike.f: sigctp, psigc", "package/inference/count/onoff.py: OnOff.sigmp, pnsig"]}
{"id": "C26", "title": "The marginal likelihood is the full series, truncated only below the cutoff", "statement": "With cutoff 0 the marginal likelihood equals the complete sum over signal counts; with a positive cutoff the terms used are a contiguous block around the largest term, every omitted neighbour is below cutoff times the largest, and the number of terms reported is at most n_on+1.", "quantifier": "all counts, exposures, rates s >= 0 and cutoffs", "why_tests_cant": "the two-sided summation stops at data dependent places", "anchors": ["package/inference/count/_cbmlike.f: slmlike, slml_offset", "package/inference/count/onoff.py: siglml"]}
{"id": "C27", "title": "Poisson probabilities do not depend on earlier calls", "statement": "The Poisson probability routine returns e^-a a^n/n! for every call, independent of which n were requested before.  (The log version violates this: its cache is not kept and its first entry is never set.)", "quantifier": "all call histories", "why_tests_cant": "history independence of a cached computation", "anchors": ["package/inference/count/_cbmlike.f: ppois, lppois"]}
{"id": "C28", "title": "pnsig(n) is the n-th entry of pnsig()", "statement": "For every n in 0..on_cts, pnsig(n) returns the probability that n counts are signal, and other n are rejected.  (False for n = 0, which returns the whole array; negative n are rejected.)", "quantifier": "all n and all data", "why_tests_cant": "universal over n", "anchors": ["package/inference/count/onoff.py: OnOff.pnsig"]}
{"id": "C29", "title": "The table sampler reproduces the weights exactly at 30-bit resolution", "statement": "For every weight vector the number of 30-bit random integers that are mapped to item i is exactly the 30-bit integer representation of its normalised weight; no random integer leads to an index outside the tables; items of zero weight are never drawn.", "quantifier": "all weight vectors and all 2^30 random integers", "why_tests_cant": "the input space is weights x 2^30 random integers", "anchors": ["package/inference/mc/compact5table.c: init_sampler5tbl, Dran, Dran_array"]}
{"id": "C30", "title": "Sampling without replacement returns distinct population members", "statement": "Whenever the Sampford sampler returns, the sample has exactly the requested number of pairwise distinct valid indices and none of zero weight; for any stream of random numbers.  At the documented maximum sample size it can loop for ever (sample size times largest normalised weight equal to one).", "quantifier": "all weights, sample sizes and random number streams", "why_tests_cant": "rejection loop over arbitrary random streams", "anchors": ["package/inference/mc/sampford.c: sampford_pps, sampford_pps_tables", "package/inference/mc/population.py: subset_pps, max_subset"]}
{"id": "C31", "title": "Equal probability sampling is without replacement and unbiased", "statement": "equalprob(ns,pool) returns ns entries of the pool at pairwise distinct positions for any random picks, the caller's pool is unchanged, and each ordered selection of distinct positions results from exactly one sequence of picks.", "quantifier": "all pools, sample sizes and pick sequences", "why_tests_cant": "counting argument over all pick sequences", "anchors": ["package/inference/mc/_ppssampler.c: equalprob, equalprobi"]}
{"id": "C32", "title": "Sampford inclusion probabilities are proportional to size", "statement": "Under exact uniform randomness, the probability that item i is in a Sampford sample of size n equals n times its normalised weight.", "quantifier": "all populations, weights and admissible sample sizes", "why_tests_cant": "statement about the exact output distribution", "anchors": ["package/inference/mc/sampford.c: sampford_pps", "package/inference/mc/_ppssampler.c: prepratios"]}
{"id": "C33", "title": "Population sampling is reproducible from the NumPy random state", "statement": "The items drawn and the NumPy random state afterwards are functions of the state before.  This holds for sample(); subset_pps draws from the C library generator as well (and in fact passes a 5-tuple to a 3-argument function, so it raises unless the whole population is requested).", "quantifier": "all states and weights", "why_tests_cant": "determinism over hidden state", "anchors": ["package/inference/mc/population.py: sample, subset_pps", "package/inference/mc/sampford.c", "package/inference/mc/_ppssampler.c: set_rng_state"]}
{"id": "C34", "title": "The piecewise linear density covers exactly the non-negligible values", "statement": "The support regions built from an array of values are disjoint index ranges in increasing order; every value above the cutoff lies in one of them, together with both neighbouring intervals; every interval outside has both end values at or below the cutoff; interval weights are non-negative and sum to one.", "quantifier": "all value arrays and cutoffs", "why_tests_cant": "region building over arbitrary patterns of zeros", "anchors": ["package/inference/mc/pwlinear.py: PWLinear.__init__"]}
{"id": "C35", "title": "Piecewise linear samples have the advertised distribution", "statement": "For each interval and each u in [0,1] the sample lies in the interval and the linear density's cumulative probability at the sample equals u; hence samples follow the density.", "quantifier": "all intervals, end values and uniform deviates", "why_tests_cant": "inverse transform identity over the reals", "anchors": ["package/inference/mc/pwlinear.py: PWLinear.sample"]}
{"id": "C36", "title": "The density can be evaluated everywhere in its domain", "statement": "pdf(x) returns a non-negative value for every x in [lo,hi], equal to the linear interpolant.  (False at x = hi when the last value is not negligible: an IndexError is raised.)", "quantifier": "all x in the domain", "why_tests_cant": "boundary case over all arrays", "anchors": ["package/inference/mc/pwlinear.py: PWLinear._pdf"]}
{"id": "C37", "title": "Steppers yield n points from lo to hi", "statement": "lin_stepper and lin_enum_stepper yield exactly n values, the first lo, the last exactly hi and the k-th lo+k(hi-lo)/(n-1); the logarithmic ones yield lo*(hi/lo)^(k/(n-1)); enumerated versions pair them with 0..n-1.", "quantifier": "all lo, hi and n >= 2", "why_tests_cant": "all n", "anchors": ["package/inference/utils/numutils.py: lin_stepper, lin_enum_stepper, log_stepper, log_enum_stepper"]}
{"id": "C38", "title": "The log summer tracks the log of the sum", "statement": "After adding any sequence of logs, exp(logSum) equals the sum of the exponentials up to a relative error of (number of terms) * e^-40, independent of order, and never exceeds it; the count is exact, zeros included.", "quantifier": "all sequences of real numbers", "why_tests_cant": "error accumulation over unbounded sequences", "anchors": ["package/inference/utils/numutils.py: LogSummer"]}
{"id": "C39", "title": "zbracket returns a bracketing interval containing the start interval", "statement": "If zbracket returns (a,b) then the function has opposite signs at a and b and the initial interval lies between them; it makes at most maxtries expansions, otherwise it raises RuntimeError.  Completeness fails by one: a bracket reached by the last expansion is not noticed.", "quantifier": "all functions, intervals, expansion factors and maxtries", "why_tests_cant": "universal over functions", "anchors": ["package/inference/utils/numutils.py: zbracket"]}
{"id": "C40", "title": "Minimum bracketing returns a genuine bracket", "statement": "Whenever MinBracket completes for start points x1 != x2, the result satisfies x1 < xm < x2 and f(xm) <= f(x1), f(xm) <= f(x2) with one strict, the stored values are the function's values at those points and f(xm) is no larger than at either start point.", "quantifier": "all functions and start points", "why_tests_cant": "universal over functions", "anchors": ["package/inference/utils/nrmin.py: MinBracket"]}
{"id": "C41", "title": "The line minimiser stays in the bracket and returns its best point", "statement": "brent returns a point inside the bracket together with the function's value there, which is no larger than the value at any point it evaluated, in particular at the middle of the bracket; every evaluation is inside the bracket; it makes at most maxit + 1 evaluations and otherwise raises IterErr; for a function falling to m and rising after it the result is within twice the tolerance tol*|x|+1e-10 of m.", "quantifier": "all functions, brackets, tolerances", "why_tests_cant": "universal over functions; invariant of a loop with many branches", "anchors": ["package/inference/utils/nrmin.py: brent"]}
{"id": "C42", "title": "Powell minimisation never ends above its starting point", "statement": "If powell returns (p,fret,iter) then fret equals f(p), fret <= f(start), and iter <= maxit.", "quantifier": "all functions, start points, direction sets", "why_tests_cant": "universal over functions and nested loops", "anchors": ["package/inference/utils/nrmin.py: linmin, powell"]}
{"id": "C43", "title": "Backed up files are never lost", "statement": "backup and safe_open shift the previous contents to name% and the one before to name%%; whatever instant the process stops at, the latest complete contents are still available under one of the three names, and no other file changes.  So too for the stores' save methods.  (After three interrupted saves in a row they are not.)", "quantifier": "all file system states and all crash points", "why_tests_cant": "crash points", "anchors": ["package/inference/utils/ioutils.py: backup, safe_open"]}
{"id": "C44", "title": "Attribute stores round trip", "statement": "Saving an attribute store and loading the archive by the same name gives back exactly the union of the previously archived attributes and the newly set ones, new values winning, regardless of which were read before saving.  Loading by a name that already has the extension does not work: the archive is never read.", "quantifier": "all attribute maps and access histories", "why_tests_cant": "histories of reads and writes before the save", "anchors": ["package/inference/utils/ioutils.py: ArrayStore, AttrStore"]}
{"id": "C45", "title": "Saved random state can be restored", "statement": "restore_rng after save_rng brings NumPy's generator back to the saved state.  (False under Python 3: the state is pickled to a file opened in text mode, so every save raises after having moved the previous state aside and left an empty file.)", "quantifier": "all generator states and file system states", "why_tests_cant": "all prior file states", "anchors": ["package/inference/utils/rng.py: save_rng, restore_rng"]}
{"id": "C46", "title": "Bretthorst memoisation never serves stale results", "statement": "marg_stats, amplitudes and residuals called with parameters p return the results for p, whatever calls came before, including calls that failed.  (residuals violates this after a failed call.)", "quantifier": "all call histories", "why_tests_cant": "cache coherence over histories", "anchors": ["package/inference/gauss/vecba.py: BA, BAObj"]}
{"id": "C47", "title": "The linear algebra kernel solves the least squares problem", "statement": "When metricAnalysis succeeds, L is lower triangular with positive diagonal and L L^T is the metric, the amplitudes solve the normal equations, rdet is the product of the diagonal of L, and dsqr minus the sufficient statistic is the minimum of the sum of squared residuals over all amplitudes; a metric that is not positive definite is rejected.", "quantifier": "any number of models and samples, all data", "why_tests_cant": "in-place loops for every dimension", "anchors": ["package/inference/gauss/vbamodule.c: vba_metricAnalysis"]}
{"id": "C48", "title": "The covariance kernel inverts the metric", "statement": "covar(L) for a lower triangular L with non-zero diagonal is symmetric and is the inverse of L L^T.", "quantifier": "every dimension", "why_tests_cant": "in-place inversion loops for every dimension", "anchors": ["package/inference/gauss/vbamodule.c: vba_covar"]}
{"id": "C49", "title": "Observed information is exact for quadratic log likelihoods", "statement": "For any quadratic log likelihood with positive diagonal information and any non-zero steps, obsinfo returns exactly the negative Hessian with zero error estimate for every iteration count, the matrix is symmetric, and the parameter vector is restored.", "quantifier": "all dimensions, quadratics, steps, numbers of iterations", "why_tests_cant": "all dimensions and extrapolation depths", "anchors": ["package/inference/deriv/_obsinfo.f: ninfol, rid_ex", "package/inference/deriv/obsinfo.py: obsinfo"]}
{"id": "C50", "title": "Scale search reports success only when the target is met", "statement": "When dllsteps succeeds each returned step lowers the log likelihood by dll within tol and the mode vector is restored; on failure the mode vector handed in by the caller is left displaced.", "quantifier": "all functions, guesses, tolerances", "why_tests_cant": "universal over functions", "anchors": ["package/inference/deriv/_obsinfo.f: pk_scales", "package/inference/deriv/obsinfo.py: dllsteps"]}
{"id": "C51", "title": "Cubature rules are exact to their stated degree on every rectangle", "statement": "rect3d4pt (rect7d12pt) integrates every polynomial in x,y of total degree <= 3 (7) over any rectangle exactly up to the rounding of the published node constants, with an explicit bound.", "quantifier": "all rectangles and all polynomials of the degree", "why_tests_cant": "all polynomials and rectangles", "anchors": ["package/inference/integrate/cub2d.py: rect3d4pt, rect7d12pt, square1d4pt, square3d4pt, square7d12pt"]}
{"id": "C52", "title": "adapt_vec allocates the workspace it needs and runs", "statement": "For every legal dimension and key, adapt_vec passes dcuhre a workspace of at least the size it requires and returns its result.  (False under Python 3: the workspace size is a float, so allocation always raises.)", "quantifier": "all dimensions, keys and point budgets", "why_tests_cant": "all argument combinations", "anchors": ["package/inference/integrate/adapt_vec.py: adapt_vec"]}
{"id": "C53", "title": "Survival curve points describe the weighted sample", "statement": "haz_pts of a 1-D population returns step points whose height just after each value is the total normalised weight of larger values.  (False: the cumulative weights are reversed instead of complemented.)", "quantifier": "all values and weights", "why_tests_cant": "all weighted samples", "anchors": ["package/inference/mc/population.py: Population1D.__init__, haz_pts"]}
{"id": "C54", "title": "Arrays of signal rates are treated element by element", "statement": "siglml and sigmp called with a one-dimensional array return an array whose elements are what they return for the elements, or raise ValueError if they do for one of them.  (False for arrays of integers, whose results are truncated to integers, and for arrays of one element, which give a number.)", "quantifier": "all arrays, all data, any earlier calls", "why_tests_cant": "universal over arrays and call histories", "anchors": ["package/inference/count/onoff.py: OnOff.siglml, sigmp"]}
{"id": "C55", "title": "Refining an interval list never makes it coarser", "statement": "Updating the interval list of a linear grid never enlarges the spacing anywhere, and where the requested spacing is at least a fifth of the base spacing it is reached over the whole requested range; a list of logarithmic type honours requests in the same way.  (The last part is false: linear spacings are compared with logarithmic ones, so a request can be ignored.)", "quantifier": "all lists reachable by updates, all requests", "why_tests_cant": "all histories of overlapping requests", "anchors": ["package/inference/grid/grid1d.py: RefinedIntervalList1D.update, merge"]}
{"id": "C56", "title": "Three points of a Gaussian give back its parameters", "statement": "PeakParams applied to three points of a log Gaussian curve whose middle point is highest returns its log amplitude, mean and standard deviation exactly; for three equally spaced points around any local maximum the mean returned is within half a step of the middle point and the width is positive.", "quantifier": "all Gaussians, all triples of points (except those with 2(x1-x0)^2=(x2-x0)^2)", "why_tests_cant": "algebraic identity over all real arguments", "anchors": ["package/inference/grid/grid1d.py: IsPeak, PeakParams"]}
{"id": "C57", "title": "Both ways of evaluating a grid record the same peaks", "statement": "stepfunc and vecfunc of a basic grid enter the same peaks in the peak list attached to it.  (False: vecfunc enters none in an empty list, because an empty list counts as false.)", "quantifier": "all functions and grids", "why_tests_cant": "needs a list that is attached but empty", "anchors": ["package/inference/grid/grid1d.py: BasicGrid1D.stepfunc, vecfunc"]}
{"id": "C58", "title": "Refining a grid succeeds whatever the function", "statement": "After firstpass of any function, refine with or without a dynamic range returns normally.  (False with a dynamic range if the function has no peak.)", "quantifier": "all functions", "why_tests_cant": "universal over functions", "anchors": ["package/inference/grid/grid1d.py: Grid1D.refine, LabeledMaxList.limitRange"]}
{"id": "C59", "title": "Two-dimensional regions keep their ranges and use two-dimensional sigmas", "statement": "HPD2D and HPDGrid2D objects have the ranges they were made with as attributes, and critlevel(snsig=n) finds the region with the probability the class lists for n sigmas.  (Both false: HPD2D has no yhi, and the one-dimensional probability is used.)", "quantifier": "all arrays, ranges and numbers of sigmas", "why_tests_cant": "universal over constructor arguments", "anchors": ["package/inference/grid/hpd.py: HPD2D.__init__, critlevel", "package/inference/grid/hpdgrid.py: HPDGrid2D.__init__"]}
{"id": "C60", "title": "Weights are prepared in decreasing order with the indices they came from", "statement": "prepwts(weights) returns the weights in decreasing order, the indices at which they stand in the input, and their sum.  (False where numpy's index type has 64 bits: the array is read as one of 32-bit ints, so half of it is used and every other index is zero.)", "quantifier": "all weight vectors, all permutations that sort them", "why_tests_cant": "universal over weights; depends on the platform", "anchors": ["package/inference/mc/_ppssampler.c: PPSSampler prepwts"]}
{"id": "C61", "title": "The local generator is the Mersenne Twister, and integers and doubles are made from its words without bias", "statement": "From every valid state the random numbers are the tempered words of the MT19937 recurrence started at that state, in order; rk_interval gives the low bits of the first number for which they do not exceed the maximum; rk_double is 53 bits of two numbers divided by 2^53.  (set_rng_state does not check the position, so that an invalid state makes the next number come from outside the array.)", "quantifier": "all states, all numbers of draws, all maxima", "why_tests_cant": "the state has 19937 bits and the sequences are unbounded", "anchors": ["package/inference/mc/randomkit.c: rk_random, rk_interval, rk_double", "package/inference/mc/_ppssampler.c: set_rng_state"]}
{"id": "C62", "title": "safe_open passes the extra arguments to the opener", "statement": "With an opener, safe_open backs the file up and then calls the opener with the file name and all the additional arguments, positional and keyword.  (False: with keyword arguments only, the opener gets none.)", "quantifier": "all openers, arguments and file system states", "why_tests_cant": "all ways of giving arguments", "anchors": ["package/inference/utils/ioutils.py: safe_open"]}
{"id": "C63", "title": "A store lists the names of what it holds", "statement": "contents() lists the names of the archived and of the newly set attributes.  (False: the new ones are listed by their values.)", "quantifier": "all stores and access histories", "why_tests_cant": "histories of reads and writes", "anchors": ["package/inference/utils/ioutils.py: ArrayStore.contents, AttrStore.contents"]}
{"id": "C64", "title": "Columns of a text file are read into vectors", "statement": "read_column_vectors returns for each type the list of the converted words of that column, line by line; a line with too few words raises IndexError.  (False with as_arrays, the default: the name array is not imported, so every call with a type raises.)", "quantifier": "all lines and all conversion functions", "why_tests_cant": "all files", "anchors": ["package/inference/utils/ioutils.py: read_column_vectors"]}
{"id": "C65", "title": "The covariance kernel refuses arrays that are not square", "statement": "covar of an array that is not square raises.  (False: with more rows than columns elements outside the array are read, with more columns a wrong result is returned.)", "quantifier": "all shapes", "why_tests_cant": "memory errors need not show in tests", "anchors": ["package/inference/gauss/vbamodule.c: vba_covar"]}
{"id": "C66", "title": "The Bretthorst classes can compute", "statement": "marg_stats succeeds for every model with independent standardised basis functions.  (False of the sources as they are: vecba uses a bare object in place of the kernel, so no call of marg_stats, amplitudes, residuals or covar on any object ever succeeds.)", "quantifier": "all models and call histories", "why_tests_cant": "all models", "anchors": ["package/inference/gauss/vecba.py: vba, BA"]}
{"id": "C67", "title": "Extrapolated information is exact with fourth degree terms", "statement": "With at least one Richardson step obsinfo returns exactly the negative Hessian of any log likelihood whose even part about the point is quadratic plus fourth degree (odd terms are free), up to the 1e30 start value of the error; with two or more steps the error estimates are zero.  With one parameter and two steps it stays exact when sixth degree terms of at most half the size are added.", "quantifier": "all dimensions, functions of the class, steps, numbers of steps above zero", "why_tests_cant": "all functions and extrapolation depths", "anchors": ["package/inference/deriv/_obsinfo.f: ninfol, rid_ex", "package/inference/deriv/obsinfo.py: obsinfo"]}
{"id": "C68", "title": "obsinfo for raising and steep functions", "statement": "obsinfo restores the caller's parameter vector when the log likelihood raises, and returns a matrix for every finite function and non-zero steps.", "quantifier": "all functions", "why_tests_cant": "the result variable is left unset only when differences exceed 1e30", "anchors": ["package/inference/deriv/_obsinfo.f: ninfol, rid_ex", "package/inference/deriv/_obsinfo.pyf"]}
{"id": "C69", "title": "The step search ends", "statement": "dllsteps ends for every function with a strict maximum along the axes and every guess.", "quantifier": "all functions and guesses", "why_tests_cant": "a test of non-termination cannot finish", "anchors": ["package/inference/deriv/_obsinfo.f: pk_scales"]}
{"id": "C70", "title": "Tolerance of the step search is relative", "statement": "The steps returned by dllsteps change the log likelihood by dll up to the documented fraction tol of dll.", "quantifier": "all functions and tolerances", "why_tests_cant": "universal over functions", "anchors": ["package/inference/deriv/obsinfo.py: dllsteps", "package/inference/deriv/_obsinfo.f: pk_scales"]}
{"id": "C71", "title": "Normal weighted cubature has the degree in the rule name", "statement": "NormWtCub2D(locn, scale, rule)(f) is the mean of f under the product normal distribution for every polynomial f up to the degree in the rule's name, up to the rounding of the tables, whatever objects are made and called before and after.  (True of eight of the eleven rules; e2r2_13_41, e2r2_9_19a and e2r2_11_28c have at least degrees 5, 5 and 3 and fail at 10, 6 and 4.)", "quantifier": "all rules, polynomials, locations, scales and histories", "why_tests_cant": "all polynomials; wrong moments show only in particular high powers", "anchors": ["package/inference/integrate/cub2d.py: NormWtCub2D", "package/inference/integrate/_cub2d_auto.py"]}
{"id": "C72", "title": "Normal weighted cubature objects are independent", "statement": "Making and calling NormWtCub2D objects never changes the tables of the module or the values other objects give; unknown names raise KeyError and locations or scales that are not pairs ValueError.", "quantifier": "all histories of constructions and calls", "why_tests_cant": "all histories", "anchors": ["package/inference/integrate/cub2d.py: NormWtCub2D"]}
{"id": "C73", "title": "adapt covers the box, and its error is bounded by the error estimates", "statement": "The boxes adapt divides the region into cover it without overlap.  If the error estimate of each application of the basic rule bounds its error, the returned value differs from the integral by at most the returned relative error times its size; when the rules of the first three orders agree their value is returned with error zero.", "quantifier": "all integrands, boxes of 2 to 20 dimensions and basic rules", "why_tests_cant": "all sequences of subdivisions; storage is a heap in one array", "anchors": ["package/inference/integrate/adapt.py: adapt", "package/inference/integrate/adapt_py.f: ADAPT, BSRL"]}
{"id": "C74", "title": "Every outcome of adapt", "statement": "For 2 to 20 dimensions adapt returns a value, a relative error less than relacc and a number of evaluations at least the smallest allowed, from at most 50 boxes made by halving always one with the largest error along the axis with the largest fourth difference; or it raises RuntimeError or the exception of the integrand.  It never reads storage that was not set or goes outside it.", "quantifier": "all integrands, boxes and basic rules", "why_tests_cant": "all sequences of subdivisions", "anchors": ["package/inference/integrate/adapt.py: adapt", "package/inference/integrate/adapt_py.f: ADAPT, BSRL"]}
{"id": "C75", "title": "adapt does not give up early", "statement": "If all sets of k boxes that subdivision can reach have a total relative error below relacc, and the evaluations for them are allowed and enough, adapt returns a result.", "quantifier": "all integrands, boxes, rules and k up to 50", "why_tests_cant": "all sequences of subdivisions", "anchors": ["package/inference/integrate/adapt.py: adapt", "package/inference/integrate/adapt_py.f: ADAPT, BSRL"]}
{"id": "C76", "title": "adapt finds the integral when its rules are exact", "statement": "When the basic rules are exact for the integrand on every box adapt returns the integral, if need be after raising maxfac and wrkfac as the error messages say.  (False: when the integral is zero it raises RuntimeError for all maxfac and wrkfac.)", "quantifier": "all integrands, boxes, tolerances and factors", "why_tests_cant": "universal over maxfac and wrkfac", "anchors": ["package/inference/integrate/adapt.py: adapt", "package/inference/integrate/adapt_py.f: ADAPT, BSRL"]}
{"id": "C77", "title": "adapt returns a result or raises", "statement": "adapt returns a triple or raises an exception.  (False: it returns None when the dimension is less than 2 or more than 20, and only then.)", "quantifier": "all arguments", "why_tests_cant": "universal over dimensions", "anchors": ["package/inference/integrate/adapt.py: adapt", "package/inference/integrate/adapt_py.f: ADAPT, BSRL"]}
{"id": "C78", "title": "adapt is exact for cubics", "statement": "In 2 to 19 dimensions adapt returns the exact integral of every polynomial of degree 3 (and of all in which no exponent exceeds 3 and at most one in each term exceeds 1), with error estimate 0, if it is not zero; up to 9 dimensions after one application of the rules.  The rule of order o is exact if at most o - 1 exponents in each term exceed 1 and none exceeds 3, and order 4 takes 1 + 6n + 2n(n-1) + 4n(n-1)(n-2)/3 evaluations.  Doubles are real numbers.", "quantifier": "all such polynomials, boxes, tolerances and dimensions", "why_tests_cant": "all polynomials and boxes; the rules are sums over permutations, signs and partitions in a Fortran routine with jumps", "anchors": ["package/inference/integrate/adapt.py: adapt", "package/inference/integrate/adapt_py.f: ADAPT, BSRL, SYMRL, WHT, FLSM, NXPRT"]}
{"id": "C79", "title": "adapt integrates constants in all dimensions it accepts", "statement": "adapt returns the integral of a constant function in 2 to 20 dimensions.  (False: in 20 dimensions the smallest number of evaluations is more than the work space allows, and it raises RuntimeError for all such polynomials.)", "quantifier": "all polynomials as in C78, boxes and tolerances", "why_tests_cant": "a run in 20 dimensions makes a million evaluations", "anchors": ["package/inference/integrate/adapt.py: adapt", "package/inference/integrate/adapt_py.f: ADAPT, BSRL, SYMRL, WHT, FLSM, NXPRT"]}
{"id": "C80", "title": "adapt finds the integral of a linear function", "statement": "adapt returns the integral of each polynomial of degree 1 in two dimensions.  (False: it raises RuntimeError when the integral is zero and relacc is at most 1, for all maxfac and wrkfac.)", "quantifier": "all polynomials as in C78 with integral zero, in 2 to 20 dimensions", "why_tests_cant": "universal over maxfac and wrkfac", "anchors": ["package/inference/integrate/adapt.py: adapt", "package/inference/integrate/adapt_py.f: ADAPT, BSRL, SYMRL, WHT, FLSM, NXPRT"]}
{"id": "C81", "title": "adapt evaluates the integrand only inside the box", "statement": "For lower < upper, two integrands which do the same strictly between the limits give the same outcome, whatever they do elsewhere, exceptions included.", "quantifier": "all integrands, boxes and tolerances", "why_tests_cant": "all sequences of subdivisions and all integrands", "anchors": ["package/inference/integrate/adapt.py: adapt", "package/inference/integrate/adapt_py.f: ADAPT, BSRL, SYMRL, WHT, FLSM, NXPRT"]}
{"id": "C82", "title": "flatten returns the numbers of nested sequences", "statement": "flatten returns the numbers in nested tuples and lists in order.  (True for non-empty sequences within the interpreter's limit of nested calls.  Otherwise false: the end of a list longer than the limit stays a list, a zero in second place of an array of two is lost, longer arrays are appended whole after their first element, empty sequences stay, strings fall into characters.)", "quantifier": "all nested sequences, recursion limits, arrays and strings", "why_tests_cant": "recursion limit and nesting depth are unbounded; exceptions are swallowed", "anchors": ["package/inference/utils/numutils.py: flatten"]}
{"id": "C83", "title": "Moments of grids", "statement": "logtrapzd_mom returns what logtrapzd does, and the first and second moment of the trapezoid sum of exp(values) over all points, divided by the sum (if the values vary by at most 725).  The first lies in [lo, hi] and the second is at least its square.  Nothing else changes: points, trapzd and logtrapzd are the same afterwards.  nmom < 0 or nmom > 2 raises ValueError, a grid without values RuntimeError, and nmom=0 does what nmom=None does.  With the default nmom=None Grid1D.logtrapzd_mom returns the integral (false: AttributeError).", "quantifier": "all functions, grids, linear and logarithmic, and for Grid1D all histories of refine", "why_tests_cant": "all functions and refinement histories; real-valued identities", "anchors": ["package/inference/grid/grid1d.py: BasicGrid1D.logtrapzd_mom, Grid1D.logtrapzd_mom"]}
{"id": "C84", "title": "What dcuhre returns", "statement": "dcuhre (keys 0 to 4, without restarting) starts with the rule over the whole box, halves a box with the greatest error estimate of any component at least once, and goes on until at least minpts evaluations were made and each error is at most epsabs or epsrel times the value (ifail 0), or the next two boxes would take it beyond maxpts (ifail 1).  RESULT and ABSERR are the sums of values and errors over the boxes, with the sign of the limits; NEVAL is the cost of the rule times (2 boxes - 1) and at most maxpts.  The rule depends on the box only, its errors are not negative, and a box is halved along the first axis with the greatest fourth difference, else along its longest side.  Arguments that are not acceptable, such as key 1 unless there are 2 dimensions or key 2 unless there are 3, give ifail 2 to 12, result as it was, and no evaluations.", "quantifier": "all integrands, dimensions 2 to 15, limits in any order, tolerances and budgets", "why_tests_cant": "all integrands and the unbounded sequences of subdivisions they lead to; the heap of boxes", "anchors": ["package/inference/integrate/dcuhre_py.f: DCUHRE", "package/inference/integrate/dadhre.f: DADHRE", "package/inference/integrate/dtrhre.f: DTRHRE", "package/inference/integrate/drlhre.f: DRLHRE", "package/inference/integrate/dinhre.f: DINHRE", "package/inference/integrate/dchhre.f: DCHHRE"]}
{"id": "C85", "title": "dcuhre integrates polynomials exactly, or to the figures of its tables", "statement": "A component that is a polynomial of degree at most 7 (key 4) or 9 (key 3, and 0 from 4 dimensions on) on the box gets its integral as RESULT, whatever the other components are and however the box was subdivided; with degree at most 3 or 5, ABSERR is 0.  With key 1 (or 0) in 2 dimensions and degree at most 13, and with key 2 (or 0) in 3 dimensions and degree at most 11, RESULT is the integral to within 2e-16 or 5e-17 times the volume times the sum of the greatest absolute values of the terms; with degree at most 7 or 5, ABSERR is at most 5e-14 or 4e-15 times that.", "quantifier": "all polynomials of the degree, dimensions 2 to 15, boxes, limits in any order, budgets; all other components", "why_tests_cant": "identities between real numbers for all dimensions and all subdivisions", "anchors": ["package/inference/integrate/d07hre.f: D07HRE", "package/inference/integrate/d09hre.f: D09HRE", "package/inference/integrate/d132re.f: D132RE", "package/inference/integrate/d113re.f: D113RE", "package/inference/integrate/dfshre.f: DFSHRE", "package/inference/integrate/drlhre.f: DRLHRE", "package/inference/integrate/dadhre.f: DADHRE"]}
{"id": "C86", "title": "IFAIL is 0 when the accuracy is reached within maxpts", "statement": "dcuhre returns ifail 0 when the accuracy asked for is reached with maxpts or fewer evaluations.  (False: minpts = maxpts = 84 gives ifail 1 for a function that is zero.  It does so whenever no odd multiple of the cost of the rule lies between minpts and maxpts; if one does, polynomials of degree 3, 5 or 7 as the rule is give ifail 0, with an epsabs not below the figures of the tables.)", "quantifier": "all acceptable arguments; all integrands", "why_tests_cant": "all budgets and integrands", "anchors": ["package/inference/integrate/dcuhre_py.f: DCUHRE", "package/inference/integrate/dchhre.f: DCHHRE", "package/inference/integrate/dadhre.f: DADHRE"]}
{"id": "C87", "title": "dcuhre stays in the box; exchanged limits change the sign", "statement": "What dcuhre returns depends on the values of the integrand in the closed box between the limits only.  Exchanging the limits of one variable changes the sign of RESULT, and nothing else.", "quantifier": "all integrands, limits in any order, budgets", "why_tests_cant": "all integrands and subdivisions", "anchors": ["package/inference/integrate/dfshre.f: DFSHRE", "package/inference/integrate/drlhre.f: DRLHRE", "package/inference/integrate/dadhre.f: DADHRE", "package/inference/integrate/d07hre.f: D07HRE", "package/inference/integrate/d09hre.f: D09HRE", "package/inference/integrate/d132re.f: D132RE", "package/inference/integrate/d113re.f: D113RE"]}
{"id": "C88", "title": "dcuhre does not depend on units or on what memory holds", "statement": "With limits s > 0 times as large and moved, an integrand with k (not 0) times the values at the corresponding points, and epsabs times s^n |k|, dcuhre returns s^n k times RESULT, s^n |k| times ABSERR, and the same NEVAL and ifail.  What the work arrays and RESULT hold before the call does not matter.", "quantifier": "all integrands, scales, shifts, factors, acceptable arguments and contents of memory", "why_tests_cant": "a relation between pairs of unbounded executions on real numbers", "anchors": ["package/inference/integrate/dadhre.f: DADHRE", "package/inference/integrate/drlhre.f: DRLHRE", "package/inference/integrate/dfshre.f: DFSHRE", "package/inference/integrate/dtrhre.f: DTRHRE"]}
{"id": "C89", "title": "kmestm computes the product-limit estimate", "statement": "With indicators 0 (detections) and positive (lower limits), kmestm gives the points of the product-limit (Kaplan-Meier) estimate in increasing order, the probability of greater values at each with Greenwood's error, the mean and its standard error, and the limits in order; limits that no value exceeds count as detections, and NU is the number of points less the number of such limits.  With 0 and negative indicators (upper limits) it does so for the values with signs changed, turned round; with both signs IERR is -1; with positive indicators only, U(0) is read.", "quantifier": "all data with a detection, ties included, all contents of the arrays and of memory after them that has a greater value somewhere; for a single event, if the next element of the array does not equal it", "why_tests_cant": "all data sets of any size and order; real-valued sums and products over them", "anchors": ["sandbox/asurv/_asurvkm.f: KMESTM, XVAR, SORT1, PLEST1, KMADJ"]}
{"id": "C90", "title": "kmestm gives all of the detections", "statement": "The first NU of the points that kmestm returns are the different detections.  (True for lower limits if each is less than some detection.  False otherwise: with a detection 1 and two lower limits 2, NU is 0; with detections 2 and 3 and an upper limit 1, they are 1 and 2, and the limit is given as -1; a detection 0 alone is lost when the array held 0.)", "quantifier": "all data with a detection", "why_tests_cant": "all data sets, with limits at the end", "anchors": ["sandbox/asurv/_asurvkm.f: KMESTM, PLEST1, KMADJ"]}
{"id": "C91", "title": "kmdif counts the expected numbers of values in bins", "statement": "kmdif puts into each bin NTOT times the sum of the steps of the curve in it, the bin's lower edge included and the upper excluded; for an estimate from lower limits that is NTOT times the probability of the bin.  (It also sets the element after the end of DIFF to zero.  KM.diff does not give it the curve but the sums of the weights, and gets wrong numbers.)", "quantifier": "all curves, increasing points, bins of positive width", "why_tests_cant": "all curves and bins; two indices advance together", "anchors": ["sandbox/asurv/_asurvkm.f: KMDIF", "sandbox/asurv/KM.py: KM.diff"]}
{"id": "C92", "title": "quart finds the quartiles by linear interpolation", "statement": "For a decreasing curve with more than 3 points, quart returns where the line from (0, 1) through its points has the heights 3/4, 1/2 and 1/4.  (True if no two of the heights are in the same gap; false otherwise, when it can return 0.)", "quantifier": "all decreasing curves below 1 that reach 1/4", "why_tests_cant": "all curves and points", "anchors": ["sandbox/asurv/_asurvkm.f: QUART"]}
{"id": "C93", "title": "KM makes an estimate with proper weights", "statement": "KM(dtxns, ulims) and KM(dtxns, llims) make the estimate for upper or lower limits, with the probability of each detection as its weight.  (False: llims raise NameError; ulims are treated as lower limits; each weight is the probability of the next detection, and they add up to the first value of the curve and not to 1; some data raise IndexError.  What KM(dtxns, ulims) makes is stated exactly.)", "quantifier": "all detections and limits, zeros in the arrays, and a greater value somewhere in memory after them", "why_tests_cant": "all data sets", "anchors": ["sandbox/asurv/KM.py: KM.__init__"]}
{"id": "C94", "title": "bistats gives the moments of pairs of numbers", "statement": "bistats and BiStats give the means, standard deviations (with 1/n), covariance and correlation; the correlation is between -1 and 1, and 1 or -1 just for points on a line.  Different lengths and fewer than 2 points raise ValueError.  (So do uncorrelated data, though their variances are positive.)", "quantifier": "all sequences of numbers", "why_tests_cant": "all data of any size; that a correlation of 1 means a line is an equivalence over them", "anchors": ["sandbox/regress/regress.py: bistats, BiStats", "sandbox/regress/_regress.f: DATSTT"]}
{"id": "C95", "title": "The six lines of SixLin are what they are said to be", "statement": "yonx, xony, orthog and rma are the only lines with the least squares of vertical, horizontal and perpendicular distances and the least area of the triangles between points and line; bisect halves the angle between the first two; mols has their mean slope; all pass through the mean; each has the data, their number and their extremes.  Different lengths and fewer than 2 points raise ValueError.  (So do uncorrelated data, though there is a least squares line.)", "quantifier": "all sequences of numbers; all other lines", "why_tests_cant": "optimality over all lines for all data", "anchors": ["sandbox/regress/regress.py: SixLin, LinRegResult", "sandbox/regress/_regress.f: SIXLIN"]}
{"id": "C96", "title": "The errors of SixLin follow from its lines by the delta method", "statement": "The standard errors of the slopes and intercepts are those of the delta method: the influence of a point on the two least squares slopes, multiplied by the partial derivatives of the slope as a function of these two.  (False for the intercept of orthog when the correlation is negative: the derivatives have the wrong sign, so that changing the sign of y changes the error.)", "quantifier": "all correlated data", "why_tests_cant": "derivatives of real functions at all data", "anchors": ["sandbox/regress/_regress.f: SIXLIN"]}
{"id": "C97", "title": "wlss gives the weighted least squares line", "statement": "wlss finds the only line that minimises the weighted squares with the sum of an intrinsic variance and the squared error as the variance of a value, with the standard errors of weighted least squares and the square root of the intrinsic variance as the scatter; if all errors are equal it is the line yonx of SixLin; the extremes include the errors; wrong lengths and uncorrelated data raise ValueError.  (True if the variances are positive.  False for points on a line with equal errors: slope and intercept are not numbers; the scatter is not a number when the errors exceed the scatter.)", "quantifier": "all correlated data, errors that leave the variances positive; all other lines", "why_tests_cant": "optimality over all lines for all data; degenerate data", "anchors": ["sandbox/regress/regress.py: wlss", "sandbox/regress/_regress.f: WLSS"]}
{"id": "C98", "title": "BCES corrects the regressions for errors in both variables", "statement": "Without errors BCES gives the lines and errors of SixLin.  With errors the slopes are those for variances and a covariance less the means of the squared errors and of their covariances, and the lines pass through the mean; the standard errors follow from the influence of each datum, and serr_IFAB is what serr would be for perfectly correlated slopes and never less than serr.  Lengths that differ and fewer than 2 points raise ValueError.  (False for the orthogonal line: its sign is that of the uncorrected covariance, so that it may rise when both regressions fall.  The standard errors are right only if the errors of x and y are uncorrelated; otherwise that of xony differs from what it is with x and y exchanged.)", "quantifier": "all data and errors for which the corrected moments and the sum of the slopes are not zero", "why_tests_cant": "all data and errors; a relation between two programs", "anchors": ["sandbox/regress/regress.py: BCES", "sandbox/regress/_regress.f: BESS, CLASS, NCLASS"]}
{"id": "C99", "title": "romberg gives the integral of a function", "statement": "romberg returns the last entry of the first row of Romberg's table (trapezoids with 1, 2, 4, ... intervals and their extrapolations) whose last two entries differ by less than eps; for cubic polynomials that is the integral, after two rows at most, and for quintic ones unless the first row is accepted; for a function bounded by M it returns by the first row n with 6 M |b - a| < eps (4^n - 1); with the limits exchanged it changes its sign, and in other units it is the same; for continuous functions results that take many rows are near the integral; for eps that is not positive it never returns.  (False that the result has the accuracy eps: a polynomial that vanishes at the first three points has the result 0, whatever the size of its integral.)", "quantifier": "all functions, limits and accuracies", "why_tests_cant": "all functions and tables of unbounded size", "anchors": ["sandbox/integrate/romberg.py: romberg"]}
{"id": "C100", "title": "rombint gives the entries of Romberg's table", "statement": "rombint with decdigs rows gives the last entry of row decdigs - 1 of Romberg's table (rows counted from 0), which romberg gives too for one of the numbers of rows; for continuous functions it tends to the integral as decdigs grows; equal limits and decdigs = 0 are errors.  (False that the error is below 10^-decdigs, as its comment says: for every decdigs there is a function with the result 0 and the integral 1/2.)", "quantifier": "all functions, limits and numbers of rows", "why_tests_cant": "all functions and tables of unbounded size", "anchors": ["sandbox/integrate/rombint.m: rombint"]}
{"id": "C101", "title": "Rombergs_Integration_Method gives the entries of Romberg's table", "statement": "For h > 0 and at least two columns (27 at most) the result is the last entry of the first row of Romberg's table at which the column before the last has changed by less than the tolerance, with err = 0, and if there is none the last entry of the last row, with err = -1; the factors are those of its table, which are 1 / (4^m - 1) up to 3 parts in 10^19.  (False for max_cols <= 1: the result is the mean of the values at the limits, not multiplied by h.)", "quantifier": "all functions, limits, tolerances and numbers of columns", "why_tests_cant": "all functions and tolerances", "anchors": ["sandbox/integrate/rombergs_method.c: Rombergs_Integration_Method"]}
