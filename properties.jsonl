{"id": "C01", "title": "EMD components add up to the signal", "statement": "After any successful EMD.emd(S), the imfs and the residue given by get_imfs_and_residue() add up, sample by sample, to exactly S (in exact arithmetic).", "quantifier": "every signal, time array, max_imf, configuration, spline method (an arbitrary function) and history of earlier calls", "why_tests_cant": "the number of sifts and components is unbounded and the spline is an arbitrary function; tests sample a few signals and compare up to a tolerance", "anchors": ["PyEMD/EMD.py: EMD.emd", "PyEMD/EMD.py: EMD.get_imfs_and_residue"]}
{"id": "C02", "title": "The returned array is the imfs plus, unless negligible, the residue", "statement": "EMD.emd(S) returns the stored imfs followed by the residue row exactly when some residue sample exceeds 1e-8 in absolute value; hence the returned rows add up to S with an error of at most 1e-8 per sample, and exactly when the residue row is present.", "quantifier": "every signal, time array, max_imf, configuration and spline method", "why_tests_cant": "the omission of the residue depends on values that tests cannot enumerate", "anchors": ["PyEMD/EMD.py: EMD.emd"]}
{"id": "C03", "title": "Every component has the length of the signal", "statement": "Every row returned by EMD.emd, every stored imf and the stored residue has exactly len(S) samples.", "quantifier": "every input, configuration, arithmetic (also IEEE floats) and spline method", "why_tests_cant": "shape depends on run-time loop counts and on the spline output", "anchors": ["PyEMD/EMD.py: EMD.emd", "PyEMD/EMD.py: EMD.spline_points"]}
{"id": "C04", "title": "max_imf bounds the number of components", "statement": "With max_imf = k >= 1, EMD.emd yields at most k imfs and returns at most k+1 rows; max_imf = 0 and every negative max_imf mean 'no limit' and are indistinguishable.", "quantifier": "every k, signal, configuration, arithmetic and spline method", "why_tests_cant": "unbounded k and unbounded number of loop iterations", "anchors": ["PyEMD/EMD.py: EMD.emd"]}
{"id": "C05", "title": "EMD with a component limit always terminates", "statement": "With max_imf = k >= 1 EMD.emd makes at most k passes of the outer loop and at most MAX_ITERATION - 1 sifts per pass, so it returns or raises; nothing in the code bounds the number of passes without a limit.", "quantifier": "every signal, configuration, arithmetic and spline method", "why_tests_cant": "termination is a property of all executions", "anchors": ["PyEMD/EMD.py: EMD.emd"]}
{"id": "C06", "title": "FIXE fixes the number of sifts", "statement": "With FIXE = k > 0 and k < MAX_ITERATION every extracted imf is the result of exactly k sifting steps applied to what the earlier imfs left over; when the proto-imf runs out of extrema earlier the decomposition stops.", "quantifier": "every k, signal, spline method, arithmetic", "why_tests_cant": "the claim is about each imf of each decomposition", "anchors": ["PyEMD/EMD.py: EMD.emd", "doc/usage.rst"]}
{"id": "C07", "title": "FIXE_H counts consecutive proto-imf steps", "statement": "With FIXE = 0 and FIXE_H = h > 0 a sifting that ends by its own stop condition ended with h consecutive sifts after each of which the numbers of extrema and zero crossings differed by at most one, the first sift never counting; so at least h+1 sifts were made.", "quantifier": "every h, signal, spline method, arithmetic", "why_tests_cant": "the stop condition depends on the history of the sifting loop", "anchors": ["PyEMD/EMD.py: EMD.emd", "doc/usage.rst"]}
{"id": "C08", "title": "The default stop condition is met when sifting stops", "statement": "With FIXE = FIXE_H = 0, a sifting that ends neither by MAX_ITERATION nor by lack of extrema returns a proto-imf whose extrema and zero crossings differ by at most one and that passes the convergence test relative to the previous step.", "quantifier": "every signal, thresholds, spline method, arithmetic", "why_tests_cant": "loop invariant over unbounded iterations", "anchors": ["PyEMD/EMD.py: EMD.emd", "PyEMD/EMD.py: EMD.check_imf"]}
{"id": "C09", "title": "A signal with at most two extrema is its own trend", "statement": "If S has at most two extrema, EMD.emd extracts no imf: it returns the single row S, or an array without rows when every |S[i]| <= 1e-8; the stored residue equals S.", "quantifier": "every signal with at most two extrema, every configuration with MAX_ITERATION >= 2", "why_tests_cant": "infinitely many signals and configurations", "anchors": ["PyEMD/EMD.py: EMD.emd"]}
{"id": "C10", "title": "Time values are ignored in 'simple' mode", "statement": "With extrema_detection='simple', two calls of EMD.emd with the same S and any two time arrays of length len(S) (or none) behave identically.", "quantifier": "every signal and every pair of time arrays", "why_tests_cant": "pairs of executions (a 2-safety property)", "anchors": ["PyEMD/EMD.py: EMD.emd"]}
{"id": "C11", "title": "Time is normalised to start at 0 with unit smallest step", "statement": "For strictly increasing time arrays the normalised time starts at 0, is strictly increasing, has all steps >= 1 and some step equal to 1, and is unchanged when time is shifted and rescaled by a positive factor; repeated time values are rejected with AssertionError. For decreasing time arrays the documented normalisation fails.", "quantifier": "every time array with at least two samples, every affine change of time", "why_tests_cant": "real-valued parameters", "anchors": ["PyEMD/EMD.py: EMD._normalize_time"]}
{"id": "C12", "title": "EMD results do not depend on the time unit or origin", "statement": "With extrema_detection='parabol', EMD.emd(S, a*T+b) behaves exactly like EMD.emd(S, T) for a > 0.", "quantifier": "every signal, increasing or not, every T without repeated values, every a > 0 and b", "why_tests_cant": "2-safety over real parameters", "anchors": ["PyEMD/EMD.py: EMD.emd", "PyEMD/EMD.py: EMD._normalize_time"]}
{"id": "C13", "title": "EMD objects carry no hidden state from call to call", "statement": "The result of EMD.emd depends only on the object's configuration and the arguments, not on earlier calls; get_imfs_and_residue and get_imfs_and_trend report the last successful call, a failed call leaves them as they were, and before any successful call they raise ValueError.", "quantifier": "every finite history of emd / accessor calls, successful or failing", "why_tests_cant": "histories are unbounded", "anchors": ["PyEMD/EMD.py: EMD.emd", "PyEMD/EMD.py: EMD.get_imfs_and_residue", "PyEMD/EMD.py: EMD.get_imfs_and_trend"]}
{"id": "C14", "title": "imfs and trend add up to the signal", "statement": "When get_imfs_and_trend() returns, imfs and trend add up to S within 1e-8 per sample (exactly if the residue is not negligible). It can fail with IndexError although the decomposition succeeded: on a signal with no imfs and negligible residue.", "quantifier": "every state reachable by successful decompositions", "why_tests_cant": "depends on unbounded decomposition results", "anchors": ["PyEMD/EMD.py: EMD.get_imfs_and_trend"]}
{"id": "C15", "title": "Simple extrema detection finds exactly the strict local extrema", "statement": "On signals without two equal neighbouring samples, 'simple' detection reports index i as maximum (minimum) iff it is an interior sample strictly above (below) both neighbours; positions are increasing and values are the samples.", "quantifier": "every signal without flat steps, exact arithmetic", "why_tests_cant": "unbounded signal lengths and real values", "anchors": ["PyEMD/EMD.py: EMD._find_extrema_simple"]}
{"id": "C16", "title": "Plateau extrema are reported once, at the plateau midpoint", "statement": "With flat stretches, an interior plateau that is approached by a rise and left by a fall is reported as one maximum at its rounded midpoint (dually minima), and nothing else is reported. The code violates this for a plateau starting at sample 1 (never reported) and at sample 0 (the step before it is read from the end of the signal, so a spurious extremum can be reported).", "quantifier": "every signal, exact arithmetic", "why_tests_cant": "all arrangements of plateaus", "anchors": ["PyEMD/EMD.py: EMD._find_extrema_simple"]}
{"id": "C17", "title": "Maxima and minima alternate", "statement": "Between two successive maxima reported by 'simple' detection there is a reported minimum and vice versa; so the counts differ by at most one, and with more than two extrema there is at least one of each kind.", "quantifier": "every signal, exact arithmetic", "why_tests_cant": "all signals", "anchors": ["PyEMD/EMD.py: EMD._find_extrema_simple"]}
{"id": "C18", "title": "Zero crossings are counted once each", "statement": "The reported zero crossings are sorted; they are exactly the indices i where S[i] and S[i+1] have strictly opposite signs plus one index for each maximal run of zero samples.", "quantifier": "every signal, exact arithmetic", "why_tests_cant": "all signals", "anchors": ["PyEMD/EMD.py: EMD._find_extrema_simple", "PyEMD/EMD.py: EMD._find_extrema_parabol"]}
{"id": "C19", "title": "Extrema detection is exact in double precision", "statement": "For finite binary64 signals whose neighbouring samples are equal or differ by at least 2^-537 simple detection reports exactly the extrema of the numbers the samples stand for, and exactly their zero crossings when no non-zero sample is smaller than 2^-537 (no condition about overflow). Without these conditions it fails: the product of neighbouring differences underflows, so extrema of small signals are missed, and mixed magnitudes yield minima without maxima, which makes EMD.emd raise IndexError.", "quantifier": "every finite binary64 signal", "why_tests_cant": "requires reasoning about all doubles; failing inputs are rare", "anchors": ["PyEMD/EMD.py: EMD._find_extrema_simple", "PyEMD/EMD.py: EMD.prepare_points_simple"]}
{"id": "C20", "title": "Mirroring always covers the time range", "statement": "In 'simple' mode with nbsym >= 1, whenever there are more than two extrema, the extended maxima and minima have strictly increasing positions, at least three points each, contain all original extrema and span the whole time range; in particular neither 'Left edge BUG' nor 'Right edge BUG' is ever raised. With nbsym = 0 coverage can fail.", "quantifier": "every signal with more than two extrema, every nbsym >= 1, exact arithmetic", "why_tests_cant": "many boundary cases; exceptions documented as bugs must be unreachable for all inputs", "anchors": ["PyEMD/EMD.py: EMD.prepare_points_simple"]}
{"id": "C21", "title": "Mirrored points are reflections of the signal", "statement": "Every point prepare_points adds in 'simple' mode is the reflection, about one symmetry instant per side, of a sample of the signal with unchanged value. Which samples and which instant is fixed: the nbsym extrema of each kind nearest to the end, about the outermost extremum when the end sample lies inside the range and the reflections reach the end, otherwise about the end sample (which then may serve as an extremum itself); the right end behaves as the left end of the reversed signal; and the extended lists hold these points and the extrema, nothing else.", "quantifier": "every signal with a maximum and a minimum, every nbsym >= 1, exact arithmetic", "why_tests_cant": "all cases of the boundary logic", "anchors": ["PyEMD/EMD.py: EMD.prepare_points_simple"]}
{"id": "C22", "title": "EMD in 'simple' mode never raises on real signals", "statement": "With extrema_detection='simple', nbsym >= 1, a known spline kind and splines that succeed on strictly increasing knots, EMD.emd(S) on any S with at least two samples raises no exception (exact arithmetic).", "quantifier": "every signal of at least two samples, every max_imf, thresholds and stopping mode", "why_tests_cant": "absence of exceptions for all inputs", "anchors": ["PyEMD/EMD.py: EMD.emd", "PyEMD/EMD.py: EMD.extract_max_min_spline"]}
{"id": "C23", "title": "Parabolic extrema are vertices of the interpolating parabola", "statement": "Each extremum reported in 'parabol' mode is the vertex of the parabola through three consecutive samples (after removal of repeated values), lies in the half-open window around the middle one, and is a maximum iff the parabola opens downwards; every such vertex is reported. Exception: three samples on a straight line are treated as if the quadratic coefficient were 1e-14, so a line of slope -2e-14 has a minimum; apart from such triples the minima are exactly the vertices of upward parabolas.", "quantifier": "every signal and increasing time array, exact arithmetic", "why_tests_cant": "real-valued parameters", "anchors": ["PyEMD/EMD.py: EMD._find_extrema_parabol"]}
{"id": "C24", "title": "EMD in 'parabol' mode never raises on real signals", "statement": "EMD.emd in 'parabol' mode raises no exception on finite signals with increasing time. Refuted: a staircase signal has three minima and no maximum, so mirroring raises IndexError. What holds: on a signal without terraces and without three samples in a straight line maxima and minima alternate, the mirrored points cover the time range and sifting succeeds; so an exception is only raised when some signal that occurs during sifting has a terrace or a straight triple.", "quantifier": "every signal and increasing time array", "why_tests_cant": "rare inputs", "anchors": ["PyEMD/EMD.py: EMD._find_extrema_parabol", "PyEMD/EMD.py: EMD.prepare_points_parabol"]}
{"id": "C25", "title": "Three-point cubic spline is the natural interpolating spline", "statement": "For knots x0<x1<x2 the three-point spline takes the given values at the knots, is once continuously differentiable at x1 with matching second derivative, has zero second derivative at x0 and x2, and is returned for exactly the requested instants in [x0,x2].", "quantifier": "every knots, values and evaluation instants, exact arithmetic", "why_tests_cant": "real-valued parameters", "anchors": ["PyEMD/splines.py: cubic_spline_3pts"]}
{"id": "C26", "title": "get_timeline counts 0..n-1", "statement": "get_timeline(n, dtype) returns 0,1,...,n-1 exactly for every integer dtype, in a dtype at least as wide as requested. For floating dtypes it does so up to n = 2^p + 1 samples, p being the precision (11, 24, 53). Beyond, for float16 (2050 <= n < 65504) and float32 (n >= 2^24+2), values repeat, so EMD.emd without T raises AssertionError.", "quantifier": "every n >= 1 and dtype", "why_tests_cant": "failing lengths are far beyond unit tests for float32", "anchors": ["PyEMD/utils.py: get_timeline", "PyEMD/utils.py: smallest_inclusive_dtype"]}
{"id": "C27", "title": "Type unification is symmetric and lossless except for wide integers", "statement": "unify_types gives both arrays one common dtype independent of argument order, able to represent all values of both inputs, except that 64-bit integers combined with floats (or int64 with uint64) lose precision above 2^53. No smaller dtype would do, and the common one is floating only if no integer dtype would do.", "quantifier": "every pair of dtypes and values", "why_tests_cant": "all pairs and values", "anchors": ["PyEMD/utils.py: unify_types", "PyEMD/utils.py: deduce_common_type"]}
{"id": "C28", "title": "EEMD component k is the mean over the trials that have one", "statement": "EEMD.eemd returns, for each k, the mean of the k-th imfs over exactly the trials that produced more than k imfs; ensemble_count gives those numbers and is non-increasing.", "quantifier": "every number of trials and every collection of trial results", "why_tests_cant": "all ragged ensembles", "anchors": ["PyEMD/EEMD.py: EEMD.eemd", "PyEMD/EEMD.py: EEMD.ensemble_count"]}
{"id": "C29", "title": "EEMD components and residue add up to the signal", "statement": "After EEMD.eemd(S), E_IMF plus residue equals S exactly (exact arithmetic), whatever the noise, trials, splitting and schedule.", "quantifier": "every signal, noise, trial count", "why_tests_cant": "unbounded", "anchors": ["PyEMD/EEMD.py: EEMD.eemd"]}
{"id": "C30", "title": "Noise-free EEMD is EMD", "statement": "With noise_width = 0 (zero noise) and at least one trial, EEMD.eemd(S) returns the same rows as EMD.emd(S), serial or parallel.", "quantifier": "every signal, trial count and schedule; exact arithmetic for the mean", "why_tests_cant": "unbounded", "anchors": ["PyEMD/EEMD.py: EEMD.eemd", "PyEMD/EEMD.py: EEMD._trial_update"]}
{"id": "C31", "title": "Seeding makes serial EEMD reproducible", "statement": "Two serial EEMD runs started after noise_seed(s) with the same arguments give identical results, whatever happened before.", "quantifier": "every seed, history and argument", "why_tests_cant": "histories", "anchors": ["PyEMD/EEMD.py: EEMD.noise_seed", "PyEMD/EEMD.py: EEMD.eemd"]}
{"id": "C32", "title": "EEMD trials use independent noise", "statement": "Different trials use different draws of the generator. True serially. Refuted in parallel mode (the default): every pool chunk restarts from a copy of the same generator, so trial i and trial i+chunksize get identical noise and with trials <= 4*processes all trials are identical: the ensemble mean is a single noisy run. The parent's generator does not advance, so repeated calls repeat the noise.", "quantifier": "every generator, trial count, process count", "why_tests_cant": "needs a statement about all schedules and generators; a unit test sees only one averaged output", "anchors": ["PyEMD/EEMD.py: EEMD.eemd", "PyEMD/EEMD.py: EEMD._trial_update"]}
{"id": "C33", "title": "separate_trends keeps the trend last", "statement": "With separate_trends=True the last component of EEMD's result is the mean of the trends of all trials, each trial contributing exactly one, and the other components average only imfs that are not trends; ensemble_count ends with the number of trials.", "quantifier": "every collection of trial results", "why_tests_cant": "ragged ensembles; relies on the order of dictionary operations", "anchors": ["PyEMD/EEMD.py: EEMD.eemd"]}
{"id": "C34", "title": "CEEMDAN components add up to the signal", "statement": "The rows returned by CEEMDAN.ceemdan(S) add up to exactly S, and the residue reported by get_imfs_and_residue is exactly zero (exact arithmetic).", "quantifier": "every signal, noise, schedule, configuration and inner EMD", "why_tests_cant": "unbounded", "anchors": ["PyEMD/CEEMDAN.py: CEEMDAN.ceemdan"]}
{"id": "C35", "title": "CEEMDAN respects max_imf", "statement": "ceemdan(S, max_imf=k) with k >= 1 returns at most k+1 rows.", "quantifier": "every k, signal, noise", "why_tests_cant": "unbounded loop", "anchors": ["PyEMD/CEEMDAN.py: CEEMDAN.ceemdan", "PyEMD/CEEMDAN.py: CEEMDAN.end_condition"]}
{"id": "C36", "title": "CEEMDAN does not depend on worker scheduling", "statement": "The mean computed from worker results is the same for every completion order. True in exact arithmetic; refuted in binary64, where the order of accumulation changes the result.", "quantifier": "every permutation of worker results", "why_tests_cant": "all schedules", "anchors": ["PyEMD/CEEMDAN.py: CEEMDAN._eemd"]}
{"id": "C37", "title": "CEEMDAN accepts every noise scale", "statement": "ceemdan works for any noise_scale >= 0. Refuted: zero noise makes the inner decomposition empty and raises IndexError.", "quantifier": "every noise scale and signal", "why_tests_cant": "boundary case", "anchors": ["PyEMD/CEEMDAN.py: CEEMDAN.ceemdan", "PyEMD/CEEMDAN.py: CEEMDAN._decompose_noise"]}
{"id": "C38", "title": "TDMAsolver solves the tridiagonal system", "statement": "Whenever elimination meets no zero pivot, the vector returned by TDMAsolver satisfies every equation of the tridiagonal system; it is the only solution.", "quantifier": "every size, coefficients and right-hand side, exact arithmetic", "why_tests_cant": "all sizes", "anchors": ["PyEMD/compact.py: TDMAsolver"]}
{"id": "C39", "title": "filt6 preserves cubic polynomials and is well-posed", "statement": "For |alpha| < 1/2 and n >= 5 samples filt6 returns exactly the solution of the sixth-order compact filter equations: it leaves samples of polynomials of degree at most 3 unchanged and removes the sample-to-sample oscillation +c, -c, +c, ... added to them. Fewer samples raise IndexError. The documented claim that alpha=0.5 switches the filter off is refuted near the boundaries.", "quantifier": "every n, alpha, polynomial, exact arithmetic", "why_tests_cant": "all sizes and reals", "anchors": ["PyEMD/compact.py: filt6"]}
{"id": "C40", "title": "pade6 differentiates polynomials exactly", "statement": "For n >= 7 samples with step h != 0 pade6 returns exactly the solution of the sixth-order compact derivative equations, which is the exact derivative of polynomials of degree at most 6 (not 7); for n = 6 the elimination meets a zero pivot and fewer samples raise IndexError.", "quantifier": "every n, h, polynomial, exact arithmetic", "why_tests_cant": "all sizes", "anchors": ["PyEMD/compact.py: pade6"]}
{"id": "C41", "title": "EMD2D tiling mirrors the image", "statement": "prepare_image extends an image of shape (n,m) to shape (3n,3m) whose pixel (i,j) is the input pixel at the reflected coordinates, so the centre block is the image itself.", "quantifier": "every image size and content", "why_tests_cant": "all sizes", "anchors": ["PyEMD/EMD2d.py: EMD2D.prepare_image"]}
{"id": "C42", "title": "EMD2D and BEMD components add up to the image", "statement": "The components returned by EMD2D.emd and BEMD.bemd add up to the input image within 1e-8 (times the range of grey levels for EMD2D), and exactly when a residue row is appended, whatever the interpolator does (exact arithmetic; square images for BEMD).", "quantifier": "every image, configuration and interpolator that returns arrays of the right shape", "why_tests_cant": "unbounded", "anchors": ["PyEMD/EMD2d.py: EMD2D.emd", "PyEMD/BEMD.py: BEMD.bemd"]}
{"id": "C43", "title": "FIXE in 2D means the stated number of sifts", "statement": "With FIXE=k EMD2D and BEMD perform exactly k sifts per component. Refuted: they perform k+1 unless the iteration limit is lower or too few extrema are left, and EMD2D subtracts the mean of the previous sift once more in every sift.", "quantifier": "every k and image", "why_tests_cant": "unbounded k", "anchors": ["PyEMD/EMD2d.py: EMD2D.emd", "PyEMD/BEMD.py: BEMD.bemd"]}
{"id": "C44", "title": "EMD_matlab limits and reconstruction", "statement": "EMD_matlab.EMD.emd returns imfNo rows of the length of the signal that add up to it (up to a rest of total size at most 1e-10). For maxImf = k >= 2 it always ends and returns at most k rows. With FIXE = k every row but the final rest is what remains of the signal sifted exactly k times, unless at most two extrema are left; in default mode it is sifted until the documented stop rule, few extrema or an iteration limit. Refuted for maxImf = 1: the limit is ignored.", "quantifier": "every signal, limit, spline", "why_tests_cant": "unbounded", "anchors": ["PyEMD/EMD_matlab.py: EMD.emd"]}
{"id": "C45", "title": "EMD_matlab and EMD find the same extrema", "statement": "findExtrema of EMD_matlab and EMD's simple detection report the same extrema, and on the default time axis the two give the same mirrored points and the same envelopes. True unless both the first two and the last two samples are equal; otherwise refuted: EMD_matlab may report one more minimum, the plateau at the start.", "quantifier": "every signal", "why_tests_cant": "all plateau arrangements", "anchors": ["PyEMD/EMD_matlab.py: EMD.findExtrema", "PyEMD/EMD.py: EMD._find_extrema_simple"]}
{"id": "C46", "title": "JitEMD computes what EMD computes", "statement": "For the same configuration JitEMD finds the same extrema, prepares the same mirrored points, fits the same three-point spline and returns the same array, or raises the same exception, as EMD: with simple detection when JitEMD is given the times 0..n-1 (EMD may be given any times), with parabolic detection for the same times starting at 0 with smallest step 1. For any times its rows add up to the signal up to 1e-8. When the last returned row is not negligible get_imfs_and_trend agrees too. The agreement fails for other times, for the kinds pchip and cubic_hermite, for negligible signals, and for accessors called before the first run.", "quantifier": "every signal of at least two samples, every configuration with nbsym >= 1, every interpolation routine, every limit, whether or not scalar division by zero raises", "why_tests_cant": "equivalence of two programs", "anchors": ["PyEMD/experimental/jitemd.py"]}
{"id": "C47", "title": "whitenoise_check reports every imf once", "statement": "For admissible arguments and imfs that are not identically zero whitenoise_check returns a dictionary with exactly the keys 1..n, in order, and the value 1 for exactly those imfs whose energy lies outside the white-noise confidence band (a priori), or above the band scaled on the reference imf (a posteriori). Raising the confidence level never makes an imf significant. Empty input and input with a NaN yield None; AssertionError is raised exactly for inadmissible alpha, test name or rescaling imf. That every non-empty array gets verdicts is refuted: an all-zero imf raises ValueError, and a long signal without peaks raises OverflowError.", "quantifier": "every array, test name, rescaling imf and alpha, every quantile function and peak count; real arithmetic with overflow of exp at 2^1024", "why_tests_cant": "all inputs; the overflow needs millions of samples", "anchors": ["PyEMD/checks.py: whitenoise_check"]}
{"id": "C48", "title": "A posteriori test calibrates on the rescaling imf", "statement": "In the a posteriori test the imf used for rescaling is white noise by construction, so it should be reported as not significant. Refuted in general: it is reported as significant exactly when its mean period (samples per peak) exceeds four, because the spread used for scaling is exp(T)/2 instead of exp(T/2). It is not significant whenever it has a peak at least every four samples.", "quantifier": "every input whose imfs are not identically zero, every confidence level and reference imf", "why_tests_cant": "an equivalence over real-valued parameters", "anchors": ["PyEMD/checks.py: whitenoise_check", "PyEMD/checks.py: significance_aposteriori"]}
{"id": "C49", "title": "EMD reconstructs binary64 signals up to rounding", "statement": "In binary64, at every sample where the stored residue is finite, the sum of the stored imfs (in the library's order) and the residue differ from the signal by at most 2^-53 of the exact difference of signal and sum; against the exact sum of the k imfs the bound grows by ((1+2^-53)^(k-1)-1) times the sum of their sizes. Reconstruction is not exact in general.", "quantifier": "every finite binary64 run without overflow", "why_tests_cant": "all doubles", "anchors": ["PyEMD/EMD.py: EMD.emd"]}
{"id": "C50", "title": "EMD does not modify or alias its inputs", "statement": "EMD.emd leaves the caller's arrays S and T unchanged and returns a fresh array: writing to it changes neither the stored imfs and residue nor the inputs. The accessors, in contrast, hand out the stored arrays themselves.", "quantifier": "every call and every later sequence of writes by the caller", "why_tests_cant": "aliasing concerns all later histories", "anchors": ["PyEMD/EMD.py: EMD.emd", "PyEMD/EMD.py: EMD.get_imfs_and_residue"]}
{"id": "C51", "title": "plot_imfs draws what it is given, or else what the object holds", "statement": "Visualisation.plot_imfs draws one panel per imf, each with that imf against the times (given, or 0..n-1) and labelled with its number, plus a last panel with the residue if it is to be included. Given imfs and a given residue take precedence, independently, over those of the decomposition object. AttributeError is raised exactly when something to be drawn is neither given nor stored; an object that has not run cannot be wrapped. Refuted: a figure of a single panel always fails with TypeError, and a true value other than True draws the residue over the last imf.", "quantifier": "every combination of arguments, every array and object", "why_tests_cant": "combinatorial decision table over arrays of every size", "anchors": ["PyEMD/visualisation.py: Visualisation.plot_imfs", "PyEMD/visualisation.py: Visualisation._check_imfs", "PyEMD/visualisation.py: Visualisation.__init__"]}
{"id": "C52", "title": "EMD stops only for a documented reason", "statement": "When EMD.emd returns, the last pass either met the end condition (range of what is left below range_thr, or its summed absolute value below total_power_thr), or reached max_imf, or ended with at most two extrema; in the last case the row of that pass belongs to the residue, otherwise it is the last imf.", "quantifier": "every signal, configuration and run", "why_tests_cant": "all executions of the outer loop", "anchors": ["PyEMD/EMD.py: EMD.emd", "PyEMD/EMD.py: EMD.end_condition"]}
{"id": "C53", "title": "A sift subtracts the mean of the envelopes", "statement": "One sifting step turns a proto-imf x into x minus, sample by sample, half the sum of the spline through the extended maxima and the spline through the extended minima; it only happens with at least three extrema.", "quantifier": "every proto-imf and spline", "why_tests_cant": "all inputs", "anchors": ["PyEMD/EMD.py: EMD.emd", "PyEMD/EMD.py: EMD.extract_max_min_spline"]}
{"id": "C54", "title": "Signals that do not oscillate are returned whole", "statement": "For a monotone signal (simple mode) or a constant one (either mode), or any signal with at most two extrema, EMD.emd extracts no imf; the residue is the signal and it is the only row returned (no row at all when every sample is within 1e-8 of zero).", "quantifier": "every such signal of at least two samples, any spline, times and max_imf", "why_tests_cant": "infinitely many signals", "anchors": ["PyEMD/EMD.py: EMD.emd", "PyEMD/EMD.py: EMD.find_extrema"]}
{"id": "C55", "title": "Seeding makes CEEMDAN reproducible", "statement": "After noise_seed(s), ceemdan returns the same components and residue whatever the object did before.", "quantifier": "every seed, signal, configuration and history of the object", "why_tests_cant": "all histories", "anchors": ["PyEMD/CEEMDAN.py: CEEMDAN.noise_seed", "PyEMD/CEEMDAN.py: CEEMDAN.ceemdan"]}
{"id": "C56", "title": "CEEMDAN commutes with a change of unit", "statement": "Multiplying the signal by a > 0 multiplies every component returned by ceemdan by a (same generator state); failures are the same too.", "quantifier": "every signal, positive factor and configuration", "why_tests_cant": "all inputs; exact arithmetic", "anchors": ["PyEMD/CEEMDAN.py: CEEMDAN.ceemdan"]}
{"id": "C57", "title": "CEEMDAN computes the documented recurrence", "statement": "One batch of noise is drawn and decomposed. The first component is the mean over the trials of the first row of EMD(signal + epsilon * first noise mode). Component k+1 is the remainder minus the mean over the trials of the last row of EMD(remainder + epsilon * std(remainder) * noise mode k+1); that mean is the next remainder. All in units of the signal's standard deviation.", "quantifier": "every signal, generator, inner decomposition, schedule and configuration", "why_tests_cant": "all inputs and schedules", "anchors": ["PyEMD/CEEMDAN.py: CEEMDAN.ceemdan", "PyEMD/CEEMDAN.py: CEEMDAN._eemd", "PyEMD/CEEMDAN.py: CEEMDAN._decompose_noise"]}
{"id": "C58", "title": "2D extrema are the interior local extrema", "statement": "EMD2D.find_extrema lists, in reading order and once each, exactly the interior pixels that no pixel of the 3x3 neighbourhood exceeds (maxima) or undercuts (minima); plateaus count.", "quantifier": "every rectangular image", "why_tests_cant": "all image sizes and contents", "anchors": ["PyEMD/EMD2d.py: EMD2D.find_extrema"]}
{"id": "C59", "title": "BEMD interpolates the values of its extrema", "statement": "The BEMD envelopes are the radial basis surfaces through the extrema with the grey levels of the image there. Refuted: the levels are read at the transposed pixel, so this holds for images equal to their transpose and fails in general; images that are not square raise.", "quantifier": "every image and interpolator", "why_tests_cant": "all images", "anchors": ["PyEMD/BEMD.py: BEMD.extract_max_min_spline", "PyEMD/BEMD.py: BEMD.find_extrema_positions"]}
{"id": "C60", "title": "BEMD extrema are the prominent pixels", "statement": "BEMD counts a pixel as a maximum exactly when no walk over neighbouring pixels that never goes below its level reaches a pixel at least one grey level brighter, and as a minimum when this holds in the negative image. In an image whose grey levels differ by less than one every pixel is both.", "quantifier": "every image (morphological reconstruction as documented by scikit-image)", "why_tests_cant": "all images; paths of every length", "anchors": ["PyEMD/BEMD.py: BEMD.extract_maxima_positions", "PyEMD/BEMD.py: BEMD.extract_minima_positions"]}
{"id": "C61", "title": "max_imf bounds the work of EMD2D and BEMD", "statement": "With max_imf = k > 0 EMD2D.emd and BEMD.bemd end after at most k passes and return between 1 and k+1 components. Without a limit they end for every image. Refuted for EMD2D: there are an image and an interpolator for which it never returns.", "quantifier": "every image, configuration, interpolator and limit", "why_tests_cant": "termination concerns all executions", "anchors": ["PyEMD/EMD2d.py: EMD2D.emd", "PyEMD/BEMD.py: BEMD.bemd"]}
{"id": "C62", "title": "EMD2D rejects images of one grey level", "statement": "An image of constant grey level cannot be decomposed by EMD2D.emd: scaling to the unit range divides zero by zero.", "quantifier": "every constant image, configuration and interpolator", "why_tests_cant": "infinitely many images", "anchors": ["PyEMD/EMD2d.py: EMD2D.emd"]}
{"id": "C63", "title": "2D sifting stops at the first settled sift", "statement": "With FIXE = FIXE_H = 0, EMD2D and BEMD sift a component until the first sift that passes one of the acceptance tests (mean of the envelopes nearly flat, nearly no change, nearly dark, for EMD2D small mean square), and no longer; with FIXE_H = h until the first sift that ends h consecutive accepted ones, the very first sift not counted; unless MAX_ITERATION is reached or the extrema run out. BEMD's mean-square threshold has no effect.", "quantifier": "every image, interpolator, threshold and number h", "why_tests_cant": "all executions of the sifting loop", "anchors": ["PyEMD/EMD2d.py: EMD2D.emd", "PyEMD/EMD2d.py: EMD2D.check_proto_imf", "PyEMD/BEMD.py: BEMD.bemd", "PyEMD/BEMD.py: BEMD.check_proto_imf"]}
{"id": "C64", "title": "plot_instant_freq draws the frequency of the phase", "statement": "For every imf plot_instant_freq draws the phase advance per time step divided by 2 pi times the step, the last value repeated (first-order scheme, no filter). If the phase of the analytic signal rotates evenly f times per unit of time on an even grid, f is drawn at every sample by both schemes, with and without filter. alpha outside (-1/2, 1/2) is rejected. Refuted for uneven times: only the first step is used.", "quantifier": "every imf array, time grid, filter strength and Hilbert transform", "why_tests_cant": "all inputs", "anchors": ["PyEMD/visualisation.py: Visualisation.plot_instant_freq", "PyEMD/visualisation.py: Visualisation._calc_inst_freq", "PyEMD/visualisation.py: Visualisation._calc_inst_phase"]}
{"id": "C65", "title": "EEMD and CEEMDAN return the array they store", "statement": "A run of eemd or ceemdan leaves the caller's arrays and the results of earlier runs unchanged, and returns the very array that get_imfs_and_residue then hands out: assignments by the caller to the returned array are seen there, but not in the residue, in the collected imfs of the trials or in the inputs. A later run leaves the array alone.", "quantifier": "every memory, input array, setting, serial or parallel execution, later assignments and later runs", "why_tests_cant": "aliasing concerns all later histories", "anchors": ["PyEMD/EEMD.py: EEMD.eemd", "PyEMD/EEMD.py: EEMD.get_imfs_and_residue", "PyEMD/EEMD.py: EEMD.all_imfs", "PyEMD/CEEMDAN.py: CEEMDAN.ceemdan", "PyEMD/CEEMDAN.py: CEEMDAN.get_imfs_and_residue"]}
{"id": "C66", "title": "Negating the signal negates the decomposition", "statement": "With extrema_detection 'simple', EMD of -S returns the negated array, IMFs and residue of EMD of S, under every stopping rule and limit; maxima and minima exchange roles. Refuted for 'parabol': the 1e-14 test for straightness has no absolute value.", "quantifier": "every signal of at least two samples, time grid, configuration, limit and interpolation that commutes with negation", "why_tests_cant": "all signals and executions of the sifting loop", "anchors": ["PyEMD/EMD.py: EMD.emd", "PyEMD/EMD.py: EMD.find_extrema", "PyEMD/EMD.py: EMD.prepare_points_simple"]}
{"id": "C67", "title": "A change of unit rescales the decomposition", "statement": "With FIXE or FIXE_H set, EMD of k*S, with range_thr and total_power_thr in the new unit, gives k times the IMFs and residue of EMD of S. Refuted for the standard stopping rule: the variance test and the 1e-10 of the energy test depend on the unit.", "quantifier": "every signal, factor k <> 0, time grid, configuration with extrema_detection 'simple', limit and linear interpolation operator", "why_tests_cant": "all signals and factors", "anchors": ["PyEMD/EMD.py: EMD.emd", "PyEMD/EMD.py: EMD.check_imf", "PyEMD/EMD.py: EMD.end_condition"]}
{"id": "C68", "title": "A constant offset only moves the residue", "statement": "With FIXE or FIXE_H set and the total-power test off, EMD of S + a has the IMFs of EMD of S, and a is added to the residue. Refuted for the standard stopping rule and for the total-power test.", "quantifier": "every signal, offset, time grid, configuration with extrema_detection 'simple', limit and interpolation that commutes with the offset", "why_tests_cant": "all signals and offsets", "anchors": ["PyEMD/EMD.py: EMD.emd", "PyEMD/EMD.py: EMD.end_condition"]}
{"id": "C69", "title": "Ensemble statistics describe the trials", "statement": "After eemd, all_imfs maps k to the k-th imfs of the trials that have one, in trial order (with separate_trends the last key holds the trends); ensemble_count, ensemble_mean and ensemble_std are their number, mean and standard deviation, and ensemble_mean equals the returned array. The deviation is zero exactly where the trials agree, and everywhere without noise. A run that raises keeps the earlier imfs and residue; refuted: a serial one overwrites the ensemble.", "quantifier": "every signal, generator, inner decomposition, configuration and history of the object", "why_tests_cant": "all ensembles, ragged or not, and all histories", "anchors": ["PyEMD/EEMD.py: EEMD.all_imfs", "PyEMD/EEMD.py: EEMD.ensemble_count", "PyEMD/EEMD.py: EEMD.ensemble_mean", "PyEMD/EEMD.py: EEMD.ensemble_std", "PyEMD/EEMD.py: EEMD.eemd"]}
{"id": "C70", "title": "Constructor options mean what they say", "statement": "Every documented option of EMD, EEMD, CEEMDAN and EMD2D sets its attribute to the given value (converted) and nothing else, absent ones have the documented default; the order is irrelevant and unknown names are ignored. EEMD and CEEMDAN hand their options to the EMD they create and leave a given ext_EMD alone. Against expectation: EMD's DTYPE has no effect, EEMD ignores seed, thresholds given to CEEMDAN also become those of its inner EMD. BEMD has no options, and with its defaults its thresholds have no effect.", "quantifier": "every set of keyword arguments", "why_tests_cant": "all combinations of options", "anchors": ["PyEMD/EMD.py: EMD.__init__", "PyEMD/EEMD.py: EEMD.__init__", "PyEMD/CEEMDAN.py: CEEMDAN.__init__", "PyEMD/EMD2d.py: EMD2D.__init__", "PyEMD/BEMD.py: BEMD.__init__"]}
{"id": "C71", "title": "Integer signals are decomposed in double precision", "statement": "EMD of an integer array gives the result of EMD of the same numbers as doubles, without times, in 'simple' mode, or with integer times whose range fits their type; the returned array is always double precision. Refuted for times of a narrow integer type in 'parabol' mode: their range wraps around.", "quantifier": "every array of integers or doubles of at most 2^53 samples, integer types, time arrays, configurations and limits", "why_tests_cant": "all integer types and values, including those at the ends of the range", "anchors": ["PyEMD/EMD.py: EMD.emd", "PyEMD/EMD.py: EMD._normalize_time", "PyEMD/utils.py: get_timeline", "PyEMD/utils.py: unify_types"]}
{"id": "C72", "title": "Extrema detection on integer arrays", "statement": "find_extrema called on a signed integer array finds the extrema and zero crossings of the numbers if no difference of neighbours and no product of neighbouring differences or samples leaves the type. Refuted otherwise (int16: missed hill, false maximum); on unsigned arrays it never finds any extremum.", "quantifier": "every integer type and array", "why_tests_cant": "all arrays and types; overflow is silent", "anchors": ["PyEMD/EMD.py: EMD.find_extrema", "PyEMD/EMD.py: EMD._find_extrema_simple"]}
{"id": "C73", "title": "Integer signals and images keep their amplitude in EEMD and EMD2D", "statement": "EEMD of an integer signal and EMD2D of an integer image equal those of the same numbers if the span of the values fits the type, in particular for unsigned types. Otherwise EEMD adds noise as for a span of 2^b - span, and EMD2D's components add up to the image except at pixels 2^(b-1) or more above the darkest, where the sum is 2^b too low.", "quantifier": "every integer type, signal, image, generator, inner decomposition, interpolation and configuration", "why_tests_cant": "all values of all types; overflow is silent", "anchors": ["PyEMD/EEMD.py: EEMD.eemd", "PyEMD/EMD2d.py: EMD2D.emd"]}
{"id": "C74", "title": "Ensemble methods follow a change of unit", "statement": "CEEMDAN of k*S (k > 0) is k times CEEMDAN of S, for every configuration; EEMD of k*S with the same random state is k times EEMD of S, with a fixed number of sifts, 'simple' detection and the absolute thresholds converted, unless a trial's residue is negligible in one unit only. Refuted for negation: the noise is not negated.", "quantifier": "every signal that is not constant, factor, generator that scales its output, configuration and history", "why_tests_cant": "all signals, units, seeds and ensemble sizes", "anchors": ["PyEMD/CEEMDAN.py: CEEMDAN.ceemdan", "PyEMD/EEMD.py: EEMD.eemd"]}
{"id": "C75", "title": "Image decomposition and grey levels", "statement": "EMD2D of the image k*y + a (k > 0) has k times the components of the image y as far as both decompositions go, and is completely k times as large, the offset in the last row, if one component is asked for. Refuted: the number of components depends on the unit in EMD2D, and the pixels that BEMD takes for maxima do.", "quantifier": "every image, factor, offset, interpolation, configuration and limit", "why_tests_cant": "all images and grey levels", "anchors": ["PyEMD/EMD2d.py: EMD2D.emd", "PyEMD/EMD2d.py: EMD2D.end_condition", "PyEMD/BEMD.py: BEMD.find_extrema_positions"]}
{"id": "C76", "title": "Components add up in double precision", "statement": "In binary64, wherever the returned samples are finite, the exact sum of the rows returned by EMD, JitEMD, CEEMDAN, BEMD and EMD2D, and of EEMD's rows and stored residue, misses the signal or image by at most (about) 2^-53 per row of the summed absolute values of the rows, plus 1e-8 (of the grey range in EMD2D) where a negligible residue is left out, plus the stated rounding of the normalisation. For EMD_matlab the same holds with 1e-10, provided that all samples of the signal and the rows are finite: a single NaN makes it leave the residue out everywhere.", "quantifier": "every signal or image of doubles, time array, configuration, interpolation, inner decomposition, generator and limit", "why_tests_cant": "all inputs, magnitudes and numbers of rows; rounding errors accumulate", "anchors": ["PyEMD/EMD.py: EMD.emd", "PyEMD/EEMD.py: EEMD.eemd", "PyEMD/CEEMDAN.py: CEEMDAN.ceemdan", "PyEMD/BEMD.py: BEMD.bemd", "PyEMD/EMD2d.py: EMD2D.emd", "PyEMD/EMD_matlab.py: EMD.emd"]}
{"id": "C77", "title": "Reversing time reverses the decomposition", "statement": "The extrema, the mirrored points and the whole decomposition of a signal read backwards are those of the signal, read backwards, if no signal met while sifting has a plateau as an extremum or a flat end ('simple' detection, every stopping rule and limit); the number of zero crossings is always the same. Refuted with plateaus: one at the second sample is dropped while its mirror image is found, and a plateau of even length is not reported at the mirrored place.", "quantifier": "every signal, configuration, limit and interpolation that does not depend on the direction of the axis", "why_tests_cant": "all signals and all iterations of the two nested loops", "anchors": ["PyEMD/EMD.py: EMD.emd", "PyEMD/EMD.py: EMD._find_extrema_simple", "PyEMD/EMD.py: EMD._prepare_points_simple"]}
{"id": "C78", "title": "A limit on the number of components only cuts off", "statement": "Asking for at most k components gives the first k of those found with a looser limit or none: exactly, in EMD with a fixed number of sifts, in CEEMDAN (with the same generator state after) and in BEMD; all but the last, which carries the offset, in EMD2D; the first k-1 in EMD_matlab, whose limit counts the residue. With EMD's other stopping rules the k-th component can be missing: refuted for the default rule, where max_imf=1 can give no component although there is one.", "quantifier": "every signal or image, arithmetic, configuration, interpolation, inner decomposition and pair of limits", "why_tests_cant": "all signals and all pairs of limits", "anchors": ["PyEMD/EMD.py: EMD.emd", "PyEMD/CEEMDAN.py: CEEMDAN.ceemdan", "PyEMD/BEMD.py: BEMD.bemd", "PyEMD/EMD2d.py: EMD2D.emd", "PyEMD/EMD_matlab.py: EMD.emd"]}
{"id": "C79", "title": "Missing values are not hidden", "statement": "In binary64, where a sample of the signal is NaN or infinite, the residue of EMD (then always returned), the last row of JitEMD, the first of EMD_matlab, EEMD's stored residue, some row of CEEMDAN and the last image of BEMD is not finite at that place either. If the standard deviation is not finite, no sample CEEMDAN returns is; and one such pixel leaves no finite pixel in what EMD2D returns: one NaN makes it two images of NaN.", "quantifier": "every signal or image of doubles, configuration, interpolation, inner decomposition and limit", "why_tests_cant": "all positions and numbers of missing values", "anchors": ["PyEMD/EMD.py: EMD.emd", "PyEMD/experimental/jitemd.py: emd", "PyEMD/EMD_matlab.py: EMD.emd", "PyEMD/EEMD.py: EEMD.eemd", "PyEMD/CEEMDAN.py: CEEMDAN.ceemdan", "PyEMD/BEMD.py: BEMD.bemd", "PyEMD/EMD2d.py: EMD2D.emd"]}
{"id": "C80", "title": "JitEMD's settings and stored results over any history", "statement": "A JitEMD object made without settings, or with an empty dictionary, uses the module-wide defaults as they are when it decomposes, including every assignment made to them through any object; one made with a non-empty dictionary uses that dictionary, which only assignments to it change. A result depends on the nine settings, the spline kind and the detection only; a missing setting is a KeyError and a failed decomposition changes nothing. The stored components and residue are views of the returned array: writes to it show through, decompositions by other objects do not. The defaults equal EMD's. Refuted: two objects made without settings are not independent.", "quantifier": "every sequence of making dictionaries and objects, assigning settings, decomposing and writing into returned arrays", "why_tests_cant": "all histories of several objects that share dictionaries and arrays", "anchors": ["PyEMD/experimental/jitemd.py: JitEMD", "PyEMD/experimental/jitemd.py: default_emd_config", "PyEMD/experimental/jitemd.py: emd"]}
{"id": "C81", "title": "Turned images", "statement": "Turning an image upside down, mirroring it, rotating it by half a turn or transposing it does the same to every component EMD2D returns (or leads to the same exception), if the surface fit favours no direction; its extrema are the turned extrema. For BEMD this holds for transposition and half a turn of square images; refuted for an image turned upside down, because the values of extrema are read at transposed places.", "quantifier": "every image size, image, configuration, limit and surface fit that favours no direction", "why_tests_cant": "all images and all iterations of the nested loops", "anchors": ["PyEMD/EMD2d.py: EMD2D.emd", "PyEMD/EMD2d.py: EMD2D.find_extrema", "PyEMD/EMD2d.py: EMD2D.prepare_image", "PyEMD/BEMD.py: BEMD.bemd", "PyEMD/BEMD.py: BEMD.extract_max_min_spline"]}
{"id": "C82", "title": "Decomposing what the first components leave", "statement": "Taking the first j IMFs of EMD away from a signal and decomposing the rest (with the limit reduced by j) gives the other IMFs, the same residue and the other rows; likewise for the rows of JitEMD and, with their numbers of extrema and iterations, of EMD_matlab. With a fixed number of sifts, asking for one IMF at a time finds the IMFs of the full decomposition. EMD of the residue finds no IMF and returns the residue, unless the decomposition was stopped by its limit or a threshold; refuted for a residue below the thresholds. In exact arithmetic.", "quantifier": "every signal, time axis, configuration, limit, interpolation and number of components taken away", "why_tests_cant": "all signals and all iterations of the two nested loops", "anchors": ["PyEMD/EMD.py: EMD.emd", "PyEMD/experimental/jitemd.py: emd", "PyEMD/EMD_matlab.py: EMD.emd"]}
{"id": "C83", "title": "Negating a signal in double precision", "statement": "With rounding, overflow, infinities and NaN as NumPy has them, the decomposition EMD finds of the negated signal is the negated decomposition, bit for bit except for the sign of zeros, under every stopping rule and limit: the same number of rows, maxima and minima exchanged, zero crossings kept. Simple detection, any interpolation that negates its values when its knots are negated (the built-in three-point spline does), up to 2^53 samples. The sign of a zero does not follow: a residue of zeros is +0 for both signals.", "quantifier": "every signal of doubles, configuration, limit and odd interpolation", "why_tests_cant": "all signals and roundings", "anchors": ["PyEMD/EMD.py: EMD.emd", "PyEMD/EMD.py: EMD._find_extrema_simple", "PyEMD/EMD.py: EMD.prepare_points_simple", "PyEMD/splines.py: cubic_spline_3pts"]}
{"id": "C84", "title": "Envelopes touch the signal at its extrema", "statement": "The upper envelope has one value per sample and equals the signal at every maximum, the lower one at every minimum, so one sift leaves half the height above the lower envelope at a maximum and half the depth below the upper envelope at a minimum. Simple detection, at least one mirrored extremum, exact arithmetic, an interpolation that passes through its knots (the built-in three-point spline does). Refuted: between the extrema the upper envelope need not lie above the signal.", "quantifier": "every signal, configuration and interpolation that passes through its knots", "why_tests_cant": "all signals and arrangements of extrema", "anchors": ["PyEMD/EMD.py: EMD.extract_max_min_spline", "PyEMD/EMD.py: EMD.spline_points", "PyEMD/EMD.py: EMD.prepare_points_simple", "PyEMD/splines.py: cubic_spline_3pts"]}
{"id": "C85", "title": "EMD_matlab works on arrays of its own", "statement": "EMD_matlab's emd changes no array the caller has (signal, times, earlier results), although it updates its remainder in place, also when it raises. Every array in the returned dictionary is new and no two share memory: assigning to one component changes neither the signal nor the other components.", "quantifier": "every arithmetic, memory, signal, time array (also views or the same array), configuration, limit and sequence of later assignments", "why_tests_cant": "all heaps, all iterations of the nested loops and all later histories of writes", "anchors": ["PyEMD/EMD_matlab.py: EMD.emd"]}
{"id": "C86", "title": "Negating a signal in JitEMD and EMD_matlab", "statement": "In double precision JitEMD decomposes a signal and its negative into rows that are negatives of each other, whatever the rounding, stopping rule, limit and time array (simple detection, an interpolation that answers negated knots by negated values). EMD_matlab's extrema exchange their roles, unless the signal both begins and ends with two equal samples; then the negated signal can have a different decomposition.", "quantifier": "all signals of at most 2^53 samples, configurations, time arrays, limits and odd interpolations", "why_tests_cant": "all signals and roundings", "anchors": ["PyEMD/experimental/jitemd.py: emd", "PyEMD/EMD_matlab.py: EMD.findExtrema", "PyEMD/EMD_matlab.py: EMD.emd"]}
{"id": "C87", "title": "Sifting stops as soon as its stop rule is met", "statement": "With FIXE_H, or with the default rule, sifting an IMF goes on exactly until the rule holds for the first time: no earlier sift met it, the last one does, unless the iteration limit was reached (in EMD_matlab also: unless fewer than three extrema are left). FIXE_H = h means h sifts in a row, not counting the very first, with as many extrema as zero crossings give or take one; the default rule is the convergence thresholds together with that balance. This holds for EMD, JitEMD and EMD_matlab.", "quantifier": "all signals, time arrays, thresholds, limits, spline kinds and interpolations for which the decomposition returns", "why_tests_cant": "all signals and all lengths of the sifting history", "anchors": ["PyEMD/EMD.py: EMD.emd", "PyEMD/EMD.py: EMD.check_imf", "PyEMD/experimental/jitemd.py: emd", "PyEMD/EMD_matlab.py: EMD.emd", "PyEMD/EMD_matlab.py: EMD.stop_sifting"]}
{"id": "C88", "title": "EEMD and CEEMDAN objects after runs that raise", "statement": "Whatever a program does with one object (seeding it, changing its settings, running it on any signals, catching the exceptions of runs that raise), get_imfs_and_residue reports the result of the last run that ended, with the residue completing it to that run's signal, or that there is none. A parallel EEMD run that raises changes nothing. A serial one that raises in a trial leaves in all_imfs the rows of the trials before it, and the generator advanced by one draw per trial begun; so the ensemble and the reported result can belong to different runs.", "quantifier": "all histories of seeds, settings, signals, time arrays and runs, ended or raised; all generators and decompositions; serial and parallel", "why_tests_cant": "all histories and all points at which a trial can raise", "anchors": ["PyEMD/EEMD.py: EEMD.eemd", "PyEMD/EEMD.py: EEMD.get_imfs_and_residue", "PyEMD/EEMD.py: EEMD.all_imfs", "PyEMD/CEEMDAN.py: CEEMDAN.ceemdan", "PyEMD/CEEMDAN.py: CEEMDAN.get_imfs_and_residue"]}
{"id": "C89", "title": "EMD_matlab on integer arrays", "statement": "Called with an integer signal (and integer times or none), EMD_matlab cuts the knots of the envelopes, and except for akima the envelopes too, to whole numbers; nothing else changes. So, unless the kind is akima, every sample of every row is a multiple of one half and the rows add up to the signal exactly; in double precision also, without any rounding error, while the numbers stay below 2^52. The rows differ from those of the same signal passed as floats.", "quantifier": "all integer signals, times, limits, interpolation routines and settings with a whole reduceScale (the default is 1)", "why_tests_cant": "all signals; the truncation happens deep inside the sifting loop", "anchors": ["PyEMD/EMD_matlab.py: EMD.emd", "PyEMD/EMD_matlab.py: EMD.preparePoints", "PyEMD/EMD_matlab.py: EMD.splinePoints", "PyEMD/EMD_matlab.py: EMD.cubicSpline_3points", "PyEMD/utils.py: unify_types"]}
{"id": "C90", "title": "What each spline kind draws", "statement": "Every spline kind answers every instant between its first and last knot and passes through its knots. akima, cubic, pchip and cubic_hermite draw one smooth curve of cubic pieces; cubic draws the only one with continuous second derivative and not-a-knot ends. quadratic draws the only curve of parabolas, one per inner knot, that join smoothly halfway between the knots. pchip and straight lines run from knot to knot without turning back, so both envelopes stay between the smallest and the largest sample and n sifts at most double the amplitude n times; akima, cubic, cubic_hermite and quadratic can overshoot. Knots on a straight line are answered with that line by every kind; cubic reproduces cubic polynomials, quadratic reproduces parabolas, akima (equal spacing) and cubic_hermite (inner gaps) do so too, and akima keeps three knots in a line straight. Every kind follows a change of unit, offset, sign or direction of its knots, so EMD decomposes the negated, rescaled, shifted or reversed signal accordingly with no condition left on the interpolation.", "quantifier": "all knots, instants, signals and settings with simple detection, for every spline kind", "why_tests_cant": "all signals; the curve between knots depends on all of them", "anchors": ["PyEMD/splines.py: akima", "PyEMD/splines.py: cubic_hermite", "PyEMD/splines.py: cubic", "PyEMD/splines.py: pchip", "PyEMD/EMD.py: EMD.spline_points", "PyEMD/EMD.py: EMD.extract_max_min_spline"]}
{"id": "C91", "title": "The spline kind by name", "statement": "Each of the seven documented names of spline kinds selects its interpolation, which is asked for exactly the given instants between the first and the last knot; capitals in the name make no difference to the decomposition, in EMD, JitEMD and EMD_matlab. Any other name raises ValueError as soon as the signal has three extrema.", "quantifier": "all names, signals, knots, instants and interpolation routines; the last sentence for simple detection", "why_tests_cant": "all names and all signals", "anchors": ["PyEMD/EMD.py: EMD.spline_points", "PyEMD/experimental/jitemd.py: spline_points", "PyEMD/EMD_matlab.py: EMD.splinePoints"]}
{"id": "C92", "title": "EMD2D and BEMD do not touch the caller's arrays", "statement": "Decomposing an image with EMD2D or BEMD returns a new array with the components of the image as it was at the call and changes nothing that existed before, also when it raises. Whatever a program does afterwards, the image keeps its pixels when the components are assigned to, and the components keep theirs when the image is.", "quantifier": "all memories, images, settings, component limits, surfaces and interpolations; all sequences of decompositions and assignments", "why_tests_cant": "aliasing shows only for particular inputs and orders of operations; all histories", "anchors": ["PyEMD/EMD2d.py: EMD2D.emd", "PyEMD/BEMD.py: BEMD.bemd"]}
{"id": "C93", "title": "How large components can get", "statement": "With one sift per component (FIXE = 1) and linear, slinear or pchip splines, what is left of the signal after taking out any number of components, and the residue, stay between the bounds of the signal, and no component is larger than their distance. With n sifts each component leaves at most 2^n - 1 times the amplitude. With the other kinds the residue can leave the range of the signal.", "quantifier": "all signals, bounds, time arrays, component limits and numbers of sifts below the iteration limit; simple detection, exact arithmetic", "why_tests_cant": "all signals; overshoot shows only for particular shapes", "anchors": ["PyEMD/EMD.py: EMD.emd", "PyEMD/EMD.py: EMD.spline_points", "PyEMD/splines.py: pchip"]}
{"id": "C94", "title": "Calls of EMD_matlab, JitEMD, EEMD and CEEMDAN return", "statement": "With simple detection and a component limit: EMD_matlab (default times, kinds it knows, limit of two or more) and JitEMD return for every signal, and EEMD with EMD inside returns for every signal of two samples or more, unless separate_trends is set and a noisy copy is all but zero (IndexError). EEMD with any ext_EMD raises only what the decomposition of one of its noisy copies raises. CEEMDAN raises in three cases only: the unlimited decomposition of a noise vector does not end, a noise vector is all but zero, or the remainder after some number of components and the noise of a trial cancel.", "quantifier": "all signals, generators, seeds, numbers of trials and workers, schedules, spline kinds, object states and component limits; simple detection, exact arithmetic", "why_tests_cant": "an exception can come from any of the trials, for any drawn noise; no finite set of signals shows that none raises", "anchors": ["PyEMD/EMD_matlab.py: EMD.emd", "PyEMD/EMD_matlab.py: EMD.findExtrema", "PyEMD/experimental/jitemd.py: emd", "PyEMD/EEMD.py: EEMD.eemd", "PyEMD/EEMD.py: EEMD._trial_update", "PyEMD/CEEMDAN.py: CEEMDAN.ceemdan"]}
{"id": "C95", "title": "A steady oscillation is one component", "statement": "If no sample leaves [l, h], every reported maximum reaches h, every reported minimum reaches l and three extrema or more are reported, then, for every spline kind and with simple detection, the envelopes are the constants h and l, and EMD finds exactly one component, the signal minus (l+h)/2, whatever rule ends the sifting; the residue is (l+h)/2 everywhere. A signal that swings between -h and h is returned as its own and only row. JitEMD returns the same rows.", "quantifier": "all such signals of any length, levels, spline kinds, numbers of mirrored extrema, thresholds, FIXE and FIXE_H values, iteration limits of two or more and component limits; exact arithmetic", "why_tests_cant": "the claim is about every wave form, level and stopping rule; a test decomposes one wave with one configuration", "anchors": ["PyEMD/EMD.py: EMD.emd", "PyEMD/EMD.py: EMD.extract_max_min_spline", "PyEMD/EMD.py: EMD._prepare_points_simple", "PyEMD/EMD.py: EMD.spline_points", "PyEMD/splines.py", "PyEMD/experimental/jitemd.py: emd"]}
{"id": "C96", "title": "The pools' schedules: what can happen and what cannot", "statement": "However the worker processes of the parallel EEMD and CEEMDAN are scheduled, no run gets stuck, and the call's outcome is this: EEMD returns the same result, leaves the object in the same state and raises the same exception under every schedule; CEEMDAN returns under every schedule or under none, with the same rows and the same state of the object in exact arithmetic. The tasks can finish in exactly those orders in which the k-th to finish is one of the first k + processes; Pool.map raises what the first task to fail raised; this can be any failing task with fewer than `processes` failing tasks before it. So CEEMDAN's exception can depend on the schedule, and in binary64 its rows can too.", "quantifier": "all schedules of any number of workers and tasks, all outcomes of the tasks, signals, configurations, generators, inner decompositions and object states", "why_tests_cant": "a test sees the schedule that the operating system happens to choose", "anchors": ["PyEMD/EEMD.py: EEMD.eemd", "PyEMD/EEMD.py: EEMD._trial_update", "PyEMD/CEEMDAN.py: CEEMDAN._decompose_noise", "PyEMD/CEEMDAN.py: CEEMDAN._eemd", "PyEMD/CEEMDAN.py: CEEMDAN.ceemdan"]}
{"id": "C97", "title": "Signals in single or half precision", "statement": "When emd is given float32 or float16 samples, the sifting is done in that type but the returned array is float64. Every component consists of numbers of the signal's type, converted exactly; all rows have the signal's length; the components and the residue rebuild the signal to float64 accuracy, whatever the narrower arithmetic rounds; a limit on the components is respected and makes the call end; a float64 signal takes the same path as ever. In 'simple' mode the extrema are those of the numbers the samples stand for unless neighbouring samples differ by less than 2^-74 (float32) or 2^-12 (float16). But the components are not those of the float64 copy of the signal; a float16 signal swinging by 0.0001 comes back as a trend, and without times (or in 'simple' mode) a float16 signal of 2050 samples up to 65503 and a float32 signal of 2^24 + 2 or more raise AssertionError.", "quantifier": "all signals, times, configurations and limits, all interpolations, all pairs of a narrow and a wide arithmetic; IEEE binary32 and binary16 with binary64 results for the bounds", "why_tests_cant": "the rounding of every sample in every sift differs from type to type; a test compares a few signals with a tolerance", "anchors": ["PyEMD/EMD.py: EMD.emd", "PyEMD/EMD.py: EMD.spline_points", "PyEMD/EMD.py: EMD.end_condition", "PyEMD/EMD.py: EMD._find_extrema_simple", "PyEMD/utils.py: unify_types", "PyEMD/utils.py: get_timeline"]}
{"id": "C98", "title": "Signals turned over or around in the ensemble methods", "statement": "EEMD and CEEMDAN have no preference for peaks over troughs. When the signal is negated and the noise is negated with it, both return the negated components, residue and (EEMD) trends, whatever the stopping rule of the inner EMD ('simple' detection), the number of trials, the limit, serial or parallel, and in whatever order the workers finish; the generator ends in the same state. The same holds of the signal read backwards with every trial's noise read backwards, for every inner decomposition that reverses its components with the noisy signals it is given. Without turning the noise it is false.", "quantifier": "all signals, configurations, seeds, limits, orders of completion, all generators, all inner decompositions that respond (EMD in 'simple' mode is proved to respond to negation)", "why_tests_cant": "depends on every draw of the generator and on every inner run; a test fixes one seed, and the turned noise cannot be drawn from NumPy's generator", "anchors": ["PyEMD/EEMD.py: EEMD.eemd", "PyEMD/EEMD.py: EEMD._trial_update", "PyEMD/EEMD.py: EEMD.generate_noise", "PyEMD/CEEMDAN.py: CEEMDAN.ceemdan", "PyEMD/CEEMDAN.py: CEEMDAN._eemd", "PyEMD/CEEMDAN.py: CEEMDAN.end_condition"]}
{"id": "C99", "title": "Photographic negatives of images", "statement": "The image methods have no preference for bright over dark. BEMD of a negated image returns the negated components and residue, under every stopping rule and limit. EMD2D with a fixed number of sifts returns, for the negated image, the negative of every component but the last (the last one carries the grey level). With EMD2D's other stopping rules this is false: the image a sift is compared with has had the last mean subtracted twice, which moves the grey level of the negative but not of the original.", "quantifier": "all images, configurations, limits, all reconstructions, all surface fits that respond to inverted values", "why_tests_cant": "relates two whole runs, over all images; a test compares a few pictures", "anchors": ["PyEMD/BEMD.py: BEMD.bemd", "PyEMD/BEMD.py: BEMD.extract_minima_positions", "PyEMD/BEMD.py: BEMD.check_proto_imf", "PyEMD/EMD2d.py: EMD2D.emd", "PyEMD/EMD2d.py: EMD2D.find_extrema", "PyEMD/EMD2d.py: EMD2D.check_proto_imf"]}
{"id": "C100", "title": "Ensemble queries over any history", "statement": "After an EEMD run that returned, and until the next run, ensemble_mean is the returned result, each order i of all_imfs is an array whose mean, deviation and length are the i-th entries of ensemble_mean, ensemble_std and ensemble_count, and any other order raises KeyError. A run that raises either changes nothing, or is serial and leaves lists: ensemble_count works, ensemble_mean and ensemble_std raise AttributeError (or return an empty array if there is no order), and reading a missing order creates it. At any time the two statistics return together or raise together. Looking at the ensemble never changes what later runs return. That an object with results has an ensemble mean, and that reading changes nothing, are both false after a serial run that raised.", "quantifier": "all programs of seedings, runs and reads on one object, all settings, signals, noise generators and inner decompositions", "why_tests_cant": "quantifies over whole programs, with runs that raise at any trial; a test follows one of them", "anchors": ["PyEMD/EEMD.py: EEMD.eemd", "PyEMD/EEMD.py: EEMD.all_imfs", "PyEMD/EEMD.py: EEMD.ensemble_count", "PyEMD/EEMD.py: EEMD.ensemble_mean", "PyEMD/EEMD.py: EEMD.ensemble_std"]}
{"id": "C101", "title": "Sharing one EMD object between ensembles", "statement": "When the same EMD object is given as ext_EMD to any number of EEMD and CEEMDAN objects and is also called by the user, every EEMD and CEEMDAN object returns and stores what it would with an EMD object of its own with the same settings, every call of the EMD object returns what a new EMD object would, and the statements about other objects can be left out of the program without changing the results of one. But the EMD object's own get_imfs_and_residue is overwritten: after a serial EEMD run that returned it reports the decomposition of that run's signal plus the noise of its last trial, after a parallel run it is as before. That it reports the user's last call is false.", "quantifier": "all programs of decompositions, changes of settings, seedings and runs over any number of objects, in any interleaving of statements, with exceptions caught", "why_tests_cant": "quantifies over whole programs and numbers of objects; a test follows one interleaving", "anchors": ["PyEMD/EEMD.py: EEMD.__init__", "PyEMD/EEMD.py: EEMD._trial_update", "PyEMD/CEEMDAN.py: CEEMDAN.__init__", "PyEMD/CEEMDAN.py: CEEMDAN.emd", "PyEMD/EMD.py: EMD.emd", "PyEMD/EMD.py: EMD.get_imfs_and_residue"]}
{"id": "C102", "title": "Copies of EEMD and CEEMDAN objects", "statement": "A deep copy or a pickled copy of an EEMD or CEEMDAN object is independent of the original: from the moment of copying each behaves as one object in the state of that moment. Shallow copies (copy.copy) have their generator and EMD object in common with the original: the runs of all of them return, in order, what one object would return for the same runs and seedings, whichever of them each statement names, so running or seeding a copy changes what the original returns next. The stored results are each object's own: after a run that returned, an object keeps that result until it is run again, whatever is done with its copies. That shallow copies are independent is false.", "quantifier": "all programs that copy, deep-copy, seed and run any number of objects in any order, all settings and signals", "why_tests_cant": "quantifies over whole programs and families of copies; a test makes one copy", "anchors": ["PyEMD/EEMD.py: EEMD.__getstate__", "PyEMD/CEEMDAN.py: CEEMDAN.__getstate__", "PyEMD/EEMD.py: EEMD.eemd", "PyEMD/CEEMDAN.py: CEEMDAN.ceemdan", "PyEMD/EEMD.py: EEMD.noise_seed", "PyEMD/CEEMDAN.py: CEEMDAN.noise_seed"]}
{"id": "C103", "title": "One EMD object called from several threads", "statement": "EMD objects have no lock. When several threads call emd and get_imfs_and_residue on one object, then for every interleaving: the components in the result of a call are its own; after them comes at most one more row, a difference between the signal of some call and the components of some call; with signals of one length no call raises because of another; a report gives the components of some call and such a difference, never half of a pair; each thread makes its calls in order and no thread waits for another. If all threads make the same call, or no two of them are in the last lines of their calls at the same time (as a lock ensures), every result is the one the call gives alone and every report belongs to one call. Without that, a result need not add up to its signal, a call that would return may raise ValueError, and a report may join the components of one call to the residue of another.", "quantifier": "all numbers of threads, all lists of calls for each, all signals, time arrays and limits, all schedules", "why_tests_cant": "the wrong results need a particular interleaving of attribute accesses; a threaded test runs a few of infinitely many schedules", "anchors": ["PyEMD/EMD.py: EMD.emd", "PyEMD/EMD.py: EMD.get_imfs_and_residue", "PyEMD/EMD.py: EMD.__init__"]}
{"id": "C104", "title": "Appending samples to a signal", "statement": "What find_extrema has found stays found when samples are appended to the signal: in 'simple' mode for a signal that does not start flat, in 'parabol' mode for increasing times, the positions and values of the extrema of the longer signal begin with those of the shorter one, in order, and the new ones come after them. The same holds for the zero crossings of a signal that does not end at zero. Without these conditions an extremum reported at a flat start can vanish and a crossing at the last sample can move. Decompositions do not stay: one more sample can change the first component at every sample.", "quantifier": "all signals and time arrays of equal length and all continuations of them", "why_tests_cant": "quantifies over all signals and all continuations; a test appends one block to one signal", "anchors": ["PyEMD/EMD.py: EMD.find_extrema", "PyEMD/EMD.py: EMD._find_extrema_simple", "PyEMD/EMD.py: EMD._find_extrema_parabol", "PyEMD/EMD.py: EMD._not_duplicate", "PyEMD/EMD.py: EMD.emd"]}
{"id": "C105", "title": "The worker pools of EEMD and CEEMDAN", "statement": "Serial runs open no worker pool. A parallel eemd run that returns has opened one pool and closed it, a parallel ceemdan run has opened and closed two, one after the other; so a program in which every run returns never has two pools open at once and leaves none open. A run that raises leaves at most one pool open, in eemd only if the exception was raised by a trial. That every pool is closed is refuted: an exception between opening and closing skips the closing, so a program that makes n failing runs (for instance with an unknown noise_kind) leaves n pools to the garbage collector.", "quantifier": "all signals, settings, generators, inner decompositions and arrival orders, all points at which a run can raise, and all programs of runs of one object", "why_tests_cant": "quantifies over every point at which an exception can be raised and over programs of any length; a test makes one run raise in one place", "anchors": ["PyEMD/EEMD.py: EEMD.eemd", "PyEMD/CEEMDAN.py: CEEMDAN.ceemdan", "PyEMD/CEEMDAN.py: CEEMDAN._decompose_noise", "PyEMD/CEEMDAN.py: CEEMDAN._eemd"]}
{"id": "C106", "title": "How far a change in the signal reaches", "statement": "With 'simple' detection and straight-line envelopes (linear, slinear), one sift of a signal gives at sample i a value that depends only on the samples of any stretch without flat steps that has a maximum and a minimum on either side of i; with pchip and cubic_hermite, two of each on either side. Two signals of any lengths that agree on that stretch, or one signal under different nbsym, are sifted to the same value there; in particular appending samples changes nothing there. Under FIXE = n the first component has the same property on the stretch that remains after n sifts, and each further component on the stretch that remains after as many more sifts of what is left. The same is refuted for the cubic spline (a sample with two of each on either side may still change), for places after the last extremum of the stretch, and for pchip with only one extremum on either side.", "quantifier": "all pairs of signals, lengths, stretches on which they agree, places in them, numbers of mirrored extrema and numbers of sifts", "why_tests_cant": "quantifies over everything that may stand outside the stretch: a test replaces it by a few continuations", "anchors": ["PyEMD/EMD.py: EMD.extract_max_min_spline", "PyEMD/EMD.py: EMD.spline_points", "PyEMD/EMD.py: EMD._prepare_points_simple", "PyEMD/EMD.py: EMD._find_extrema_simple", "PyEMD/splines.py: pchip", "PyEMD/splines.py: cubic_hermite", "PyEMD/EMD.py: EMD.emd"]}
{"id": "C107", "title": "Small changes in a signal", "statement": "With 'simple' detection, a change of at most e in every sample leaves all extrema at the same places if neighbouring samples, and the first and last against any other, differ by more than 2e; so does any strictly increasing transformation of the amplitudes. The zero crossings stay, in either mode, if no sample is within e of zero. Then one sift with straight-line envelopes (linear, slinear) changes by at most 2e, and the first component under FIXE = n by at most 2^n e, and component j (from 0) by at most 2^n (2^n + 1)^j e, if every signal sifted on the way is separated in this sense. Without the separation there is no such bound (refuted: two signals within a thousandth of each other, the first without any component, the second with a component that reaches 2).", "quantifier": "all signals, all changes of their samples up to e, all increasing maps, all numbers of mirrored extrema and of sifts", "why_tests_cant": "quantifies over every perturbation up to a size: a test tries a few, and the discontinuities lie on thin sets that random tests miss", "anchors": ["PyEMD/EMD.py: EMD._find_extrema_simple", "PyEMD/EMD.py: EMD._prepare_points_simple", "PyEMD/EMD.py: EMD._find_extrema_parabol", "PyEMD/EMD.py: EMD.extract_max_min_spline", "PyEMD/EMD.py: EMD.emd"]}
{"id": "C108", "title": "An oscillation on a slow trend", "statement": "With 'simple' detection and linear, slinear, pchip or cubic_hermite envelopes: where a signal is an oscillation between h and -h plus a straight line (for cubic_hermite: plus a parabola) that changes less from sample to sample than the oscillation does, one sift gives exactly the oscillation at every sample with enough extrema on either side, and further sifts leave it; so under FIXE = n it is the first component there. In particular h, -h, h, ... plus a line of slope below 2h in size is split into h, -h, h, ... and the line at all samples further than 2n (pchip, cubic_hermite: 4n) from the ends. At the ends, with the cubic spline, and for a parabola under straight-line envelopes this is refuted.", "quantifier": "all oscillations and trends, all stretches of all signals, all lengths, numbers of mirrored extrema and numbers of sifts", "why_tests_cant": "quantifies over every oscillation, trend and length; tests compare a few separations up to a tolerance", "anchors": ["PyEMD/EMD.py: EMD.emd", "PyEMD/EMD.py: EMD.extract_max_min_spline", "PyEMD/EMD.py: EMD._prepare_points_simple", "PyEMD/EMD.py: EMD.spline_points", "PyEMD/splines.py: pchip", "PyEMD/splines.py: cubic_hermite"]}
{"id": "C109", "title": "EEMD with little noise is near EMD", "statement": "With 'simple' detection, linear or slinear envelopes and FIXE = n: if no noise sample exceeds e in size (for uniform noise: noise_width times the range of the signal is at most 2e) and the samples whose order matters are further apart than the error allows, then component j of the ensemble returned by EEMD is within 2^n (2^n + 1)^j e of component j of EMD on the signal itself, whenever every trial found more than j + 1 rows. Hence, as noise_width goes to zero, the components of EEMD with uniform noise tend to those of EMD, serially and in parallel. Without the separation this is refuted: noise of a thousandth brings out a component of height 1.", "quantifier": "all signals, noise generators, ensemble sizes, histories of the EEMD object, numbers of sifts and components", "why_tests_cant": "quantifies over every noise a generator can draw and over a limit; tests run a few seeds at one width", "anchors": ["PyEMD/EEMD.py: EEMD.eemd", "PyEMD/EEMD.py: EEMD.generate_noise", "PyEMD/EEMD.py: EEMD._trial_update", "PyEMD/EMD.py: EMD.emd"]}
{"id": "C110", "title": "Threads sharing an EEMD object", "statement": "Several threads call eemd on one EEMD object with parallel=False, under any schedule of their accesses to its attributes. If no two threads are ever in a call at the same time, every outcome, and the object afterwards, is that of one thread making the same calls in the order in which they ended. Under every schedule each thread makes its calls in its order, and a thread left to run finishes. Without taking turns a call may return the components of another thread's signal, may raise AttributeError or return an empty array even if both threads decompose the same signal (refuted).", "quantifier": "all numbers of threads, lists of calls, schedules, histories of the object, generators, decomposers and arithmetics", "why_tests_cant": "quantifies over every interleaving of attribute accesses, which tests do not control", "anchors": ["PyEMD/EEMD.py: EEMD.eemd", "PyEMD/EEMD.py: EEMD._trial_update", "PyEMD/EEMD.py: EEMD.ensemble_mean"]}
{"id": "C111", "title": "Little noise never loses the first component", "statement": "With linear interpolation, a fixed number n of sifts per component and a signal that stays separated under those sifts, a change of every sample by at most e cannot make the first component disappear: the changed signal has one too, within e doubled n times. Hence in EEMD with noise of at most e every trial contributes to the first component and the mean is as near to EMD's; and CEEMDAN's first component is within epsilon times the standard deviation of the signal times the largest sample of the first noise modes, doubled n times, of EMD's, and tends to it as epsilon goes to zero, whatever the arrival order, the noise kind and beta_progress. Without the separation an epsilon of 1/20000 can bring out a component of height 2 where EMD finds none (refuted).", "quantifier": "all signals, n, epsilon, generators, standard deviations, numbers of trials, arrival orders and time arrays", "why_tests_cant": "a limit statement over every noise the generator may draw; a test draws a few", "anchors": ["PyEMD/CEEMDAN.py: CEEMDAN.ceemdan", "PyEMD/CEEMDAN.py: CEEMDAN._eemd", "PyEMD/EEMD.py: EEMD.eemd", "PyEMD/EMD.py: EMD.emd"]}
{"id": "C112", "title": "Threads sharing a CEEMDAN object", "statement": "Several threads call ceemdan on one CEEMDAN object with parallel=False, under any schedule of their accesses to its attributes. If no two threads are ever in a call at the same time, every outcome, and the object afterwards, is that of one thread making the same calls in the order in which they ended. Under every schedule each thread makes its calls in its order, a thread left to run finishes, and the rows a call returns have the length of its own signal and add up to it (exact arithmetic, signals that are not constant). More does not hold without taking turns: even if both threads decompose the same signal a call may raise IndexError, or return a first component twice too large; and when all calls have ended the components and the residue the object reports may belong to different signals (refuted).", "quantifier": "all numbers of threads, lists of calls, schedules, histories of the object, generators and inner decompositions; arithmetic is any, or exact for the sums", "why_tests_cant": "quantifies over every interleaving of attribute accesses, which tests do not control", "anchors": ["PyEMD/CEEMDAN.py: CEEMDAN.ceemdan", "PyEMD/CEEMDAN.py: CEEMDAN._eemd", "PyEMD/CEEMDAN.py: CEEMDAN._trial_update", "PyEMD/CEEMDAN.py: CEEMDAN.get_imfs_and_residue"]}
{"id": "C113", "title": "Threads sharing a JitEMD object", "statement": "Several threads call emd and get_imfs_and_trend on one new JitEMD object, under any schedule of their accesses to its attributes. Every decomposition returns, or raises, exactly what it would alone. A report raises TypeError or gives components and a trend of decompositions some thread was to make, never half of a pair, and TypeError never once a decomposition has returned; if all threads decompose the same signal in the same way it is the report after one such call. If no two threads are in a call at once everything is as in one thread. Each thread makes its calls in its order and a thread left to run finishes. But components and trend may come from different calls and add up to no signal (refuted).", "quantifier": "all numbers of threads, lists of calls, schedules, settings, spline oracles and arithmetics", "why_tests_cant": "quantifies over every interleaving of attribute accesses, which tests do not control", "anchors": ["PyEMD/experimental/jitemd.py: JitEMD.emd", "PyEMD/experimental/jitemd.py: JitEMD.get_imfs_and_trend", "PyEMD/experimental/jitemd.py: JitEMD.__call__"]}
{"id": "C114", "title": "Threads sharing an EMD_matlab object", "statement": "Several threads call emd on one EMD_matlab object, with float64 or int64 arrays, under any schedule of their accesses to the array type the object keeps. If all use float64, or all int64, every call returns, or raises, exactly what it would alone. Whatever the types, the rows of a call that returns have the length of its own signal and add up to it, up to a rest of total size at most 1e-10. If no two threads are in a call at once, every call gives what it gives alone, whatever the types. Each thread makes its calls in its order and a thread left to run finishes. But a thread with integers can change the rows another gets for floats: its signal may be cut to whole numbers (refuted).", "quantifier": "all numbers of threads, lists of calls, schedules, settings, spline oracles and (but for the sums) arithmetics", "why_tests_cant": "quantifies over every interleaving of attribute accesses, which tests do not control", "anchors": ["PyEMD/EMD_matlab.py: EMD.emd", "PyEMD/EMD_matlab.py: EMD.preparePoints", "PyEMD/EMD_matlab.py: EMD.splinePoints", "PyEMD/EMD_matlab.py: EMD.extractMaxMinSpline"]}
{"id": "C115", "title": "The white noise test and the level of the imfs", "statement": "In the a posteriori test nothing but the number of peaks of the reference imf matters: putting another imf with as many peaks in its place, however loud, gives the same outcome. So the verdicts are not relative to the reference: with the whole array times c, every other imf is significant exactly for c above some level (refuted: a common factor changes nothing). In the a priori test an imf is significant exactly for levels outside some band, and the verdict on it depends on nothing but this imf and alpha: not on its place, the other imfs or rescaling_imf.", "quantifier": "every array of imfs that are not identically zero, every confidence level, reference imf and factor; quantile function and peak counter arbitrary (for factors: peak counts that do not depend on the level)", "why_tests_cant": "equivalences over real-valued levels", "anchors": ["PyEMD/checks.py: whitenoise_check", "PyEMD/checks.py: significance_apriori", "PyEMD/checks.py: significance_aposteriori"]}
{"id": "C116", "title": "Which decomposition a Visualisation draws", "statement": "A Visualisation made from an EMD object after a successful run draws that run: one panel for each imf and the residue below. Nothing that follows changes this: further runs of the same object (successful or not), asking for results, assignments to the signal, to the returned array or to any other array. One made after the next successful run draws the next run; one made after a run that raised draws the run before it. Making a Visualisation and drawing (plot_imfs, plot_instant_freq) change no array and nothing the EMD object holds. The Visualisation has no copies: an assignment to the imfs handed out by get_imfs_and_residue is seen in its next figure; with an EEMD or CEEMDAN object so is an assignment to the array the run returned.", "quantifier": "every signal, time array, configuration, spline and number of imfs; every sequence of later decompositions, accessor calls and element assignments that leaves the two stored arrays alone; every way to call the plots", "why_tests_cant": "quantifies over all histories of calls and assignments on shared mutable arrays", "anchors": ["PyEMD/visualisation.py: Visualisation.__init__", "PyEMD/visualisation.py: Visualisation.plot_imfs", "PyEMD/visualisation.py: Visualisation.plot_instant_freq", "PyEMD/EMD.py: EMD.emd", "PyEMD/EMD.py: EMD.get_imfs_and_residue"]}
{"id": "C117", "title": "Instantaneous frequencies, units of time and levels", "statement": "plot_instant_freq draws frequencies per unit of time: with the times on a clock that runs c times as fast and starts elsewhere, every frequency is divided by c and nothing else changes (panels, captions, exceptions), with the low-order and the compact scheme, with and without filter. The level of the imfs does not matter: imfs times k give the same picture whenever the analytic signal of k times a row is k times that of the row and the angle does not depend on the factor. The filter filt6 of k times a sequence is k times the filtered sequence; the derivative pade6 with step c h is 1/c times that with step h. Filter and derivative superpose: of the sum of two sequences of one length they are the sums of those of the parts.", "quantifier": "every factor c other than 0, origin, time array, array of imfs, order, filter intensity, Hilbert transform, angle and phase unwrapping; exact arithmetic", "why_tests_cant": "equalities for all real factors and sequences of any length", "anchors": ["PyEMD/visualisation.py: Visualisation.plot_instant_freq", "PyEMD/visualisation.py: Visualisation._calc_inst_freq", "PyEMD/visualisation.py: Visualisation._calc_inst_phase", "PyEMD/compact.py: filt6", "PyEMD/compact.py: pade6"]}
