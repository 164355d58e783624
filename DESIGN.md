# Formal model of PyEMD: design

## Shape of the model

* Rocq/Coq 8.16.1. Sources are in `rocq/theories`, logical name `Verif`.
* Every modelled function is a total computable Gallina function that follows the Python
  function branch by branch. The comment above each definition cites the file and lines in
  `/repo` and names simplifications.
* Exceptions are values (`res A = Ok a | Raise e`). Loops are structural recursion or recursion
  on fuel. Running out of fuel is the distinguished value `Raise OutOfFuel`; no theorem counts
  it as a normal result. Where a loop of the code is bounded, a theorem says how much fuel
  suffices (`C05_limited_run_ends`, `C44_terminates`, `C61_*_ends`), and `C05_fuel_irrelevant`
  says that more fuel changes nothing.
* The arithmetic is a parameter (`Num A`, file `Num.v`). The same functions are used at exact
  rationals (`Qc`) and at IEEE binary64 (Flocq, file `Float64.v`). Control-flow, shape and
  aliasing theorems hold for every arithmetic. Algebraic theorems are about `Qc`. `Checks.v` is
  about real numbers.
* C90 also trusts that `Kinds.v` states SciPy's formulas correctly (they are not in `/repo`).
* Code outside `/repo` enters as an argument of the model functions, never as an axiom: SciPy's
  interpolation routines, NumPy's random generator, `np.std`, the pool's order of completion,
  scikit-image's reconstruction, the 2D interpolators. Theorems say in their hypotheses what they
  need from it (for instance `interpolates spl`), and beside each theorem an example shows that
  some routine satisfies it.
* Files come in groups: `X.v` is the model, `XSpec.v` the vocabulary in which the properties are
  stated (no use of the model's helpers where the property is about values), `XProofs.v` and
  others are proofs, `Props_X.v` holds the theorems, each closed by a reference to a lemma and
  followed by `Print Assumptions`, and the examples that meet their hypotheses.

## Trusted base

1. Coq's kernel (8.16.1), including its `vm_compute`. No kernel check is switched off, there are
   no axioms, parameters, admitted proofs or open obligations in `rocq/theories`, no functors
   and no module types.
2. `Print Assumptions` prints "Closed under the global context" for every theorem except those
   named `C19_*`, `C36_binary64_refuted`, `C96_binary64_refuted`, `C49_*`, `C97_*` (but `C97_rows`, `C97_limit`, `C97_adds_up`, `C97_same_type`), `C76_*`, `C79_*`, `C80_defaults`, `C83_*`, `C86_jit`, `C89_float`, `C47_*` (but `C47_not_array`), `C48_*`, `C115_*` and
   `C71_*` (but `C71_types`).
   For these it lists the standard library's axioms of the real numbers and of classical logic:
   `ClassicalDedekindReals.sig_not_dec`, `ClassicalDedekindReals.sig_forall_dec`,
   `FunctionalExtensionality.functional_extensionality_dep`, `Classical_Prop.classic`.
   (`C47_*`, `C48_*`, `C115_*` are about real numbers; `C19_*`, `C49_*`, `C97_*`, `C36_binary64_refuted`, `C96_binary64_refuted`, `C71_*`, `C76_*`, `C79_*`, `C80_defaults`, `C83_*`, `C86_jit`, `C89_float` use
   Flocq's binary64, whose rounding is specified with real numbers.)
3. The readings of Python and NumPy in `Py.v` (indexing with negative indices, slicing with
   clipping, `np.take`, `np.diff`, boolean masks, broadcasting of equal lengths or length one,
   `np.max` on empty arrays), in `Heap.v` (which expressions allocate, which are views), in
   `Utils.v` (NumPy's promotion table) and in the model of each class (its own file).
4. That the model follows the code. `/repo` was read as text; nothing was run. Where the tests of
   the repository give numbers, `Conformance.v` and the examples beside the theorems evaluate the
   model on them.
5. For C32 and the parallel half of C28-C31: `multiprocessing.Pool.map` splits the work into
   chunks of `ceil(n / (4 * processes))` consecutive items, pickles the bound method once per
   chunk, and returns results in order; `imap_unordered` returns them as they are completed. For
   C96: an idle worker takes the first task of the queue, workers do not die, and `MapResult` keeps
   the first exception that arrives (as in multiprocessing/pool.py of Python 3.11).

Arithmetic that is not rounding: division by zero. Python raises for scalars of the language and
NumPy gives inf or nan; `Qc` has neither. In `check_imf` the model guards the zero denominators
(inf and nan are never below a threshold). In CEEMDAN (a signal of zero standard deviation) and
EMD2D (an image of one grey level) the code goes on with nan: C62 states the EMD2D case with an
explicit exception value, and C34, C35_stop_reasons, C56, C57 assume a nonzero standard deviation
of the signal. CEEMDAN also divides each noise by the deviation of its first mode; in `Qc` a zero
there gives zero, in NumPy nan.

## What is modelled

| File in /repo/PyEMD | Modelled | Not modelled |
|---|---|---|
| EMD.py | the constructor (`Ctor.v`), all methods of class EMD on values (`Extrema.v`, `Prepare.v`, `Spline.v`, `Emd.v`), on narrower arrays (`Narrow.v`), on mutable arrays (`Heap.v`) and in threads (`Threads.v`) | logging; the `__main__` demo (962-1012); integer arrays are in `Typed.v`, float32 and float16 in `Narrow.v`, but for more than 65503 samples of float16; `__call__` |
| splines.py | `cubic_spline_3pts` exactly; the SciPy wrappers as arguments everywhere, and in C90 by SciPy's documented formulas (`Kinds.v`) | SciPy's binary64 evaluation of them |
| EEMD.py | all of `eemd` and its helpers (`Eemd.v`, `HeapEemd.v`, integer signals in `TypedMore.v`), statistics (`EemdStats.v`), the dictionary of the ensemble with its lists and arrays (`EemdAsk.v`), one EMD object shared by several ensembles (`SharedEmd.v`), generator state, chunks of the pool, opening and closing of pools (`PoolLife.v`), copies of objects (`Copies.v`), threads without worker processes (`EemdThreads.v`) | progress bar, the pickle format |
| CEEMDAN.py | all of `ceemdan` and its helpers (`Ceemdan.v`, `HeapCeemdan.v`), opening and closing of pools (`PoolLife.v`), copies of objects (`Copies.v`), threads without worker processes (`CeemdanThreads.v`, `Steps.v`) | progress bar, the pickle format |
| EMD2d.py, BEMD.py | both classes (`Image.v`, on mutable arrays in `HeapImage.v`, integer images of EMD2D in `TypedMore.v`) | the thin-plate and bivariate splines and scikit-image (arguments) |
| EMD_matlab.py | class EMD on values (`Matlab.v`), on integer arrays (`MatlabInt.v`), on mutable arrays (`HeapMatlab.v`) and one object in several threads (`MatlabThreads.v`) | overflow of int64, narrower types, plots |
| compact.py | everything (`Compact.v`) | |
| checks.py | everything (`Checks.v`) | rounding, infinite samples |
| utils.py | everything (`Utils.v`) | complex, boolean and extended dtypes |
| visualisation.py | the control flow and the plotted data (`Vis.v`), also with arrays as mutable objects (`HeapVis.v`) | drawing itself, text layout |
| experimental/jitemd.py | class JitEMD (`Jit.v`), its shared settings and views (`JitObj.v`), threads (`JitThreads.v`) | numba's compilation; out-of-bounds reads (the model keeps IndexError) |
| types.py, tests, example, perf_test, doc | | no behaviour of the library |

## How each property is treated

A name ending in `_refuted` is a theorem that the natural claim is false, by a witness.

| Property | Model | Proof |
|---|---|---|
| C01-C04, C09, C13, C14 | `Emd.v`: `emd`, loops, object state | induction on the loops, invariants (`EmdProofs`, `EmdExact`, `EmdTop`) |
| C05 | the same | fuel bounds; an interpolation routine for which the unlimited run never ends (`Diverge.v`) |
| C06-C08, C52, C53 | `sift`, `check_imf`, `end_condition` | every run is a list of sifts with the stated stop (`EmdStop`) |
| C10-C12 | `emd_time`, `normalize_time` | algebra in `Qc` |
| C15-C18 | `find_extrema_simple`, `zero_crossings` | runs of a boolean mask, order arguments (`Runs`, `ExtremaSpec`) |
| C19, C49 | the same model at binary64 | exactness of comparisons of differences; Flocq's rounding lemmas; witnesses (`Float64Proofs`) |
| C20-C22 | `prepare_points_simple`, `spline_points` | case analysis of the boundary rules on integer positions (`PrepareProofs`, `PreparePlan`, `EmdSimple`) |
| C23 | `find_extrema_parabol` | algebra of one parabola, induction over triples (`ParabolProofs`) |
| C24 | `prepare_points_parabol`, `emd` | alternation on curved signals, coverage, blame for exceptions (`ParabolPrepare`, `ParabolAlt`); witnesses |
| C25 | `cubic_spline_3pts` | algebra in `Qc` (`SplineProofs`) |
| C26, C27 | `Utils.v` | arithmetic of the value sets of dtypes; nearest numbers of a floating type (`UtilsRound`); witnesses |
| C28-C33 | `Eemd.v` | induction on trials and chunks (`EemdProofs`, `EemdExact`) |
| C34-C37, C55-C57 | `Ceemdan.v` | loop invariant, permutation of accumulation, scaling simulation (`CeemdanProofs`, `CeemdanExact`) |
| C38-C40 | `Compact.v` | induction on system size; diagonal dominance; polynomial identities (`CompactProofs`, `CompactSchemes`, `CompactExact`) |
| C41-C43, C58-C63 | `Image.v` | loop invariants, reflection arithmetic, reachability for reconstruction (`Image*.v`, `BemdProofs`, `Recon`) |
| C44, C45 | `Matlab.v` | loop invariants; equality with `Extrema.v`, `Prepare.v` (`MatlabProofs`, `MatlabRun`) |
| C46 | `Jit.v` | equality with `Emd.v` branch by branch (`JitProofs`) |
| C47, C48 | `Checks.v` | decision table; monotonicity of exp and log |
| C50 | `Heap.v` | refinement of `Emd.v` with ownership of arrays; histories of client writes (`HeapProofs`, `HeapClient`) |
| C65 | `HeapEemd.v`, `HeapCeemdan.v` | the same for the ensemble classes |
| C66-C68 | `Emd.v` | simulation of the run on the transformed signal, step by step (`EmdSym`); witnesses |
| C69 | `Eemd.v`, `EemdStats.v` | columns of the trials; algebra of sums of squares (`StatsProofs`) |
| C70 | `Ctor.v` | case analysis of keyword lists (`CtorProofs`) |
| C71 | `Typed.v` | exactness of integers up to 2^53 in binary64 (`TypedFloat`, `TypedProofs`) |
| C72 | `Typed.v` | comparison of the index lists with those of the exact signal (`IntExtrema`) |
| C73 | `TypedMore.v` | equality of the scale factors; sum of the rescaled components (`TypedMoreProofs`) |
| C74 | `Eemd.v`, `Ceemdan.v` | simulation of the run on the converted signal (`EnsembleUnit`) |
| C75 | `Image.v` | equality of the scaled images; prefix of the list of components (`ImageUnit`) |
| C76 | the decompositions at binary64 | error bounds of sums, products and quotients, composed (`FloatEnsemble`, `FloatImage`); rounded sums of sizes are at least each of them (`FloatMatlab`) |
| C77 | `Extrema.v`, `Prepare.v`, `Spline.v`, `Emd.v` | the boundary code at one end mirrors that at the other (`Reverse`); induction on both loops (`ReverseEmd`); linear interpolation meets the hypothesis (`ReverseLin`) |
| C78 | `Emd.v`, `Ceemdan.v`, `Image.v`, `Matlab.v` | the outer loop with a limit is a prefix of the loop with a looser one (`Limit`); witness for the default rule |
| C79 | the models in binary64 | an operation with a finite result has finite operands; `np.min` and `np.max` let NaN through (`FloatNan`) |
| C80 | `JitObj.v`: dictionaries, returned arrays and objects in one world, histories of operations on it | induction on the history (`JitObjProofs`) |
| C81 | `Image.v` | simulation: every step keeps the turned image turned; peaks, sums and comparisons depend on the pixels, not their order (`Turn`, `TurnBemd`); surfaces weighted by distance meet the hypothesis |
| C82 | `Emd.v`, `Jit.v`, `Matlab.v` | the outer loop passes through every prefix of its rows and depends only on what these leave; the count of extrema carried along matters only when no sift is made (`Peel`) |
| C83 | `Emd.v`, `Float64.v` | a simulation between the runs on the two signals, for every arithmetic whose operations are symmetric about zero (`NegGen`, `NegEmd`); binary64 is one, by Flocq's correctness theorems (`NegFloat`), and tells 2^53 sample indices apart (`NegTime`) |
| C84 | `Emd.v`, `Prepare.v`, `Spline.v` | the mirrored points contain the extrema and surround the samples (C20), so the window keeps every sample and the knots' values come out at the extrema; the three-point spline is the natural spline (C25); the mean of the envelopes is subtracted (`Envelope`) |
| C85 | `HeapMatlab.v` | a simulation of `Matlab.v` on memory: sifting only makes arrays, the outer loop assigns into one array of its own; frames say what stays (`HeapMatlabProofs`) |
| C86 | `Jit.v`, `Matlab.v`, `Float64.v` | as C83, for every arithmetic symmetric about zero; the compiled loop over plateaus equals the array expression (`NegJit`, `NegMore`); a witness flat at both ends for EMD_matlab |
| C87 | `Emd.v`, `Jit.v`, `Matlab.v` | the sifts of an IMF as a list; the counter `n_h` equals the length of the last run of balanced sifts (`Stop`); induction on the sifting loop with the past as a parameter (`Stop`, `StopJit`, `StopMatlab`) |
| C88 | `Eemd.v`, `Ceemdan.v` | induction on histories (`FailedSpec`, `Failed`); no step after the trials can raise, as all rows have the signal's length |
| C89 | `MatlabInt.v` | invariants of the loops: whole envelopes, proto-IMFs that are multiples of one half (`MatlabIntProofs`), also under rounding (`FloatMatlabInt`); simulation by the floating point code with truncating interpolation (`MatlabIntCut`) |
| C90 | `Kinds.v` | one `rule` record for the four ways to choose slopes (`KindsProofs`, `KindsRules`, `KindsCubic`); uniqueness of the cubic spline through the tridiagonal system of C38 (`KindsOnly`); slopes of pchip are at most three chords steep, hence monotone pieces (`KindsMono`); envelopes and EMD (`KindsAll`); polynomials reproduced: by uniqueness for cubic, by the slopes chosen for the others (`KindsExact`); quadratic: slopes at the knots from a second tridiagonal system (`KindsQuad`), uniqueness of the parabolas that join halfway (`KindsArcs`) |
| C91 | `Spline.v`: `parse_kind`, `spline_points` | lower case of a character against a table of letters and capitals (`NamesProofs`), congruence of the loops in the name (`renamed_emd`), first sift raises (`NamesEmd`) |
| C92 | `HeapImage.v`: `emd2d_h`, `bemd_h` on a memory of arrays | both agree with the functions on values and only append to the memory (`does`), the last page assigned in place belongs to a new array; induction over histories (`HeapImageProofs`) |
| C93 | `Kinds.v`, `Emd.v` | envelopes of monotone kinds stay in range (C90), induction on the components with C06 (`KindsRange`); one witness for the four other kinds |
| C94 | `Matlab.v`, `Jit.v`, `Eemd.v`, `Ceemdan.v`, `Kinds.v` | EMD_matlab: the additional minimum of flat ends still alternates with the maxima, so its knots are as EMD's (C20) and every curve exists (`ReturnsMatlab`); JitEMD from C46; EEMD and CEEMDAN: every step after the inner decompositions succeeds (`ReturnsEnsemble`, `ReturnsCeemdan`); one witness for the exception of separate_trends |
| C95 | `Emd.v`, `Prepare.v`, `Kinds.v`, `Jit.v` | the knots listed by C21 are extrema or the end samples, and an end sample is used only where it reaches the level (`Osc`); each kind draws a constant through knots of one height (C90, and the spline of three points through its response to a change of unit); the second sift is the identity, so no stopping rule matters; the second component would be a constant and is dropped; JitEMD from C46 |
| C96 | `Pool.v` (pools as transition systems; `MapResult` of CPython's pool.py; `eemd` and `ceemdan` under a given order of completion) | the orders of completion by an invariant of runs and, conversely, a greedy schedule; the exceptions by the tasks that must be running together; EEMD's chunks all start from one copy of the object, so that all that fail fail alike; CEEMDAN's sum does not depend on the order in exact arithmetic (C36) |
| C97 | `Narrow.v` (EMD.emd with one type for the arrays it works on and another for those it returns), `Float32.v` (IEEE binary32 and binary16, conversions) | the invariants of C01-C07 with the conversions in between; the residue by the error bound of one float64 subtraction and of the sum; extrema by the sign lemmas of C19 for any IEEE format, the bound being half the exponent of the smallest subnormal; the differences by runs |
| C98 | `eemd` and `ceemdan`; `MirrorSpec.v` | both operations commute with sums, means, differences and broadcasting of rows of one length and keep range and power; simulation of the run by the turned run, step by step; C66 for EMD inside |
| C99 | `bemd` and `emd2d`; `NegativeSpec.v` | minima and maxima swap; envelopes, means and tests respond; simulation of the run by the run on the negative; with EMD2D the scaled image becomes 1 - x, and after one sift the shift has cancelled; witness for the other rules |
| C100 | `ask_eemd`, `ask_order`, `ask_mean`, `ask_std`: the dictionary itself, with lists and arrays told apart; `AskSpec.v` | erasure to `eemd`; an invariant with two cases (arrays in a dict, lists in a defaultdict) kept by every action; two witnesses |
| C101 | `perform`, `perform_all`: one EMD object, lists of EEMD and CEEMDAN objects holding it, a program over all of them; what CEEMDAN leaves in the EMD object is an arbitrary function; `SharedSpec.v` | EMD's results do not depend on its state, lifted through a run and a program; the last trial of a serial run; a witness |
| C102 | `exec1`, `exec`: objects with a common part (generator, EMD object) and an own part (stored results), copied shallowly or deeply; `eemd_kind`, `ceemdan_kind`; `CopiesSpec.v` | runs ignore stored results; a family's common part evolves as one object, by induction on the program; a witness |
| C103 | `advance`, `tick`, `run`: threads whose steps are single accesses to `imfs` and `residue`, any schedule (a list of thread numbers); `ThreadsSpec.v` | an invariant over any predicate on what is stored, preserved by every step, instantiated three times; a second invariant under taking turns; a decreasing measure per thread; witnesses |
| C104 | `find_extrema` on a signal and on the signal with more samples (`Extrema.v`) | the characterisations of C16 and C18 are local, and new hills lie after old ones; the parabola through a flat end has its vertex outside its window (`StreamProofs.v`); witnesses |
| C105 | `eemd_events`, `ceemdan_events`: the runs of `Eemd.v` and `Ceemdan.v` with a list of the pools opened and closed (`PoolLife.v`); `held`, `one_at_a_time` (`PoolLifeSpec.v`) | erasing the list gives the original runs; cases over the places that can raise; induction over programs (`PoolLifeProofs.v`); a program of n failing runs |
| C106 | `one_sift` over `scipy_spl` (`Emd.v`, `Kinds.v`); `agree`, `no_flat`, `framed`, `shielded` (`LocalSpec.v`) | the knots between two common extrema are the common extrema, so both envelopes contain the same block of knots; segments and slopes read at most two knots to each side (`LocalProofs.v`); induction over the sifts; concrete signals for the refutations |
| C107 | the same model; `close`, `separated`, `same_shape`, `robust` (`NearSpec.v`) | detection and mirroring read only the order of certain pairs, so both signals have the same plan of knots (`left_plan`, `right_plan` of C21); straight lines are convex combinations; induction over the sifts (`NearProofs.v`); a pair of staircases for the refutation |
| C108 | `one_sift` and `emd` over `scipy_spl` (`Emd.v`, `Kinds.v`); `rides`, `swings`, `steeper`, `deep` (`DriftSpec.v`) | steeper steps keep the places of the extrema, so the knots of a stretch lie on two shifted copies of the trend; the local rules reproduce it between them; induction over the sifts (`DriftProofs.v`); three runs for the refutations |
| C109 | `eemd` with `emd_decomposer scipy_spl` (`Eemd.v`, `Kinds.v`); `confined`, `faint` (`FaintSpec.v`), `robust_parts` (`NearSpec.v`) | every trial is a signal within e, so C107 applies to it; a mean of rows near a row is near it; a smaller error keeps the separation, so a width can be chosen for each tolerance (`FaintProofs.v`); one run for the refutation |
| C110 | `eemd` as a program of attribute accesses, dictionary operations and generator draws (`EemdThreads.v`); `taking_turns`, `object_of`, `outcomes` (`EemdThreadsSpec.v`) | the program run alone is `eemd` of `Eemd.v` (the dictionary stays a defaultdict of lists until line 220, its keys are distinct); invariant over the schedule: at most one thread is in a call and its rest leads where the whole would have led (`EemdThreadsProofs.v`); three schedules for the refutations |
| C111 | EMD, EEMD, CEEMDAN as before; bound on the first noise modes `calm` (`CalmSpec.v`) | with n fixed sifts a component is dropped exactly if some sift meets fewer than three extrema; numbers of extrema agree along the two sifts (`sift_follows`); CEEMDAN's recurrence (C57) with the change of unit (C90) and the mean of near rows; the drawn noise does not depend on epsilon (`calm_ex`) (`CalmProofs.v`) |
| C112 | `ceemdan` as a program of attribute accesses (`CeemdanThreads.v`) over threads and objects of any kind (`Steps.v`); `fits_any`, `ceemdan_object`, `one_call` (`CeemdanThreadsSpec.v`) | the program run alone is `ceemdan` of `Ceemdan.v` (adding up trial by trial never fails on rows of one length, so errors come in the same order); an invariant over the schedule for turns, and a property of all ways a call can go on, whatever it sees, for the sums (`StepsProofs.v`, `CeemdanThreadsProofs.v`); three schedules for the refutations |
| C113 | both methods of JitEMD as programs of attribute accesses (`JitThreads.v`, `Steps.v`); `jit_one_call`, `some_result` (`JitThreadsSpec.v`) | rely and guarantee: attributes only get filled, with parts of results, `imfs` before `residue` (`Guarded.v`, `GuardedLog.v`, `JitThreadsProofs.v`, `JitThreadsLog.v`); turns as in C112; one schedule for the refutation |
| C114 | `emd` of EMD_matlab as a program of accesses to `DTYPE` (`MatlabThreads.v`, `Steps.v`); `m_alone` (`MatlabThreadsSpec.v`) | a program that always finds one type gives the result of `Matlab.v` or `MatlabInt.v`, and others keep the type by rely and guarantee (`Guarded.v`, `MatlabThreadsProofs.v`); lengths and sums whatever is found; turns as in C112; one schedule for the refutation |
| C115 | `Checks.v`; `amplified`, `level_free` (`ChecksLevelSpec.v`) | the closed form of the verdicts (C47) and monotonicity of log and square root (`ChecksLevel.v`); a level between two verdicts for the refutation |
| C116 | `HeapVis.v`; `figure`, `stored_left_alone` (`HeapVisSpec.v`) | the frames of C50 (an array keeps its contents until somebody assigns into it) and the figures of C51 (`HeapVisProofs.v`) |
| C117 | `Vis.v`, `Compact.v`; `other_clock`, `redrawn`, `louder` (`VisUnitsSpec.v`) | each statement of the schemes and of the elimination commutes with a factor (`VisUnits.v`) and with sums (`VisSum.v`) |
| C51, C64 | `Vis.v` | decision table; algebra of phase differences |

No property of the list is left without a model. Properties whose natural statement is false are
stated in `properties.jsonl` with what holds instead; both halves are theorems.

## Findings

Refuted claims (witness theorems): unlimited EMD need not end (C05); a decreasing time axis is
accepted and normalised wrongly (C11); `get_imfs_and_trend` raises IndexError on a negligible
signal (C14); plateaus at samples 0 and 1 (C16); underflow hides extrema of small signals and
makes `emd` raise (C19); `nbsym=0` does not cover the time range (C20); one sample raises (C22); a
straight line can have a minimum in 'parabol' mode (C23); terraces make 'parabol' mode raise (C24);
`get_timeline` repeats values in float16 and float32 (C26); `unify_types` loses precision for 64-bit
integers (C27); parallel EEMD uses the same noise in every chunk, and in repeated calls (C32);
parallel CEEMDAN depends on the order of completion in binary64 (C36, C96), and so does the
exception it raises (C96); noise scale 0 makes CEEMDAN
raise (C37); `alpha=0.5` does not switch `filt6` off (C39); `pade6` fails on six samples (C40); FIXE in
2D means k+1 sifts (C43); EMD_matlab ignores `maxImf=1` (C44) and can report an extra minimum (C45);
JitEMD differs for other times, two spline kinds, negligible signals (C46); an all-zero imf raises in
`whitenoise_check` (C47), the rescaling imf can be significant (C48, `exp(T)/2` for `exp(T/2)`);
reconstruction in binary64 is not exact (C49); a float32 signal does not have the components of its
float64 copy and a float16 signal swinging by 0.0001 has none, and one of 2050 samples raises (C97); a single panel cannot be plotted and truthy values
overdraw (C51); BEMD reads grey levels at transposed pixels (C59); EMD2D need not end (C61); constant
images (C62); BEMD's mean-square threshold is dead (C63); uneven times in `plot_instant_freq` (C64);
parabolic detection is not symmetric under negation (C66); the standard stopping rule depends on the
unit and on a constant offset of the signal (C67, C68); a serial EEMD run that raises leaves an ensemble
that does not belong to the stored result (C69); EMD's `DTYPE` and EEMD's `seed` have no effect and
CEEMDAN's thresholds leak into its inner EMD (C70); narrow integer times wrap around and make 'parabol'
mode raise (C71); `find_extrema` on integer arrays overflows and is blind on unsigned ones (C72); the
scales of EEMD and EMD2D overflow for narrow signed integers (C73); negation is not respected by the
ensemble methods (C74); EMD2D's end condition and BEMD's maxima depend on the unit of the image (C75); a signal with
plateaus read backwards does not give the decomposition read backwards (C77); with the default
stopping rule `max_imf=1` can give no IMF although the unlimited run finds one (C78); one NaN pixel makes
all of EMD2D's result NaN (C79). JitEMD objects made without settings share one dictionary: a setting changed
through one changes the others (C80). BEMD of an image turned upside down is not the turned decomposition (C81). EMD of a residue below the thresholds can find another IMF in it (C82). A residue of zeros is +0 for a signal and for its negative (C83).
Between its maxima the upper envelope can lie below the signal (C84). EMD_matlab can decompose a signal flat at both ends
and its negative differently (C86). Shallow copies of an EEMD object share its generator, so running one changes what the other returns (C102). An EMD object used from two threads at once may return a result that ends with the other thread's residue and does not add up to its signal, or raise ValueError, and its report may join two calls (C103). An extremum reported at a flat start can vanish, and a zero crossing at the last sample can move, when samples are appended; one more sample can change the first component everywhere (C104). A parallel run of EEMD or CEEMDAN that raises inside its pool does not close it (C105). With the default cubic spline a change at the end of a signal can alter a sift far from it; linear, pchip and cubic_hermite envelopes confine it to the last few extrema (C106). A change of a thousandth in some samples can bring about a component that reaches 2 (C107). A straight trend under an oscillation is taken away exactly only away from the ends, and by the cubic spline not even there (C108). EEMD with little noise is near EMD only where neighbouring samples and the ends are separated: on equal neighbours noise of a thousandth brings out a component of height 1 (C109). An EEMD object with `parallel=False` used from two threads at once may return the components of the wrong signal or an empty array, or raise AttributeError (C110). A signal with equal neighbours gets a first component of height 2 from a CEEMDAN run with epsilon 1/20000 although EMD finds none; for separated signals the first component is stable (C111). A CEEMDAN object used by two threads at once may raise IndexError, double its first component, or report components and a residue of different signals, though the rows a call returns always add up to its own signal (C112). `get_imfs_and_trend` of a JitEMD object used by several threads may give the components of one signal with the trend of another (C113). One EMD_matlab object keeps one array type for all threads: a thread with integer arrays can cut the floating point signal, knots or envelopes of another to whole numbers, so that a signal below 1 comes out as a zero row and a rest (C114). The a posteriori white noise test computes the energy of the reference imf and never uses it (checks.py:116), so that multiplying all imfs by one number changes its verdicts (C115). A Visualisation holds the arrays of the EMD object and no copies: it does not follow later runs, but an assignment to the imfs that get_imfs_and_residue handed out changes its next figure (C116). An EMD object given as `ext_EMD` no longer reports its own last call after a serial EEMD run (C101). After an EEMD run that raised, the ensemble and the result an object reports belong to different runs (C88). After a serial EEMD run that raised, `ensemble_mean` and `ensemble_std` raise AttributeError although the object has results, and reading a missing order of `all_imfs` adds it to the counts (C100). EMD_matlab decomposes an integer signal differently from the same signal as floats (C89). With cubic, akima, cubic_hermite or quadratic an envelope can leave the range of the signal (C90_overshoot_refuted).
A NaN in one sample makes EMD_matlab drop its residue from all samples (`C76_matlab_nan_refuted`). EEMD with `separate_trends` raises IndexError when a noisy copy is all but zero (`C94_trends_refuted`). EMD2D's default stopping rule can treat a picture and its negative differently (`C99_emd2d_refuted`).

Further observations made while reading, partly consequences of theorems:

* A proto-imf that is left with at most two extrema after its last sift is dropped into the residue
  although it may be a valid imf (C52).
* `max_imf=0` means no limit (C04). `EEMD(max_imf=k)` as a constructor argument is ignored.
* A constant signal makes CEEMDAN divide by a zero standard deviation; its `E_IMF` is left
  unnormalised in the object.
* EMD2D's end condition compares the unscaled image with scaled components.
* `EMD.emd` returns a fresh array, but `get_imfs_and_residue` hands out the stored arrays, and
  `EEMD.eemd` and `CEEMDAN.ceemdan` return the stored array itself (C50, C65).

## Testing the theorems

`seeded/LOG.jsonl` lists edits of the model that mimic realistic bugs, the theorems that then fail,
and the theorems that were added or tightened because an edit went unnoticed. An edit is judged by
rebuilding everything that depends on it, with the failing lemmas admitted one by one in the scratch
copy, so that the list of failed theorems is the list of those whose proof is really lost.
