# Formal model of alexander-yu/stream in Coq 8.16.1

Layout (`rocq/theories`):

* `*Spec.v`  small, model-independent specifications (history, live window, order statistics, central sums, ...).
* `*Model.v` Gallina transcription of the Go code, function by function, with file:line citations.
* `Props*.v` the property theorems, each followed by `Print Assumptions`, and `Example`s showing that concrete,
  non-trivial cases meet their hypotheses.
* every other file: lemmas.

A property that is false of the code has a theorem `..._refuted` (a history on which it fails, often a whole family of
histories) and, where something useful remains true, theorems `..._partial`. `MANIFEST.json` gives such properties the
status `partial` and says in the note what is missing.

## Modelling decisions

* **Outcome of a Go call**: `res A := Ok a | Err e | Panic | Hang | NoFuel`. `Err` is a returned error, `Panic` a Go run-time
  panic (nil dereference, index out of range, integer division by zero), `Hang` a call that blocks forever on the ring
  buffer, `NoFuel` exhaustion of the explicit fuel used for non-structural loops. Theorems claim `Ok`, which excludes the rest.
* **float64 for order-based code** (min/max, trees, skip list, heaps, quantile): Flocq's `binary_float 53 1024`
  (one NaN, signed zeros, infinities). Comparisons are defined on the exact value and proved equal to Flocq's
  `Bcompare`; arithmetic is Flocq's round-to-nearest-even.
* **float64 for moment and joint code**: the code is modelled once, polymorphic in a record `Num` of arithmetic operations.
  It is instantiated (a) with exact extended reals (finite reals, Inf, NaN, so that 0/0 is visible) for the algebraic
  theorems, (b) with binary64 (`FN`) for the error bounds (C48-C50), NaN (C51), constant streams (C61) and the refutations that
  depend on rounding, (c) with rationals where an exact execution is needed.
* **Go int**: `Z`. 64-bit wrap-around is written explicitly where it matters (factorials, binomials, tuple hash and `abs`).
  Counters, sizes and indices are taken as unbounded.
* **Ring buffer** (workiva/go-datastructures v1.0.50, not in /repo): FIFO with capacity rounded up to a power of two;
  Put on a full and Get on an empty buffer block. **Deque** (gammazero): a list; Front/Back/Pop panic when empty.
* **container/heap** (Go standard library): transcribed (up, down, Init, Push, Pop, Fix, Remove).
* **Pointers**: trees are inductive values (the code never shares subtrees); the skip list and heap items, where identity
  and sharing matter, live in an explicit store. Slices passed by the caller to joint metrics live in an explicit memory
  (`AliasModel.v`), and so does the array of the reservoir (`ReservoirMem.v`).
* **Concurrency**: small-step interleaving semantics over explicit lock instructions; sync.RWMutex with writer preference.
* **Randomness**: the skip list uses an arbitrary sequence of numbers (for C70, independent ones, each from a list of equally
  likely numbers); the reservoir an ideal uniform source, as a finite
  distribution with rational weights.
* **Running time** (`CostModel.v`): the trees, the skip list, the heap, Min, Max and the cores again, counting calls of recursive functions and
  iterations of loops. `CostErase.v` proves that each function gives the same result as the one of the other model files. Allocation,
  garbage collection, the ring buffer, the deque, map accesses, the cache of factorials and locks count as no step.

## Plan per property

| id | model | proof |
|----|-------|-------|
| C01,C02 | MinMaxModel: deque+ring | invariant: deque = suffix minima of live window, induction over history |
| C03 | same, NaN inputs | refuted for every window and history; what does hold proved as partial |
| C04,C05,C06 | AvlModel | invariant (wf, sorted, sizes, heights), induction; Rank refuted with duplicates, partial otherwise |
| C07,C08 | RbModel (fuel for remove) | LLRB invariant modulo root colour; no panic; height bound; refuted with duplicates |
| C09,C10,C47 | SkipModel: store of nodes | chain invariant per level; widths for distinct values; with duplicates the widths still err in one direction only |
| C11-C15,C45 | QuantileModel | refinement to sorted live window; Flocq rounding monotonicity for the index |
| C16-C18 | HeapModel | heap order invariant; windowed median refuted |
| C19-C24 | MomentModel polymorphic in arithmetic | binomial theorem, induction over history; overflow refutations |
| C25 | MomentModel in binary64 | refuted with a window; without one the accumulated squares stay nonnegative |
| C26-C34 | JointModel, JointConf, AliasModel | multi-index binomial theorem; double-removal, aliasing, hash refutations |
| C35 | all models | state equality / corollary of the history theorems |
| C36,C37,C46 | ReservoirModel, ReservoirMem | induction; exact distribution over the choices |
| C38,C39 | AggModel | all interleavings of goroutine steps |
| C40,C41,C42 | ConcModel, LockModel | mutual exclusion invariant, linearization at lock acquisition; deadlock witnesses |
| C43 | NameModel | injectivity of decimal printing |
| C44 | EffModel | every call gives a state, also when it returns an error |
| C48-C50 | MomentModel in binary64 | forward error analysis as an invariant over histories (CoreInv, FloatMean, FloatErr) |
| C51 | MomentModel in binary64 | a state with a NaN mean is absorbing (NanCore) |
| C52 | all models, any values | invariants on shapes and sizes that do not mention the order of values (TotalProof, TotalQuant, TotalHeap); false with NaN for HeapMedian and skip lists |
| C53 | QuantileModel, HeapModel | false: counterexamples (PropsMemory) |
| C54 | MinMaxModel, QuantileModel, HeapModel, MomentModel, JointModel | sizes from the invariants of C01, C13, C18, C52; false with NaN, by induction on the number of pushes (PropsMemory) |
| C55 | QuantileModel in binary64 | from C11: bounds between neighbouring order statistics, rounding of the midpoint and of the linear combination (QuantOrder); false for linear |
| C56 | QuantileModel in binary64 | from C11: monotone rounding of phi*(n-1), then by mode (QuantOrder); false for linear |
| C57 | MomentModel, JointModel over XN | from C20, C21, C28-C30: affine laws of the specifications (LawProof) |
| C58 | MomentModel, JointModel over XN; MinMax, Quantile, HeapMedian in binary64 | specifications are invariant under permutation (LawProof, OrderLaw); false for the moments in binary64 |
| C59 | JointModel over XN and binary64 | Cauchy-Schwarz from C28-C30; false in binary64 |
| C60 | MinMaxModel, QuantileModel in binary64 | order statistics commute with monotone maps (OrderLaw) |
| C61 | MomentModel in binary64 | invariant: all sums are zero and the mean is x, all factors stay finite (ConstProof) |
| C62 | ShareModel: metrics with one core, over any arithmetic | simulation: the core of the metric alone tracks a part of the sums of the shared one, step by step the same (ShareProof); Cov on a Corr core: the sums of degree one are zero or NaN, so that subtracting twice is subtracting once (JointShare) |
| C63 | CostModel.v: the functions of the two trees and of Quantile again, counting calls of recursive functions, with the proof (CostErase.v) that forgetting the counts gives the functions of the other files | height of the trees is logarithmic, steps are bounded by the height; lower bound on the red-black removal by induction |
| C64 | CostModel.v: HeapMedian and the heap, counting iterations | size of the heaps is the number of tracked values, by induction over the history; sift loops halve the index |
| C65 | CostModel.v: Min and Max, counting iterations | potential: the length of the deque |
| C66 | CostModel.v: both cores and their metrics, counting iterations | sums over the nested loops |
| C67 | LagProof.v: the calls made on the joint metric, over any arithmetic | simulation, by induction over the history |
| C68 | the metrics of C01, C11, C13, C17 and C48 on one history | from their specifications |
| C69 | the metrics over exact reals | from their specifications, by the inequalities of Bhatia-Davis and Pearson (IneqProof.v) |
| C70 | CostModel.v with the skip list, counting iterations; random numbers independent, each from a list of equally likely ones (SkipProb.v) | steps as sums over levels of record heights (SkipCost*.v), then expectations by induction over the draws (SkipExp.v) |
| C71 | StrModel.v: String, TreeString and treeString of both trees, strings as Coq strings, %f a parameter | the strings as lines of a picture of the tree; reading back by induction over the picture |
| C72 | StrModel.v: String of the skip list and string of its nodes | from the widths invariant of C12 |
| C73 | CfgModel.v: a heap of ints, floats, maps, slices and tuples, configs of pointers to it, and programs that make, share and change them | the core is simulated by one with a config by value, by induction over the program |
| C74 | as C73 | invariant that the default map and slice stay empty |
| C75 | as C73 | invariant that addresses in use are old; the result is at a new one |
| C76 | the model of the moment core over float64 (MomentModel with FN) | EwmErr.v: error of one addDecay by Flocq's rounding lemmas; the error contracts by 1 - d at each push, so it stays below a fixed point |
| C77 | the model of the joint core over float64 (JointModel with FN), Cov and Autocov | JointErr.v: error of one add and one remove on the sums of a Corr core (the low sums stay exactly zero); JointRun.v: invariant over histories; JointShare.jrel carries it to a Cov core; JointVal.v, JointAcc.v: the quotient |
| C78 | the same model, Corr and Autocorr | JointVal.corr_quot: relative errors of product, root and quotient, Cauchy-Schwarz for the numerator |
| C79 | the model of the joint core over float64, EWMCov and EWMCorr | JointEwm.v: recurrence of the exact weighted covariance, error of one addDecay on a Corr core, which contracts by 1 - d at each push; JointShare.jrel carries it to an EWMCov core |
| C80 | the model of the joint core over float64 with Cov, Corr, EWMCov, EWMCorr | JointSym.v: every term of a push, removal or decay of the sum of a tuple equals that of the exchanged tuple, by commutativity of float multiplication and because the terms that differ are added to or multiplied by exact zeros and ones; simulation along the history |
| C81 | the models of the joint and moment cores over float64, with Cov, Corr, Autocov, Autocorr and Moment(2) | SelfArith.v: math.Pow(x, 2) = x * x and sqrt(s * s) = s away from under- and overflow; SelfCorr.v: invariant that the three sums are one and the same float, 0 as long as all values are equal and at least 2^-410 afterwards |
| C82 | the models of the joint core, Cov, Corr, Autocov and Autocorr over float64 | JointNan.v: invariant that the mean of a variable is non-finite and the sum of products is NaN, kept by every push |
| C83 | all moment, joint and min/max metrics over float64 | NegArith.v: every operation of the model, math.Pow and sqrt included, respects a sign change up to the signs of zeros; NegCore.v, NegJoint.v: two runs simulate each other under that relation |
| C84 | Mean, Moment(2) and Std over float64 | ScaleArith.v: a result that is 0 or in the normal range rounds alike after scaling; all state is a multiple of a fixed power of two, so cancellation does not underflow; TwoCores.v, ScaleRun.v: induction over two runs at once |
| C85 | the model of Quantile over float64 | QuantAcc.v: rounding the position does not leave the cell between two integers, where the interpolation has slope at most the range; then the rounding of the interpolation (linear_err) |
| C86 | sample.Reservoir as a shared object: Push and Sample as critical sections, a Push carrying the answers of rand.Intn (RvLockModel.v) | linearizability (C40_reservoir) and induction over the explanation of a history, with the pushes that have been called but not taken effect; C86_draws ties the answers to the distribution of ReservoirModel.v |
| C87 | the models of Median, HeapMedian and Quantile over float64 | halving commutes with rounding in the normal range, and a sum below it is exact (Flocq's FLT_format_plus_small), so the midpoint is rounded once |
| C88 | the float64 models of the moment and joint cores with a decay | false: a non-finite mean stays so, the next push makes it NaN and the one after makes the sums NaN; induction over the further pushes. Clear by the freshness lemma of C35 |
| C89 | the models of all windowed metrics, any arithmetic | erasing window and queue from the state commutes with Push while the queue is not full, and with Clear; induction over the history. Autocov and Autocorr through C67, Min and Max through C01 and C02 |
| C90 | Min, Max, Quantile, HeapMedian in float64; Mean and EWMA in exact arithmetic | the k-th smallest value of the raised list is not below that of the original (counting), then rounding is monotone through the linear and midpoint formulas; counterexamples by computation |
| C91 | Median and HeapMedian in float64, Mean in exact arithmetic | counting the values below and above the bounds places the middle order statistics between them; the midpoint of two values between bounds up to 2^1022 stays there by monotonicity of rounding |
| C92 | Min, Max, Quantile, Median, HeapMedian in float64; Mean and EWMA in exact arithmetic | counting: were the k-th smallest values more than eps apart, too many values would lie below one of them; the mean by summation, EWMA by induction as a convex combination; counterexamples by computation on exact differences |
| C93 | Mean, EWMA, Median, HeapMedian in float64 | one step of the mean stays between mean and value (the step of C48); for medians by counting values below and above in the list with the new value |
| C94 | Std and EWMStd in exact arithmetic | through C20 and C21; Minkowski's inequality from the Cauchy-Schwarz inequalities of C59; for the weighted one the squared difference of the means is carried along in the induction |
| C95 | Median, HeapMedian, and Mean and Std in exact arithmetic, on one history | C87 gives the real median; at least half of the values are on either side of it, which bounds the sum of distances from below; then the inequality of the arithmetic and quadratic means, and C20 |
| C96 | Min and Max in float64, Mean and Std in exact arithmetic, on one history | C01, C02 and C20; the mean minimises the sum of squares, two different live values contribute to it separately, and Cauchy-Schwarz on all values but one |
| C97 | Quantile, IQR, Min and Max in float64 on one history | C11 and C13 give the order statistics used; rounding does not move the position across an integer, so that their ranks are between the two counts; rounding is monotone, for the midpoint and the difference |
| C98 | EWMA and EWMStd in exact arithmetic | C21; by induction on the pushes, the variance plus the squared distance of the average from the middle of the range is at most the square of half the range |
| C99 | the constructors, with Init for the metrics that have a core | one definition of what a constructor has to do with a window, for all of them; case analysis, and C15 for the options of quantiles |
| C100 | Cov and EWMCov in exact arithmetic | C28 and C29; Cauchy-Schwarz with the bounds of C96 and C98 |

## Trusted base

* The kernel of Coq 8.16.1 and its `vm_compute`; coqc and the build.
* The axioms that `Print Assumptions` lists. All of them come from the standard library (`Reals` and what Flocq imports from
  it); no file of this development adds one. The theorems, grouped by the axioms they use, as printed by the `Props*.v` files:

  * no axioms ("Closed under the global context"): C38_push, C38_shared, C38_returns, C38_clear, C39_error, C39_partial,
    C39_some_partial, C43_string, C43_joint_stable, C39_joint_metrics_partial, C73_moment_partial, C73_joint_partial,
    C74_moment_partial, C74_joint_partial, C75_moment_partial, C75_joint_partial, C35_moment, C40_moment, C40_joint,
    C40_auto_refuted, C40_auto_partial, C41_moment_refuted, C41_joint_refuted, C41_auto_refuted, C41_moment_partial,
    C41_joint_partial, C42_refuted, C42_partial, C66_core, C66_moment_metrics, C67_auto, C67_pairs, C01_deque_loop, C44_moment,
    C44_same_joint_calls, C26_collision_free, C30_lagged, C31_hash_refuted, C31_hash_partial, C33_alias_partial, C34_total,
    C54_moment_partial, C54_joint_partial, C20_no_core, C22_binom_refuted, C22_binom_panics_refuted, C22_binom_partial,
    C22_cache_unobservable, C23_high_order_refuted, C99_moment, C99_joint, C36_sample, C36_no_influence, C36_stable, C37_uniform,
    C37_sample_is, C37_inclusion, C37_distribution, C46_resize_refuted, C46_resize_partial, C40_reservoir, C41_reservoir,
    C86_samples, C86_final, C86_draws, C71_avl, C71_rb_partial, C71_read, C52_moment_partial, C52_joint_core_partial,
    C52_joint_partial, C52_auto_partial, C04_avl_is_sorted_multiset, C05_avl_is_shallow, C06_tree_rank_partial,
    C07_rb_is_sorted_multiset_partial, C08_rb_is_shallow_partial, C89_moment, C89_joint, C89_auto.
  * `ClassicalDedekindReals.sig_forall_dec`, `ClassicalDedekindReals.sig_not_dec`, `Classical_Prop.classic`,
    `FunctionalExtensionality.functional_extensionality_dep`: C39_refuted, C43_integers, C43_stable, C43_implementation_refuted,
    C39_metrics_partial, C95_median_partial, C95_heap_median_partial, C97_quantile_partial, C97_iqr_partial,
    C97_iqr_range_partial, C97_iqr_quarter_refuted, C73_moment_refuted, C73_joint_refuted, C74_moment_refuted, C74_joint_refuted,
    C75_moment_refuted, C75_joint_refuted, C35_minmax, C35_quantile, C35_heap_median, C35_skiplist_partial, C40_quantile, C40_min,
    C40_max, C40_heap_median, C41_iqr_refuted, C41_quantile_partial, C41_min, C41_max, C41_heap_median, C61_mean, C61_ewma,
    C61_moment_partial, C61_std_partial, C61_ewm_moment_partial, C61_ewm_std_partial, C61_skewness_kurtosis_nan, C61_std_refuted,
    C63_quantile_avl, C63_quantile_rb_partial, C63_quantile_rb_lower, C63_quantile_rb_refuted, C64_heap_median, C65_minmax,
    C77_cov_error, C77_autocov_error, C78_corr_error, C78_autocorr_error, C79_ewmcov_error, C79_ewmcorr_error,
    C68_quantile_partial, C68_centres_partial, C44_no_errors, C44_auto_refuted, C44_same_calls, C76_ewma_error,
    C76_variance_error, C76_std_error, C88_fades_refuted, C88_clear_partial, C88_joint_refuted, C48_mean_within_partial,
    C48_ewma_within_partial, C48_window_refuted, C49_mean_error, C50_variance_error, C50_std_error, C16_heap, C16_heap_any_order,
    C17_global_heap_median, C18_heap_median_refuted, C18_heap_median_panics_refuted, C18_heap_median_partial, C33_alias_refuted,
    C34_nan_refuted, C34_panic_refuted, C34_drop_refuted, C34_config_partial, C82_nonfinite_refuted, C82_auto_refuted,
    C82_clear_partial, C58_min_max, C58_quantile_partial, C58_heap_median, C58_float_refuted, C58_storage_refuted,
    C59_float_refuted, C60_min_max, C60_min_max_reversed, C60_quantile_partial, C87_median_partial, C87_heap_median_partial,
    C87_large_refuted, C87_midpoint_partial, C53_nan_window_refuted, C54_deque_refuted, C54_tree_refuted, C54_min_max_partial,
    C54_quantile_partial, C54_heap_median_partial, C01_min_is_window_minimum, C02_max_is_window_maximum,
    C03_nan_leaves_window_refuted, C03_nan_leaves_window_partial, C24_nan_decay_refuted, C24_nan_merge_refuted,
    C24_config_partial, C25_std_nan_refuted, C90_min_max, C90_quantile_partial, C90_heap_median_partial, C90_float_refuted,
    C90_heap_median_window_refuted, C51_nonfinite_refuted, C51_window1_partial, C83_odd, C83_even, C83_joint, C83_auto,
    C83_minmax, C99_min_max_heap, C99_quantile, C99_global, C85_linear, C85_choice_partial, C85_lower_refuted, C55_within_refuted,
    C55_within_partial, C55_linear_partial, C56_monotone_refuted, C56_monotone_partial, C56_iqr_partial,
    C45_avl_quantile_is_exact, C11_quantile_refuted, C11_quantile_partial, C12_quantile_argument_refuted,
    C12_quantile_argument_partial, C13_median_refuted, C13_median_partial, C13_iqr_partial, C14_impl_unobservable_refuted,
    C14_impl_unobservable_partial, C15_option_validation_refuted, C15_option_validation_partial, C96_range_partial,
    C91_median_partial, C91_heap_median_partial, C91_heap_median_window_refuted, C84_mean, C84_variance, C84_std,
    C84_unlimited_refuted, C81_cov_self, C81_corr_self, C81_window_refuted, C62_moment_partial, C62_moment_total,
    C62_joint_partial, C62_joint_total, C62_moment_refuted, C62_joint_refuted, C09_skiplist_is_sorted_multiset,
    C10_skiplist_select_refuted, C10_skiplist_select_partial, C70_defined, C70_push, C70_value, C70_rank, C70_select, C70_log,
    C70_default, C70_log_refuted, C47_skiplist_duplicates, C47_skiplist_quantile, C92_min_max, C92_quantile_partial,
    C92_median_partial, C92_heap_median_partial, C92_float_refuted, C92_heap_median_window_refuted, C92_linear_partial,
    C25_std_partial, C72_skiplist_refuted, C72_skiplist_partial, C80_symmetric, C80_any_arity, C52_panic_refuted,
    C52_min_max_partial, C52_quantile_partial, C52_heap_median_partial, C93_median_partial, C93_heap_median_partial,
    C93_mean_partial, C93_ewma, C93_window_refuted, C93_quantile_refuted, C06_tree_rank_refuted,
    C07_rb_is_sorted_multiset_refuted, C08_rb_is_shallow_refuted, C89_quantile, C89_heap_median, C89_min_max_refuted,
    C89_min_max_partial.
  * `ClassicalDedekindReals.sig_forall_dec`, `ClassicalDedekindReals.sig_not_dec`,
    `FunctionalExtensionality.functional_extensionality_dep`: C95_mean_best, C100_cov_exact_partial, C100_ewmcov_exact_partial,
    C100_sharp, C69_moments, C69_ewm, C69_joint, C98_range_exact_partial, C98_latest_exact_partial, C98_sharp, C26_joint_core,
    C27_window_refuted, C27_window_partial, C28_cov_corr, C29_ewm, C29_bad_decay, C30_auto, C30_bad_lag, C32_zero_refuted,
    C32_collision_refuted, C32_untracked_partial, C57_moments, C57_ewm, C57_joint, C57_auto, C58_moments, C58_joint,
    C58_joint_core, C59_correlation_partial, C19_moment_core, C20_moment_metrics, C20_shared_core, C21_ewm, C23_order_21_refuted,
    C23_any_order_partial, C90_mean_exact_partial, C96_sharp, C91_mean_refuted, C92_mean_exact_partial, C94_std_exact_partial,
    C94_sharp.
  * `FunctionalExtensionality.functional_extensionality_dep`: C35_joint, C66_joint_core_partial, C66_joint_metrics, C66_auto,
    C44_core, C44_core_history, C44_joint, C44_joint_history, C44_auto_partial.

* That the definitions in `*Model.v` say what the Go code says. They were transcribed by hand; each cites the file and lines
  it stands for, and names its simplifications. `seeded/LOG.jsonl` records edits of these definitions that imitate bugs.
  What an entry shows is limited. `theorems_listed` are the theorems the edit was meant to break. `evidence` says what
  happened to each: `itself` (its own proof failed), `via_lemma` (a lemma its proof uses, directly or not, no longer
  proves), `not_rebuilt_only` (its file was not rebuilt because of a lemma it does not use, so it was not tested),
  `survived` (it was rebuilt and still proves). `theorems_failed` holds only the first two. Even these show
  that a proof script stopped working, not that the statement became false. Earlier versions of the log
  counted `not_rebuilt_only` as failed; entries were reclassified from the dependencies in the .glob files.
* That the specifications (`*Spec.v`, and the statements in `Props*.v`) say what the English statements in
  `properties.jsonl` say.

### Where the model is simpler than the code

* `math.Pow(x, k)` for an integer `k` in binary64 is Go's algorithm (Frexp, square and multiply the mantissas, Ldexp), without the
  rounding of `k` to a float64 beyond 2^53. `math.Pow(x, 1.5)` in binary64 is not Go's algorithm (which calls Exp and Log); only C51
  and C61 use it, and only that NaN gives NaN and zero gives zero. `math.Pow` in the skip list's probability table is arbitrary
  (C70_log, C70_default and C70_log_refuted suppose that it is exact on powers of 1/4).
* The Go compiler may fuse `x*y + z` into one rounding on some architectures (not on amd64); the model rounds twice.
* NaN payloads do not exist in the model. Signs of zeros do.
* The conversion of a NaN or an out-of-range float64 to int is arbitrary (`e_int`), as in the Go specification.
* The ring buffer's behaviour under concurrent access is not modelled: /repo only uses it under a lock.
  The disposed state is not modelled: every Dispose in /repo is followed by replacing the buffer.
* Memory allocation never fails, also for huge windows or configurations.
* Error values carry their cause, not the text wrapped around it. The error path of `iter` (joint/tuple.go) is reduced to its outcome.
* In the concurrent model, memory is sequentially consistent, a critical section whose body takes no locks is one read and
  one write of the guarded state, a panic or a hang in a section is represented as a result of the call, and only what matters of
  RWMutex is kept: no lock while a reader or writer holds it, no new reader while a writer waits.
  For the package-level factorial cache (C42), each access to the slice header or an element is one step.
* In the aggregates, a metric's method is one step (C40 justifies this for locked metrics), every goroutine may start as soon as the call
  begins, and Go's `%v` of a float64 is an arbitrary function (injective where a theorem says so).
* `rand.Intn` is uniform and independent; the reservoir's counter does not overflow.
* In EffModel, a method that stops in the middle with a panic or a hang leaves an arbitrary state.
* The all-goroutines-asleep detection of the Go run time and its race detector are not modelled.

### What is modelled

Every function of these files, with the exceptions named:

* minmax/min.go, minmax/max.go (MinMaxModel; String in NameModel; locks in LockModel)
* moment/config.go, core.go, mean.go, moment.go, std.go, skewness.go, kurtosis.go, ewma.go, ewmmoment.go, ewmstd.go (MomentModel; String in
  NameModel; locks in LockModel; failed calls in EffModel)
* joint/config.go, core.go, tuple.go, cov.go, corr.go, ewmcov.go, ewmcorr.go, autocov.go, autocorr.go (JointModel, JointConf; as above; aliasing in AliasModel);
  the configs of both as pointers, maps and slices that programs share and change in CfgModel
* quantile/quantile.go, impl.go, option.go, interpolation.go, median.go, iqr.go (QuantileModel), quantile/heap_median.go and
  quantile/heap/heap.go (HeapModel)
* quantile/ost/avl, quantile/ost/rb (AvlModel, RbModel), quantile/skiplist (SkipModel; options in QuantileModel; String, TreeString
  and treeString in StrModel), except the accessors Left, Right, Color of nodes
* aggregate/simple_aggregate.go, simple_joint_aggregate.go (AggModel)
* sample/sample.go (ReservoirModel, ReservoirMem)
* util/math/math.go (MathModel; its cache under concurrency in LockModel)

Not modelled: examples/, util/test, the test files, doc.go files, pointerize.go (two helpers that take an address), the interface declarations
(metric.go, moment/metric.go, joint/metric.go, quantile/order, quantile/ost/ost.go), error texts, and time and memory consumption
except where a property speaks of it (tree heights, sizes of containers).

## Findings

What the refutations say about the code, by property:

* C03: windowed Min/Max: a NaN that has left the window keeps Value at NaN until Clear.
* C06, C07, C08, C10, C11, C13, C14: duplicates. Rank of the trees stops at the first equal node; Remove of the red-black tree may lose
  another copy or panic; the skip list's widths go wrong, so Select returns too small a value. AVL, the default, is right.
* C12, C15, C24, C34: NaN passes the validation of quantile arguments, skip list probabilities and decays, because the checks are written `x <= a || x >= b`.
* C18: the windowed HeapMedian queues the rebalanced item instead of the new one, so it evicts the wrong value; window 1 panics.
* C22, C23: binomial coefficients go through factorials in int64: Binom(21, 1) is -1; moments of order 21 are wrong and of order 66 panic.
* C25: windowed Std of 5, 4, 4, 4 with window 3 is NaN (the updated sum of squares is slightly negative).
* C27: a windowed joint core with sums such as (2,1) and (1,2) removes an evicted point twice from the sub-sums they share.
* C31, C32, C34: tuple hashes collide from 13 variables on; the all-zero tuple sums to 0; merging tuples of different lengths panics; `abs` wraps; NewCore
  writes to the caller's Vars.
* C33: joint metrics with a window keep the caller's slice, and so does the joint aggregate, for all its metrics at once.
* C35: Clear of a skip list does not rewind its random source.
* C39, C43: aggregates index by String(); equal names overwrite each other depending on the schedule; the storage of a quantile is not in its name.
* C40, C41: Value of Mean, Moment, Std, Skewness, Kurtosis, EWMA, Cov, Corr, EWMCorr, Autocov, Autocorr and IQR takes the read lock twice, which deadlocks
  with a writer that arrives in between; Autocov and Autocorr read count and value in separate sections.
* C42: the package-level factorial cache is unsynchronised; two goroutines with their own metrics can corrupt it for good.
* C44: Autocov/Autocorr on a core for another number of variables lose a value of the lag queue when Push fails.
* C46: growing Reservoir.Size between pushes panics.
* C48: the windowed Mean may leave the range of the data by far: window 2, values 2^60, 1, 1 give 0.5.
* C51: a NaN or an infinity stays in windowed moments (window at least 2) until Clear.
* C52: HeapMedian(2) panics on the pushes NaN, 1, 1, 1 (heap_median.go:90-93 removes an item from the wrong heap); a Quantile over a skip list may panic
  in Add after a NaN (skiplist.go:132 walks past the end).
* C53: evicting a NaN from the AVL tree removes the root instead, whatever it holds; from the red-black tree it removes nothing.
* C54: after a NaN, the deque of a windowed Min or Max grows by one with every further equal value, without bound.
* C55, C56: linear interpolation is computed as (1-d)*lo + d*hi, so the 1/3-quantile of 15, 15 is above 15 and above the 1/2-quantile.
* C58: the float64 mean of 1, 2, 5 differs from that of 5, 2, 1.
* C59: Corr of the collinear points (5,30), (6,36), (3,18) is above 1; with a window of 3, (9,9), (3,8), (5,8), (3,8) gives a value above 2^1000.
* C61: Std of a constant stream of 2^600 is NaN (0 * Inf in core.go:112).
* C62: MergeConfigs merges a Mean (no decay) with an EWMA without an error, and the Mean on the shared core then returns the EWMA: 2.25 for 1, 2, 3 instead of 2. The same for Cov and EWMCov.
* C63: with the red-black tree, Push is not O(log n): rb/node.go:104-106 remove calls contains at every level of the recursion, so that evicting a value takes up to (log n)^2 steps.
* C66: joint/core.go:324-326 copies all sums once per tuple when a point leaves the window, which the documented O(t d a^2) does not include.
* C70: the skip list has at most 12 levels by default, whatever the number of values, so that Push and Value are linear on average with a small constant (about n/4^11 steps per call) and not O(log n).
* C72: String of a skip list panics after Add 1, 1, 1, 0, Remove 1, 1 for some random heights: a distance becomes negative.
* C73: moment/core.go:50 and joint/core.go:57 keep the config's Decay pointer: setting the variable later, as in a loop that reuses one, changes the decay of existing cores. joint/core.go keeps the config's slice of tuples.
* C74: moment/config.go:101 hands out the map of defaultConfig: after NewCore(config) with nil Sums, config.Sums[3] = true makes all cores with nil Sums track sums up to 3. joint/core.go:51 writes Vars into the caller's config.
* C75: MergeConfigs of one config returns that config, not a copy.
* C81: with a window, the rounding errors left behind by removed values can make up the whole sums once the window is constant. Autocorr(0, 3) of the stream 5, 4, 4, 4 returns -1, a stream anticorrelated with itself; without a window the result is exactly 1.
* C82: one pair with a NaN or infinite coordinate makes Cov, Corr, Autocov and Autocorr return NaN for ever (until Clear), also once it has left the window.
* C85: the position of a quantile is rounded before it is compared with an integer: mode lower at 1/3 of 1, 2, 3, 4 returns 2, though the argument is below 1/3.
* C88: the exponentially weighted metrics never forget a NaN or an infinity: EWMA, EWMMoment, EWMStd, EWMCov and EWMCorr are NaN from the second value after it on, for ever (until Clear).
* C89: with and without a window Min and Max treat NaN and -0 differently: of 1, NaN a windowed Min returns 1, an unlimited one NaN; of 0, -0 a windowed Min returns 0, an unlimited one -0.
* C90: Mean and EWMA can fall when a value is raised by one unit in the last place (EWMA with decay 0.9 of 0, 2, 9 against 0, 2.0000000000000004, 9). HeapMedian with window 2 of 2, 2, 0, 0 is above that of 2, 5, 0, 0.
* C91: HeapMedian with window 2 after 2, 2, 0, 0 is above 0, although both live values are 0.
* C92: HeapMedian with window 2 of 10, 10, 0, 0 and of 10, 11, 0, 0 differ by more than 1.
