{
 "claims": [
  {
   "property": "C01",
   "status": "proved",
   "theorems": [
    "C01_min_is_window_minimum",
    "C01_deque_loop"
   ],
   "note": "Over Flocq binary64; NaN pushes since the last Clear excluded by hypothesis (quantifier of C01)."
  },
  {
   "property": "C02",
   "status": "proved",
   "theorems": [
    "C02_max_is_window_maximum",
    "C01_deque_loop"
   ],
   "note": "As C01."
  },
  {
   "property": "C03",
   "status": "partial",
   "theorems": [
    "C03_nan_leaves_window_refuted",
    "C03_nan_leaves_window_partial"
   ],
   "note": "refuted: in every windowed Min/Max, for every history, a NaN that has left the window makes Value NaN until Clear (minmax/min.go:68-85). The partial theorem shows Clear does remove it."
  },
  {
   "property": "C04",
   "status": "proved",
   "theorems": [
    "C04_avl_is_sorted_multiset"
   ],
   "note": "Operands non-NaN (quantifier of C04). Values compared numerically (0 and -0 identified)."
  },
  {
   "property": "C05",
   "status": "proved",
   "theorems": [
    "C05_avl_is_shallow"
   ],
   "note": ""
  },
  {
   "property": "C06",
   "status": "partial",
   "theorems": [
    "C06_tree_rank_refuted",
    "C06_tree_rank_partial"
   ],
   "note": "refuted: with duplicates Rank returns the left size at the first equal node met (avl/node.go Rank, rb/node.go:272-281). Partial: exact when at most one copy is stored, otherwise between count_lt and count_le."
  },
  {
   "property": "C07",
   "status": "partial",
   "theorems": [
    "C07_rb_is_sorted_multiset_refuted",
    "C07_rb_is_sorted_multiset_partial"
   ],
   "note": "refuted: rb Remove of a value stored several times loses another copy (Add 1 x4, Remove 1 leaves 2) and can panic later (rb/node.go:121-127: moveRedRight then removeMin on a node whose left is nil but whose right is red). Partial: all histories in which every Remove meets at most one copy."
  },
  {
   "property": "C08",
   "status": "partial",
   "theorems": [
    "C08_rb_is_shallow_refuted",
    "C08_rb_is_shallow_partial"
   ],
   "note": "refuted by the same histories as C07. Partial: under single removes; height+1 <= 2 log2(n+1)."
  },
  {
   "property": "C09",
   "status": "proved",
   "theorems": [
    "C09_skiplist_is_sorted_multiset"
   ],
   "note": "Any max level >= 1, any probability table, any random source."
  },
  {
   "property": "C10",
   "status": "partial",
   "theorems": [
    "C10_skiplist_select_refuted",
    "C10_skiplist_select_partial"
   ],
   "note": "refuted: duplicates corrupt the widths and Select returns a wrong value; proved exact when no value is stored twice at once or max level is 1."
  },
  {
   "property": "C11",
   "status": "partial",
   "theorems": [
    "C11_quantile_refuted",
    "C11_quantile_partial",
    "C45_avl_quantile_is_exact"
   ],
   "note": "refuted: red-black storage with a window loses values or panics when duplicates are evicted. Proved for AVL (C45), for red-black when each eviction meets one copy, for the skip list when no window holds duplicates; up to 2^53 live values."
  },
  {
   "property": "C12",
   "status": "partial",
   "theorems": [
    "C12_quantile_argument_refuted",
    "C12_quantile_argument_partial"
   ],
   "note": "refuted: Value(NaN) is not rejected. Proved for every non-NaN argument in every state."
  },
  {
   "property": "C13",
   "status": "partial",
   "theorems": [
    "C13_median_refuted",
    "C13_median_partial",
    "C13_iqr_partial"
   ],
   "note": "refuted for red-black storage with duplicates (panic); proved otherwise."
  },
  {
   "property": "C14",
   "status": "partial",
   "theorems": [
    "C14_impl_unobservable_refuted",
    "C14_impl_unobservable_partial"
   ],
   "note": "refuted: AVL and red-black disagree when a duplicate is evicted. Proved under the storage condition of C11."
  },
  {
   "property": "C15",
   "status": "partial",
   "theorems": [
    "C15_option_validation_refuted",
    "C15_option_validation_partial"
   ],
   "note": "refuted: a NaN probability is accepted. Proved for all other option lists."
  },
  {
   "property": "C16",
   "status": "proved",
   "theorems": [
    "C16_heap",
    "C16_heap_any_order"
   ],
   "note": "every history of New/Push/Pop/Update/Remove; both HeapMedian comparators, and any comparator induced by an integer key"
  },
  {
   "property": "C17",
   "status": "proved",
   "theorems": [
    "C17_global_heap_median"
   ],
   "note": "window 0, every history of non-NaN pushes and clears"
  },
  {
   "property": "C18",
   "status": "partial",
   "theorems": [
    "C18_heap_median_refuted",
    "C18_heap_median_panics_refuted",
    "C18_heap_median_partial"
   ],
   "note": "refuted: the rebalanced item instead of the new one is queued, so window 2 after 1..5 gives 4, and window 1 panics on 1,2,3. Proved for w>=2: no panic, and the value is the median of min(w,n) pushed values including the newest, exact until the window is full"
  },
  {
   "property": "C19",
   "status": "proved",
   "theorems": [
    "C19_moment_core"
   ],
   "note": "exact arithmetic (reals with Inf/NaN), any configuration whose largest tracked power is at most 20"
  },
  {
   "property": "C20",
   "status": "proved",
   "theorems": [
    "C20_moment_metrics",
    "C20_shared_core",
    "C20_no_core"
   ],
   "note": "exact arithmetic; Moment(k) for 1<=k<=20"
  },
  {
   "property": "C21",
   "status": "proved",
   "theorems": [
    "C21_ewm"
   ],
   "note": "exact arithmetic, any decay in (0,1), k<=20"
  },
  {
   "property": "C22",
   "status": "partial",
   "theorems": [
    "C22_binom_refuted",
    "C22_binom_panics_refuted",
    "C22_binom_partial",
    "C22_cache_unobservable"
   ],
   "note": "refuted: Binom(21,1) = -1 and Binom(n,2) panics for n>=66 (int64 overflow); exact for n<=20"
  },
  {
   "property": "C23",
   "status": "partial",
   "theorems": [
    "C23_high_order_refuted",
    "C23_order_21_refuted",
    "C23_any_order_partial"
   ],
   "note": "refuted: orders >= 66 panic on the first Push, order 21 gives wrong values; right for k<=20"
  },
  {
   "property": "C24",
   "status": "partial",
   "theorems": [
    "C24_nan_decay_refuted",
    "C24_nan_merge_refuted",
    "C24_config_partial"
   ],
   "note": "refuted: a NaN decay is accepted and then does not merge with itself; as stated for all other configurations"
  },
  {
   "property": "C25",
   "status": "partial",
   "theorems": [
    "C25_std_nan_refuted",
    "C25_std_partial",
    "C50_std_error"
   ],
   "note": "refuted: window 3, values 5,4,4,4 give NaN; without a window proved for up to 2^53 values of magnitude up to 2^500; with a window Std is not NaN once the variance of the live values exceeds the rounding error bound (C50_std_error)"
  },
  {
   "property": "C26",
   "status": "proved",
   "theorems": [
    "C26_joint_core",
    "C26_collision_free"
   ],
   "note": "for configurations as quantified; up to 12 variables the collision-freedom premise always holds"
  },
  {
   "property": "C27",
   "status": "partial",
   "theorems": [
    "C27_window_refuted",
    "C27_window_partial"
   ],
   "note": "refuted: with sums (2,1) and (1,2) an evicted point is removed twice from shared sub-tuples; proved when no two configured tuples share a sub-tuple of degree at least 2, which covers Cov, Corr, Autocov, Autocorr"
  },
  {
   "property": "C28",
   "status": "proved",
   "theorems": [
    "C28_cov_corr"
   ],
   "note": ""
  },
  {
   "property": "C29",
   "status": "proved",
   "theorems": [
    "C29_ewm",
    "C29_bad_decay"
   ],
   "note": ""
  },
  {
   "property": "C30",
   "status": "proved",
   "theorems": [
    "C30_auto",
    "C30_lagged",
    "C30_bad_lag"
   ],
   "note": ""
  },
  {
   "property": "C31",
   "status": "partial",
   "theorems": [
    "C31_hash_refuted",
    "C31_hash_partial"
   ],
   "note": "refuted: 64-bit wrap-around from 13 exponents on; proved up to 12"
  },
  {
   "property": "C32",
   "status": "partial",
   "theorems": [
    "C32_zero_refuted",
    "C32_collision_refuted",
    "C32_untracked_partial"
   ],
   "note": "refuted: the all-zero tuple gives 0, colliding tuples (also of another length) are accepted; proved for tuples of the right length with exponents up to 30 and not all zero, up to 12 variables"
  },
  {
   "property": "C33",
   "status": "partial",
   "theorems": [
    "C33_alias_refuted",
    "C33_alias_partial"
   ],
   "note": "refuted with a window: the queue keeps the caller's slice; proved without a window, and for callers which leave pushed slices alone, in every arithmetic"
  },
  {
   "property": "C34",
   "status": "partial",
   "theorems": [
    "C34_nan_refuted",
    "C34_panic_refuted",
    "C34_drop_refuted",
    "C34_config_partial",
    "C34_total"
   ],
   "note": "refuted: NaN decay accepted, merging tuples of different lengths panics, colliding tuples are dropped; proved otherwise"
  },
  {
   "property": "C35",
   "status": "partial",
   "theorems": [
    "C35_minmax",
    "C35_moment",
    "C35_joint",
    "C35_quantile",
    "C35_heap_median",
    "C35_skiplist_partial"
   ],
   "note": "Proved for every metric; literal state equality except HeapMedian (equal results) and Quantile over a skip list, whose random source is not rewound by Clear: it then behaves as a new one whose source has already been used, proved when no NaN is pushed after the Clear."
  },
  {
   "property": "C36",
   "status": "proved",
   "theorems": [
    "C36_sample",
    "C36_no_influence",
    "C36_stable"
   ],
   "note": ""
  },
  {
   "property": "C37",
   "status": "proved",
   "theorems": [
    "C37_uniform",
    "C37_sample_is",
    "C37_inclusion",
    "C37_distribution"
   ],
   "note": "rand.Intn modelled as an ideal uniform source"
  },
  {
   "property": "C38",
   "status": "proved",
   "theorems": [
    "C38_push",
    "C38_shared",
    "C38_returns",
    "C38_clear"
   ],
   "note": "every schedule of the goroutines, any metrics; also metrics sharing state, termination and Clear"
  },
  {
   "property": "C39",
   "status": "partial",
   "theorems": [
    "C39_error",
    "C39_partial",
    "C39_some_partial",
    "C39_refuted",
    "C39_metrics_partial",
    "C39_joint_metrics_partial"
   ],
   "note": "refuted: with two metrics of equal String() the map depends on the schedule (C39_refuted). Proved: the error half (C39_error); the map for metrics with pairwise different String() (C39_partial), hence for metrics of /repo that differ in kind or a shown parameter; with equal names, the value of one of them (C39_some_partial)"
  },
  {
   "property": "C40",
   "status": "partial",
   "theorems": [
    "C40_moment",
    "C40_joint",
    "C40_quantile",
    "C40_min",
    "C40_max",
    "C40_heap_median",
    "C40_auto_refuted",
    "C40_auto_partial",
    "C40_reservoir"
   ],
   "note": "refuted for Autocov/Autocorr: Value reads the count and computes the value in two critical sections, so a concurrent Clear yields an error it never gives sequentially (C40_auto_refuted); up to the identity of the error they are atomic too (C40_auto_partial). Proved for all other metrics, the cores and the Reservoir, any number of goroutines and calls."
  },
  {
   "property": "C41",
   "status": "partial",
   "theorems": [
    "C41_moment_refuted",
    "C41_joint_refuted",
    "C41_iqr_refuted",
    "C41_auto_refuted",
    "C41_moment_partial",
    "C41_joint_partial",
    "C41_quantile_partial",
    "C41_min",
    "C41_max",
    "C41_heap_median",
    "C41_reservoir"
   ],
   "note": "refuted: the Value methods that nest read locks deadlock with a concurrent writer, from every state. Proved for all calls that do not nest: no deadlock and no infinite execution."
  },
  {
   "property": "C42",
   "status": "partial",
   "theorems": [
    "C42_refuted",
    "C42_partial",
    "C42_add_in"
   ],
   "note": "refuted: the unsynchronised package-level factorial cache can be corrupted permanently by two goroutines using their own metrics of order 8, making later ninth moments wrong. Proved when no call has to extend the cache."
  },
  {
   "property": "C43",
   "status": "proved",
   "theorems": [
    "C43_string",
    "C43_integers",
    "C43_stable",
    "C43_joint_stable",
    "C43_implementation_refuted"
   ],
   "note": "kind, window, lag, order, interpolation; decays if Go prints different floats differently. The implementation option of Quantile, Median, IQR is not shown (C43_implementation_refuted)"
  },
  {
   "property": "C44",
   "status": "partial",
   "theorems": [
    "C44_core",
    "C44_core_history",
    "C44_joint",
    "C44_joint_history",
    "C44_moment",
    "C44_no_errors",
    "C44_auto_refuted",
    "C44_auto_partial",
    "C44_same_calls",
    "C44_same_joint_calls"
   ],
   "note": "refuted for Autocov/Autocorr whose SetCore was given a core for another number of variables (the failed Push loses a value of the lag queue); proved for every other metric, and for Autocov/Autocorr with cores for two variables"
  },
  {
   "property": "C45",
   "status": "proved",
   "theorems": [
    "C45_avl_quantile_is_exact"
   ],
   "note": ""
  },
  {
   "property": "C46",
   "status": "partial",
   "theorems": [
    "C46_resize_refuted",
    "C46_resize_partial"
   ],
   "note": "refuted: growing Size leads to an index out of range panic; proved while Size only shrinks"
  },
  {
   "property": "C47",
   "status": "proved",
   "theorems": [
    "C47_skiplist_duplicates",
    "C47_skiplist_quantile"
   ],
   "note": "Complements the refuted C10/C11: what survives when equal values are stored in a skip list."
  },
  {
   "property": "C48",
   "status": "partial",
   "theorems": [
    "C48_mean_within_partial",
    "C48_ewma_within_partial",
    "C48_window_refuted"
   ],
   "note": "refuted for windows (window 2, values 2^60, 1, 1: mean 1/2); proved without a window for Mean and for EWMA, values up to 2^1022, up to 2^53 operations, float64 arithmetic"
  },
  {
   "property": "C49",
   "status": "proved",
   "theorems": [
    "C49_mean_error"
   ],
   "note": "float64 arithmetic, any window, up to 2^40 operations"
  },
  {
   "property": "C50",
   "status": "proved",
   "theorems": [
    "C50_variance_error",
    "C50_std_error"
   ],
   "note": "float64 arithmetic, any window, up to 2^40 operations; in float64 Pow(x,2) is modelled as x*x rounded once, see DESIGN.md"
  },
  {
   "property": "C51",
   "status": "partial",
   "theorems": [
    "C51_nonfinite_refuted",
    "C51_window1_partial"
   ],
   "note": "refuted: for every window >= 2, every history and every continuation of two or more values, all five metrics return NaN until Clear; with window 1 Mean recovers at once"
  },
  {
   "property": "C52",
   "status": "partial",
   "theorems": [
    "C52_panic_refuted",
    "C52_min_max_partial",
    "C52_moment_partial",
    "C52_joint_core_partial",
    "C52_joint_partial",
    "C52_auto_partial",
    "C52_quantile_partial",
    "C52_heap_median_partial"
   ],
   "note": "False as stated: HeapMedian(2) panics after NaN 1 1 1, a skip list Quantile after 1 NaN 1 1. Proved for arbitrary float64 values: Min, Max, all moment metrics up to order 65, the joint core and metrics with exponents up to 65, Autocov, Autocorr, Quantile/Median/IQR over AVL (and red-black without a window), HeapMedian without a window. Missing: Moment orders from 66 (C23), windowed HeapMedian and skip list for values other than NaN (C18, C47), windowed red-black (C07)."
  },
  {
   "property": "C53",
   "status": "partial",
   "theorems": [
    "C53_nan_window_refuted"
   ],
   "note": "False: for each of AVL, red-black and HeapMedian a history is given (for every environment) after which the result differs from that of a fresh metric, although no live value is NaN. For histories without NaN the property is C13, C18 and C47."
  },
  {
   "property": "C54",
   "status": "partial",
   "theorems": [
    "C54_deque_refuted",
    "C54_tree_refuted",
    "C54_min_max_partial",
    "C54_quantile_partial",
    "C54_heap_median_partial",
    "C54_moment_partial",
    "C54_joint_partial"
   ],
   "note": "Proved without NaN for Min, Max, Quantile (any implementation under the conditions of C13), HeapMedian with window at least 2; for all values for the moment and joint cores. False with NaN: with every window and every n, NaN followed by n equal values leaves n + 1 values in the deque of Min and Max; the AVL tree of a Quantile with window 3 holds 4 values after NaN 2 3 1 1."
  },
  {
   "property": "C55",
   "status": "partial",
   "theorems": [
    "C55_within_refuted",
    "C55_within_partial",
    "C55_linear_partial"
   ],
   "note": "False for the default linear interpolation (the 1/3-quantile of 15, 15 is 15.000000000000002) and for midpoint when the sum overflows (Median of two values 1.5*2^1023 is +Inf). Proved in float64, under the storage conditions of C11, for lower, higher and nearest, for midpoint with values up to 2^1022, and for linear up to 8*2^-53*max|x| + 2^-1072."
  },
  {
   "property": "C56",
   "status": "partial",
   "theorems": [
    "C56_monotone_refuted",
    "C56_monotone_partial",
    "C56_iqr_partial"
   ],
   "note": "False for the default linear interpolation (of 15, 15 the 1/3-quantile exceeds the 1/2-quantile). Proved for lower, higher, nearest, and midpoint with values up to 2^1022; IQR is then not negative."
  },
  {
   "property": "C57",
   "status": "proved",
   "theorems": [
    "C57_moments",
    "C57_ewm",
    "C57_joint",
    "C57_auto"
   ],
   "note": "In exact arithmetic, as the statement says; orders up to 20."
  },
  {
   "property": "C58",
   "status": "partial",
   "theorems": [
    "C58_moments",
    "C58_joint",
    "C58_joint_core",
    "C58_min_max",
    "C58_quantile_partial",
    "C58_heap_median",
    "C58_float_refuted",
    "C58_storage_refuted"
   ],
   "note": "In exact arithmetic for the moment and joint metrics, in float64 for Min, Max, Quantile (storage conditions of C11) and the global HeapMedian. In float64 the moments depend on order and on evicted values (refuted). Refuted for the windowed HeapMedian and a windowed Quantile over a red-black tree (C58_storage_refuted)."
  },
  {
   "property": "C59",
   "status": "partial",
   "theorems": [
    "C59_correlation_partial",
    "C59_float_refuted"
   ],
   "note": "Proved in exact arithmetic. False in float64: Corr of (5,30) (6,36) (3,18) exceeds 1, and a windowed Corr can exceed 2^1000."
  },
  {
   "property": "C60",
   "status": "partial",
   "theorems": [
    "C60_min_max",
    "C60_min_max_reversed",
    "C60_quantile_partial"
   ],
   "note": "Min and Max for every monotone map. Quantiles in modes lower, higher and nearest with AVL storage always, and with the other storages when the streams before and after the map both meet the condition of C11, without which those storages are wrong (C11_quantile_*refuted); linear and midpoint compute with the values, so the claim is not made for them."
  },
  {
   "property": "C61",
   "status": "partial",
   "theorems": [
    "C61_mean",
    "C61_ewma",
    "C61_moment_partial",
    "C61_std_partial",
    "C61_ewm_moment_partial",
    "C61_ewm_std_partial",
    "C61_skewness_kurtosis_nan",
    "C61_std_refuted"
   ],
   "note": "Mean and EWMA for every finite x. The moments for |x|^k up to 2^900; beyond the range of float64 false (Std of 2^600, 2^600 is NaN). Skewness and Kurtosis of a constant stream are NaN."
  },
  {
   "property": "C62",
   "status": "partial",
   "theorems": [
    "C62_moment_partial",
    "C62_moment_total",
    "C62_joint_partial",
    "C62_joint_total",
    "C62_moment_refuted",
    "C62_joint_refuted"
   ],
   "note": "Proved in float64 for groups in which all metrics or none are exponentially weighted, with conditions under which a group can be formed and no call fails. False for mixed groups: MergeConfigs silently takes the decay of an EWMA into a group with a Mean (window 0), and the Mean then returns the EWMA (C62_moment_refuted; Cov with EWMCov: C62_joint_refuted). The group is merged in the order given; Autocov and Autocorr, which own a queue besides the core, are not in the groups."
  },
  {
   "property": "C63",
   "status": "partial",
   "theorems": [
    "C63_quantile_avl",
    "C63_quantile_rb_partial",
    "C63_quantile_rb_lower",
    "C63_quantile_rb_refuted"
   ],
   "note": "Holds with the AVL tree (Push at most 6 lg n + 2 steps, Value 4 lg n + 2, IQR's Value 8 lg n + 4). False with the red-black tree: remove calls contains at every level, so that a Push which evicts takes up to (lg n)^2 steps; refuted for every constant, with a matching upper bound. Steps are recursive calls and loop iterations. For the skip list, whose bound is on an average, see C70."
  },
  {
   "property": "C64",
   "status": "proved",
   "theorems": [
    "C64_heap_median"
   ],
   "note": "5 lg n + 6 steps, for any window and any values, NaN included."
  },
  {
   "property": "C65",
   "status": "proved",
   "theorems": [
    "C65_minmax"
   ],
   "note": "3 steps per call."
  },
  {
   "property": "C66",
   "status": "partial",
   "theorems": [
    "C66_core",
    "C66_moment_metrics",
    "C66_joint_core_partial",
    "C66_joint_metrics",
    "C66_auto"
   ],
   "note": "Every constant and the univariate bound are proved, as is the multivariate bound without a window. With a window the bound proved for the multivariate core has a further term t (t + 3) a, from copies of all sums made once per tuple (joint/core.go:324-326), which the documentation does not mention. The lookup of a factorial in the cache counts as no step."
  },
  {
   "property": "C67",
   "status": "proved",
   "theorems": [
    "C67_auto",
    "C67_pairs"
   ],
   "note": "In any arithmetic, failing runs included."
  },
  {
   "property": "C68",
   "status": "partial",
   "theorems": [
    "C68_quantile_partial",
    "C68_centres_partial"
   ],
   "note": "Quantile in the modes lower, higher and nearest for all non-NaN values, midpoint and Median for values up to 2^1022, both for every window; HeapMedian, Mean and EWMA without a window. The rest is false: C55_within_refuted (linear mode, or larger values), C48_window_refuted (windowed Mean), C18_heap_median_refuted (windowed HeapMedian)."
  },
  {
   "property": "C69",
   "status": "proved",
   "theorems": [
    "C69_moments",
    "C69_ewm",
    "C69_joint"
   ],
   "note": "In exact arithmetic."
  },
  {
   "property": "C70",
   "status": "partial",
   "theorems": [
    "C70_defined",
    "C70_push",
    "C70_value",
    "C70_rank",
    "C70_select",
    "C70_log",
    "C70_default",
    "C70_log_refuted"
   ],
   "note": "Average Push at most 8 L + 3 (L-1)(1/c - 1) + 2 n t and Value at most 2 L + 2 (L-1)(1/c - 1) + 2 n t, L being the level limit, c the probability of going up a level and t that of the highest level. So O(log n) if L is chosen with n <= 4^(L-1) (C70_log). False for the default parameters, where L = 12 whatever n is: the average exceeds any multiple of log n (C70_log_refuted), although the linear term is only n/4^11. Value and Select are for windows without equal values (with equal values Select is wrong anyway: C12). C70_log and the theorems after it take math.Pow to be exact on powers of 1/4."
  },
  {
   "property": "C71",
   "status": "partial",
   "theorems": [
    "C71_avl",
    "C71_rb_partial",
    "C71_read"
   ],
   "note": "Proved for the AVL tree. For the red-black tree the drawing shows the values only for histories that never remove one of several equal values, as the tree itself loses values otherwise (C07). Formatting of a float64 by %f is a parameter."
  },
  {
   "property": "C72",
   "status": "partial",
   "theorems": [
    "C72_skiplist_refuted",
    "C72_skiplist_partial"
   ],
   "note": "False with equal values: Add 1, 1, 1, 0 and Remove 1, 1 with heights 2, 1, 1, 2 leaves a negative distance, and String panics in strings.Repeat. Proved if no value is added while an equal one is stored, or if there is only one level. Formatting of a float64 is a parameter."
  },
  {
   "property": "C73",
   "status": "partial",
   "theorems": [
    "C73_moment_partial",
    "C73_joint_partial",
    "C73_moment_refuted",
    "C73_joint_refuted"
   ],
   "note": "False: a core reads its decay through the caller's pointer at every Push, and a joint core shares the slice of tuples with the config. Proved for programs that do not write to the variable of the decay and, for joint, do not write to a tuple or to a place of a slice of tuples after NewCore; all other changes are allowed."
  },
  {
   "property": "C74",
   "status": "partial",
   "theorems": [
    "C74_moment_partial",
    "C74_joint_partial",
    "C74_moment_refuted",
    "C74_joint_refuted"
   ],
   "note": "False: moment.NewCore gives a config without Sums the one map of the package's default, so that adding a sum to that config changes all configs without Sums; joint.NewCore sets Vars, so that the config cannot be used again with tuples of another length. Proved: nothing else changes, if (moment) no sum is added to a map that NewCore put in; using a config again for joint gives the same core."
  },
  {
   "property": "C75",
   "status": "partial",
   "theorems": [
    "C75_moment_partial",
    "C75_joint_partial",
    "C75_moment_refuted",
    "C75_joint_refuted"
   ],
   "note": "Proved for two or more configs and changes to the fields and sums of the result. False for one config, which is returned itself, and for joint when a tuple of the result is changed in place, as tuples are shared."
  },
  {
   "property": "C76",
   "status": "proved",
   "theorems": [
    "C76_ewma_error",
    "C76_variance_error",
    "C76_std_error"
   ],
   "note": "The decay of EWMMoment and EWMStd is at least 2^-40; values have magnitude at most B with B in [2^-400, 2^400]."
  },
  {
   "property": "C77",
   "status": "proved",
   "theorems": [
    "C77_cov_error",
    "C77_autocov_error"
   ],
   "note": "Values have magnitude at most B with B in [2^-400, 2^400]; at most 2^40 calls."
  },
  {
   "property": "C78",
   "status": "proved",
   "theorems": [
    "C78_corr_error",
    "C78_autocorr_error"
   ],
   "note": "Values have magnitude at most B with B in [2^-200, 2^200]; at most 2^40 calls; the live points spread as the statement says (constant coordinates give 0/0)."
  },
  {
   "property": "C79",
   "status": "proved",
   "theorems": [
    "C79_ewmcov_error",
    "C79_ewmcorr_error"
   ],
   "note": "The decay is at least 2^-40; for EWMCorr the points spread as the statement says (constant coordinates give 0/0)."
  },
  {
   "property": "C80",
   "status": "proved",
   "theorems": [
    "C80_symmetric",
    "C80_any_arity"
   ],
   "note": ""
  },
  {
   "property": "C81",
   "status": "proved",
   "theorems": [
    "C81_cov_self",
    "C81_corr_self",
    "C81_window_refuted"
   ],
   "note": "The windowed case is refuted by C81_window_refuted."
  },
  {
   "property": "C82",
   "status": "partial",
   "theorems": [
    "C82_nonfinite_refuted",
    "C82_auto_refuted",
    "C82_clear_partial"
   ],
   "note": "Recovery after Clear is proved; recovery through the window is refuted for every history."
  },
  {
   "property": "C83",
   "status": "proved",
   "theorems": [
    "C83_odd",
    "C83_even",
    "C83_joint",
    "C83_auto",
    "C83_minmax"
   ],
   "note": "Moment and EWMMoment up to order 199, where the model of math.Pow by repeated squaring keeps its intermediate exponents in range."
  },
  {
   "property": "C84",
   "status": "proved",
   "theorems": [
    "C84_mean",
    "C84_variance",
    "C84_std",
    "C84_unlimited_refuted"
   ],
   "note": "With the limits on s and on the values stated; C84_unlimited_refuted shows that they cannot be dropped."
  },
  {
   "property": "C85",
   "status": "partial",
   "theorems": [
    "C85_linear",
    "C85_choice_partial",
    "C85_lower_refuted"
   ],
   "note": "The linear mode is proved. Lower, higher and nearest are proved where the exact position is more than n * 2^-53 away from integers (and for nearest from the half between them); false elsewhere: the lower 1/3-quantile of 1, 2, 3, 4 is 2, though 3 times the float64 next to 1/3 is below 1. The midpoint mode is in C87."
  },
  {
   "property": "C86",
   "status": "proved",
   "theorems": [
    "C86_samples",
    "C86_final",
    "C86_draws"
   ],
   "note": "C86_draws ties the answers of rand.Intn that the calls carry to the distribution of C36 and C37. Nothing is said about the distribution of the sample under concurrency."
  },
  {
   "property": "C87",
   "status": "partial",
   "theorems": [
    "C87_median_partial",
    "C87_heap_median_partial",
    "C87_midpoint_partial",
    "C87_large_refuted"
   ],
   "note": "Proved for values up to 2^1022, Median under the storage conditions of C11 and HeapMedian without a window; the midpoint mode at positions more than n * 2^-53 away from integers. Refuted for larger values, whose sum overflows (C87_large_refuted)."
  },
  {
   "property": "C88",
   "status": "partial",
   "theorems": [
    "C88_fades_refuted",
    "C88_joint_refuted",
    "C88_clear_partial"
   ],
   "note": "Refuted: from the second value after the non-finite one the result is NaN, whatever came before and whatever follows (C88_fades_refuted for the metrics of one variable, EWMMoment of order 2 to 65; C88_joint_refuted for EWMCov and EWMCorr, one bad coordinate is enough). Clear does remove it (C88_clear_partial, metrics of one variable; C35 has the joint ones)."
  },
  {
   "property": "C89",
   "status": "partial",
   "theorems": [
    "C89_moment",
    "C89_joint",
    "C89_auto",
    "C89_quantile",
    "C89_heap_median",
    "C89_min_max_partial",
    "C89_min_max_refuted"
   ],
   "note": "Proved for every metric but Min and Max, in every arithmetic. Min and Max return equal numbers when no value is NaN (C89_min_max_partial). False otherwise: of 1, NaN a windowed Min or Max returns 1 and an unlimited one NaN; of 0, -0 a windowed Min returns 0 and an unlimited one -0 (C89_min_max_refuted)."
  },
  {
   "property": "C90",
   "status": "partial",
   "theorems": [
    "C90_min_max",
    "C90_quantile_partial",
    "C90_heap_median_partial",
    "C90_mean_exact_partial",
    "C90_float_refuted",
    "C90_heap_median_window_refuted"
   ],
   "note": "Proved in float64 for Min and Max, for Quantile (so also Median) under the storage conditions of C11, in the computing modes linear and midpoint for values up to 2^1022, and for HeapMedian without a window up to 2^1022. Mean and EWMA are monotone in exact arithmetic only: in float64 raising a value by one unit in the last place can lower them (C90_float_refuted). HeapMedian with a window is not monotone, since it drops the wrong value (C90_heap_median_window_refuted)."
  },
  {
   "property": "C91",
   "status": "partial",
   "theorems": [
    "C91_median_partial",
    "C91_heap_median_partial",
    "C91_heap_median_window_refuted",
    "C91_mean_refuted"
   ],
   "note": "Proved in float64, for bounds up to 2^1022 and values other than NaN, for Median under the storage conditions of C11 and for HeapMedian without a window. Refuted for HeapMedian with a window, which fails even if all live values lie between the bounds (C91_heap_median_window_refuted). For contrast, one value moves Mean beyond any bound, in exact arithmetic (C91_mean_refuted)."
  },
  {
   "property": "C92",
   "status": "partial",
   "theorems": [
    "C92_min_max",
    "C92_quantile_partial",
    "C92_median_partial",
    "C92_heap_median_partial",
    "C92_mean_exact_partial",
    "C92_float_refuted",
    "C92_heap_median_window_refuted",
    "C92_linear_partial"
   ],
   "note": "Proved for finite float64 values for Min and Max, and for Quantile in the modes lower, higher and nearest under the storage conditions of C11. Median (same conditions) and HeapMedian without a window: each result is the float64 nearest to a number, and these numbers are within eps, for values up to 2^1022. Mean and EWMA in exact arithmetic only: in float64 rounding can add to the difference (C92_float_refuted). HeapMedian with a window may change by much more, as it then loses another value (C92_heap_median_window_refuted). Quantile in the default linear mode: within eps and twice the rounding error bounded by C85, for values up to 2^1020 (C92_linear_partial)."
  },
  {
   "property": "C93",
   "status": "partial",
   "theorems": [
    "C93_mean_partial",
    "C93_ewma",
    "C93_median_partial",
    "C93_heap_median_partial",
    "C93_window_refuted",
    "C93_quantile_refuted"
   ],
   "note": "Proved in float64 for values up to 2^1022 and up to 2^53 operations, Median under the storage conditions of C11. With a window it is false, since another value leaves (C93_window_refuted); for other quantiles it is false, since their position moves (C93_quantile_refuted)."
  },
  {
   "property": "C94",
   "status": "partial",
   "theorems": [
    "C94_std_exact_partial",
    "C94_sharp"
   ],
   "note": "Proved in exact arithmetic for the code's recurrences; the factor cannot be improved (C94_sharp). In float64 the error bounds of C50 and C76 have to be added; where they do not apply the result may be NaN (C25)."
  },
  {
   "property": "C95",
   "status": "partial",
   "theorems": [
    "C95_median_partial",
    "C95_heap_median_partial",
    "C95_mean_best"
   ],
   "note": "The median is proved to be the float64 nearest to a number with these properties, under the conditions of C87 (absolute values up to 2^1022; HeapMedian without a window, as a window breaks it, C18). Mean and Std are compared in exact arithmetic."
  },
  {
   "property": "C96",
   "status": "partial",
   "theorems": [
    "C96_range_partial",
    "C96_sharp"
   ],
   "note": "Min and Max in float64, Mean and Std in exact arithmetic; in float64 the error bounds of C49 and C50 have to be added, and where these do not apply Std may be NaN (C25). The bounds are attained (C96_sharp)."
  },
  {
   "property": "C97",
   "status": "partial",
   "theorems": [
    "C97_quantile_partial",
    "C97_iqr_partial",
    "C97_iqr_range_partial",
    "C97_iqr_quarter_refuted"
   ],
   "note": "Proved in float64, under the storage conditions of C11, for lo and hi up to 2^1022 in absolute value and up to 2^53 live values, in the modes lower, higher, nearest and midpoint, and for IQR, which always uses midpoint. In the linear mode rounding can leave the range (C55). Exactly a quarter of wrong values does move IQR (C97_iqr_quarter_refuted)."
  },
  {
   "property": "C98",
   "status": "partial",
   "theorems": [
    "C98_range_exact_partial",
    "C98_latest_exact_partial",
    "C98_sharp"
   ],
   "note": "Proved in exact arithmetic for the code's recurrences; in float64 the error bounds of C76 have to be added. Both bounds are attained (C98_sharp)."
  },
  {
   "property": "C99",
   "status": "proved",
   "theorems": [
    "C99_min_max_heap",
    "C99_quantile",
    "C99_moment",
    "C99_joint",
    "C99_global"
   ],
   "note": "Decays are the subject of C24 and C34, quantile options of C15."
  },
  {
   "property": "C100",
   "status": "partial",
   "theorems": [
    "C100_cov_exact_partial",
    "C100_ewmcov_exact_partial",
    "C100_sharp"
   ],
   "note": "Proved in exact arithmetic for the code's recurrences; in float64 the error bounds of C77 and C79 have to be added. The bounds are attained (C100_sharp)."
  }
 ]
}