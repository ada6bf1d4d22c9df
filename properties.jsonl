{"id": "C01", "title": "Min is the minimum of the live window", "statement": "After any history of Push and Clear calls on a minmax.Min built with a nonnegative window w (0 = global), every Push has returned nil, and Value returns the 'no values' error exactly when nothing was pushed since the last Clear; otherwise it returns a value that was actually pushed, is among the last w values pushed since the last Clear (all of them if w = 0), and is <= each of those.", "quantifier": "every window size, every finite history of pushes of non-NaN float64s and clears", "why_tests_cant": "The monotone deque's content depends on the whole history; only an invariant over all push/evict/clear sequences and all window sizes rules out a stale or prematurely popped minimum.", "anchors": ["minmax/min.go: NewMin, NewGlobalMin, (*Min).Push, (*Min).Value, (*Min).Clear"]}
{"id": "C02", "title": "Max is the maximum of the live window", "statement": "Same as C01 for minmax.Max with >= in place of <=.", "quantifier": "every window size, every finite history of pushes of non-NaN float64s and clears", "why_tests_cant": "As C01; the Max code is a separate copy of the algorithm.", "anchors": ["minmax/max.go: NewMax, NewGlobalMax, (*Max).Push, (*Max).Value, (*Max).Clear"]}
{"id": "C03", "title": "A NaN stops affecting a windowed Min/Max once it has left the window", "statement": "In a windowed Min or Max, once a pushed NaN is no longer among the last w values, Value again is the minimum (maximum) of the last w values.", "quantifier": "every window size and every history containing NaNs", "why_tests_cant": "Needs every position of a NaN relative to every later eviction.", "anchors": ["minmax/min.go: (*Min).Push", "minmax/max.go: (*Max).Push"]}
{"id": "C04", "title": "The AVL order statistic is a sorted multiset", "statement": "After any sequence of Add, Remove and Clear on an avl.Tree, no call has panicked; Size is the number of stored values, where Add stores one more copy, Remove deletes exactly one copy of an equal value or nothing if none is stored; Select(k) yields the k-th smallest stored value for 0 <= k < Size and nil otherwise.", "quantifier": "every finite sequence of operations on non-NaN float64s, every k", "why_tests_cant": "Rotations with duplicate keys, deletions with two children and size/height bookkeeping interact over arbitrarily deep trees.", "anchors": ["quantile/ost/avl/tree.go: Tree", "quantile/ost/avl/node.go: add, remove, removeMin, balance, rotateLeft, rotateRight, Select"]}
{"id": "C05", "title": "The AVL tree stays logarithmically shallow", "statement": "After any sequence of Add, Remove and Clear, Height() is the true height of the tree, sibling subtree heights differ by at most one, and a tree of height h holds at least Fib(h+3)-1 values (so height is O(log n)).", "quantifier": "every finite sequence of operations", "why_tests_cant": "A worst case shape can only be excluded by an inductive balance invariant.", "anchors": ["quantile/ost/avl/node.go: balance, heightDiff, rotateLeft, rotateRight", "complexity.md: Quantile"]}
{"id": "C06", "title": "Rank counts the strictly smaller values (trees)", "statement": "For avl.Tree and rb.Tree, Rank(v) is the number of stored values strictly less than v.", "quantifier": "every reachable tree and every non-NaN v", "why_tests_cant": "Duplicates may end up on either side of their copy after rotations; only a statement over all reachable shapes settles it.", "anchors": ["quantile/ost/avl/node.go: Rank", "quantile/ost/rb/node.go: Rank"]}
{"id": "C07", "title": "The red-black order statistic is a sorted multiset", "statement": "As C04 for rb.Tree: no operation panics, Size/Select/Remove/Add behave as a sorted multiset.", "quantifier": "every finite sequence of operations on non-NaN float64s, every k", "why_tests_cant": "Deletion dereferences grandchildren without nil checks and relies on a colour invariant that is never re-established at the root; only an invariant over all histories shows there is no nil dereference and no lost subtree.", "anchors": ["quantile/ost/rb/tree.go: Tree", "quantile/ost/rb/node.go: add, remove, removeMin, moveRedLeft, moveRedRight, addBalance, removeBalance, contains, Select"]}
{"id": "C08", "title": "The red-black tree stays logarithmically shallow", "statement": "After any sequence of Add, Remove and Clear, every root-to-nil path crosses the same number of black nodes, below the root no red node has a red child and no red node is a right child, and the height is at most 2*log2(n+1)+1.", "quantifier": "every finite sequence of operations", "why_tests_cant": "As C05.", "anchors": ["quantile/ost/rb/node.go", "complexity.md: Quantile"]}
{"id": "C09", "title": "The skip list keeps its values as a sorted multiset whatever the coin flips", "statement": "After any sequence of Add, Remove and Clear on a skiplist.SkipList with any max level in [1,64] and any sequence of random levels, no call panics or loops, Size is the number of stored values and the bottom level lists exactly the stored values in nondecreasing order; Add stores one copy, Remove deletes exactly one equal copy or nothing.", "quantifier": "every operation sequence on non-NaN values, every max level, every outcome of the random source", "why_tests_cant": "The level of every node is random; tests see one seed.", "anchors": ["quantile/skiplist/skiplist.go: New, Add, Remove, Clear, Size, getPrevs, randLevel"]}
{"id": "C10", "title": "Skip list Select returns the k-th smallest value", "statement": "SkipList.Select(k) yields the k-th smallest stored value for 0 <= k < Size and nil otherwise, and Rank(v) is the number of stored values strictly less than v.", "quantifier": "every operation sequence, every outcome of the random source, every k and v", "why_tests_cant": "Depends on width bookkeeping across all levels for every coin-flip outcome and every pattern of duplicates.", "anchors": ["quantile/skiplist/skiplist.go: Add, Remove, Select, Rank, (*Node).equals"]}
{"id": "C11", "title": "Quantile returns the documented order statistic of the live window", "statement": "For a Quantile over AVL or red-black storage with window w and any interpolation mode, after any history of Push/Clear and for every q with 0<q<1: with n live values, i' = q*(n-1) in float64 and i = trunc(i'), Value(q) is the i-th smallest live value when i' is integral, otherwise the documented combination (linear, lower, higher, nearest with ties to even index, midpoint) of the i-th and (i+1)-th smallest; with no live values it is an error; out of range q is an error; it never panics.", "quantifier": "every window, mode, history of non-NaN pushes and clears, and every non-NaN q", "why_tests_cant": "Index arithmetic is rounded: only a proof over all q and n shows that i+1 never runs off the end and that the eviction removes the right value.", "anchors": ["quantile/quantile.go: New, Push, Value, Clear", "quantile/interpolation.go"]}
{"id": "C12", "title": "Quantile rejects every argument outside (0,1)", "statement": "Quantile.Value(q) returns an error, and does not panic, for every float64 q that is not strictly between 0 and 1.", "quantifier": "every float64 including NaN and infinities, every state", "why_tests_cant": "Requires covering all special float64 values in every state.", "anchors": ["quantile/quantile.go: Value"]}
{"id": "C13", "title": "Median and IQR of the live window", "statement": "quantile.Median over AVL or red-black storage returns the middle live value for odd n and the float64 midpoint of the two middle ones for even n; IQR returns q75 - q25 with midpoint interpolation; user supplied interpolation options cannot change this.", "quantifier": "every window, history, option list", "why_tests_cant": "As C11.", "anchors": ["quantile/median.go", "quantile/iqr.go", "quantile/option.go"]}
{"id": "C14", "title": "The choice of implementation is unobservable", "statement": "Two Quantiles that differ only in the chosen implementation (AVL, RedBlack, SkipList) return numerically equal results for every query after the same history.", "quantifier": "every history, every query, every random source outcome", "why_tests_cant": "Relational property over all histories of two structures.", "anchors": ["quantile/impl.go", "quantile/option.go: ImplOption", "quantile/quantile.go"]}
{"id": "C15", "title": "Quantile option validation", "statement": "New/NewMedian/NewIQR succeed exactly when the window is nonnegative and every option is valid (known Impl, known Interpolation, skip list max level in [1,64], probability strictly in (0,1)); otherwise they return an error and no metric; options apply left to right.", "quantifier": "every window and every option list", "why_tests_cant": "Option lists are unbounded and order dependent.", "anchors": ["quantile/quantile.go: New", "quantile/option.go", "quantile/impl.go", "quantile/skiplist/option.go"]}
{"id": "C16", "title": "container/heap backed Heap keeps the heap order", "statement": "After any sequence of Push, Pop, Update and Remove on a heap.Heap the smallest element w.r.t. its comparator is at the top, the stored multiset is the expected one and every item's recorded index is its true position.", "quantifier": "every operation sequence, either comparator", "why_tests_cant": "Sift-up/sift-down over arbitrary sizes with index bookkeeping.", "anchors": ["quantile/heap/heap.go", "quantile/heap_median.go: fmax, fmin"]}
{"id": "C17", "title": "Global HeapMedian is the median", "statement": "HeapMedian with window 0 returns the median of all values pushed since the last Clear (float64 midpoint of the two middle values when their number is even), never panics and errors exactly on the empty history.", "quantifier": "every history of non-NaN pushes and clears", "why_tests_cant": "Two-heap balance over unbounded histories.", "anchors": ["quantile/heap_median.go: Push, rebalance, Value, Clear"]}
{"id": "C18", "title": "Windowed HeapMedian is the median of the last w values", "statement": "HeapMedian with window w>0 never panics and Value is the median of the last w values pushed since the last Clear.", "quantifier": "every w>0 and history", "why_tests_cant": "The eviction queue and the heaps only disagree after particular rebalancing patterns.", "anchors": ["quantile/heap_median.go: Push, rebalance"]}
{"id": "C19", "title": "Moment core tracks exact central power sums of the live window", "statement": "In exact arithmetic, for a moment.Core without decay tracking powers up to K<=20 with window w, after any history of Push and Clear: Count is the number n of live values, Mean is their mean and Sum(k) is the sum over live values of (x-mean)^k for 1<=k<=K; with n=0 Mean and Sum are errors; Sum(k) is an error for k<=0 or k>K; Push never fails.", "quantifier": "every K<=20, window, history over the reals", "why_tests_cant": "The update is an algebraic recurrence (and its inverse for eviction); tests only sample points.", "anchors": ["moment/core.go: NewCore, UnsafePush, add, remove, UnsafeMean, UnsafeSum, UnsafeClear"]}
{"id": "C20", "title": "Moment metrics return the documented statistics", "statement": "In exact arithmetic Mean, Moment(k) (k<=20), Std, Skewness and Kurtosis return respectively the mean, the k-th central sum divided by n-1, the square root of the sample variance, the adjusted Fisher-Pearson skewness and the excess kurtosis of the live window whenever these are defined (n>=2, n>=3, nonzero variance), are non-finite without an error when the denominator is zero, and return an error on an empty window or when no core is set.", "quantifier": "every window and history over the reals", "why_tests_cant": "As C19; the formula must hold for all data.", "anchors": ["moment/mean.go", "moment/moment.go", "moment/std.go", "moment/skewness.go", "moment/kurtosis.go"]}
{"id": "C21", "title": "Exponentially weighted moments have the documented closed form", "statement": "In exact arithmetic, with decay d in (0,1), after pushes x1..xn EWMA is the weighted average with weights (1-d)^(n-1), d(1-d)^(n-2), ..., d and EWMMoment(k) is the same weighted sum of (xi - EWMA)^k for k<=20; EWMStd is its square root for k=2.", "quantifier": "every d in (0,1), k, history over the reals", "why_tests_cant": "Recurrence versus closed form for all lengths.", "anchors": ["moment/core.go: addDecay", "moment/ewma.go", "moment/ewmmoment.go", "moment/ewmstd.go"]}
{"id": "C22", "title": "Binomial coefficients are exact", "statement": "Binom(n,k) is the binomial coefficient for 0<=k<=n.", "quantifier": "all 0<=k<=n", "why_tests_cant": "Machine integer overflow appears only beyond the tested range.", "anchors": ["util/math/math.go: Binom, factorial"]}
{"id": "C23", "title": "Moment of any order is right", "statement": "C19 holds for every positive order k accepted by the configuration, with no panic.", "quantifier": "every positive k, every history", "why_tests_cant": "Orders beyond 20 exercise integer overflow in the coefficients.", "anchors": ["moment/core.go: add", "moment/config.go: validateConfig", "util/math/math.go: Binom"]}
{"id": "C24", "title": "Moment configuration is validated exactly", "statement": "NewCore accepts a configuration exactly when Window is set and nonnegative, Decay, if set, lies strictly in (0,1) and is not combined with a nonzero window, and every tracked power is positive; MergeConfigs of several configs tracks exactly the union of the powers, keeps the common window and decay, and fails exactly when two set windows or two set decays differ (or no config is given).", "quantifier": "every list of configurations", "why_tests_cant": "Unbounded lists of configurations with optional fields, special float64 decays.", "anchors": ["moment/config.go", "moment/core.go: NewCore"]}
{"id": "C25", "title": "Finite data never yields a NaN standard deviation", "statement": "With at least two live finite values, Std.Value in float64 arithmetic is not NaN.", "quantifier": "every window and history of finite float64s", "why_tests_cant": "Rounding drift depends on the entire history.", "anchors": ["moment/core.go: remove", "moment/std.go: Value"]}
{"id": "C26", "title": "Global joint core tracks exact joint central sums", "statement": "In exact arithmetic a joint.Core without window or decay returns, for every tuple m below a configured tuple other than the all-zero one, the sum over all pushed points of the product of (x_i - mean_i)^(m_i); Mean(i) is the i-th mean; Count is the number of points.", "quantifier": "every configuration (exponents <=20, total degree <=62, hash-collision free), every history over the reals", "why_tests_cant": "Multinomial recurrence for all dimensions and exponents.", "anchors": ["joint/core.go: NewCore, add, UnsafeSum, UnsafeMean", "joint/tuple.go"]}
{"id": "C27", "title": "Windowed joint core tracks exact joint central sums of the live window", "statement": "C26 holds with a window w: sums range over the last w points.", "quantifier": "every configuration, window and history over the reals", "why_tests_cant": "Eviction is the inverse recurrence applied tuple by tuple; configurations whose tuples share sub-tuples matter.", "anchors": ["joint/core.go: remove"]}
{"id": "C28", "title": "Cov and Corr are the sample covariance and Pearson correlation of the live window", "statement": "In exact arithmetic, after any history, Cov is the sample covariance (n>=2) and Corr the Pearson coefficient (nonzero variances) of the last w pairs; |Corr|<=1; wrong arity pushes are rejected without effect.", "quantifier": "every window and history over the reals", "why_tests_cant": "As C27.", "anchors": ["joint/cov.go", "joint/corr.go"]}
{"id": "C29", "title": "Exponentially weighted covariance and correlation", "statement": "In exact arithmetic EWMCov and EWMCorr have the closed form with exponential weights.", "quantifier": "every decay in (0,1), history over the reals", "why_tests_cant": "As C21.", "anchors": ["joint/core.go: addDecay", "joint/ewmcov.go", "joint/ewmcorr.go"]}
{"id": "C30", "title": "Autocov/Autocorr pair each value with the one pushed lag steps earlier", "statement": "For lag l and window w, after any history Autocov/Autocorr equal the covariance/correlation of the last w pairs (x_t, x_(t-l)) of the values pushed since the last Clear; Value is an error until l+1 values were pushed.", "quantifier": "every lag, window and history over the reals", "why_tests_cant": "Interaction of lag queue, window queue and clear over all histories.", "anchors": ["joint/autocov.go", "joint/autocorr.go"]}
{"id": "C31", "title": "Tuple hashing has no collisions for exponents below 31", "statement": "Two exponent tuples of equal length with entries in [0,30] have different hashes.", "quantifier": "every length, all such tuples", "why_tests_cant": "A 64-bit polynomial hash over unbounded lengths.", "anchors": ["joint/tuple.go: hash"]}
{"id": "C32", "title": "Sum rejects untracked tuples", "statement": "Core.Sum(m) returns an error for every tuple m that is not below a configured tuple, and the documented sum otherwise, including the all-zero tuple.", "quantifier": "every configuration, every argument tuple", "why_tests_cant": "Lookups go through a non-injective hash.", "anchors": ["joint/core.go: UnsafeSum", "joint/tuple.go: hash"]}
{"id": "C33", "title": "Pushed points are captured by value", "statement": "Mutating a slice after passing it as Push(xs...) to a joint core or metric does not change any later result.", "quantifier": "every history and every mutation of caller-owned slices", "why_tests_cant": "Aliasing shows up only at eviction time, w pushes later.", "anchors": ["joint/core.go: UnsafePush"]}
{"id": "C34", "title": "Joint configuration is validated exactly and merged soundly", "statement": "joint.NewCore never panics on a non-nil config and accepts exactly the documented configurations; MergeConfigs returns an error or a config in which each requested tuple is below some kept tuple; it never panics.", "quantifier": "every list of configurations", "why_tests_cant": "Unbounded configuration lists; tuples of different lengths.", "anchors": ["joint/config.go", "joint/core.go: NewCore"]}
{"id": "C35", "title": "Clear is equivalent to a fresh metric", "statement": "After Clear every metric behaves, for every subsequent history, as a newly constructed one with the same parameters.", "quantifier": "every metric type, every history before and after the Clear", "why_tests_cant": "Residual state may only show many pushes later.", "anchors": ["Clear methods in minmax, moment, joint, quantile"]}
{"id": "C36", "title": "Reservoir holds min(n,Size) values from distinct stream positions", "statement": "After n pushes Sample has min(n,max(Size,0)) elements which come from distinct positions of the stream; the returned slice is a copy.", "quantifier": "every Size, stream and outcome of the random source", "why_tests_cant": "Random choices; tests see one seed.", "anchors": ["sample/sample.go"]}
{"id": "C37", "title": "Reservoir sampling is uniform", "statement": "If the random choices are uniform and independent, after n>=Size pushes every subset of Size stream positions is equally likely to be the sample, so every position is included with probability Size/n.", "quantifier": "every Size>=1, n>=Size", "why_tests_cant": "A distributional claim over all random outcomes.", "anchors": ["sample/sample.go: Push"]}
{"id": "C38", "title": "Aggregate Push reaches every metric exactly once under every schedule", "statement": "SimpleAggregateMetric.Push (and the joint version) pushes the value exactly once to every metric, in every interleaving of its goroutines, and returns nil iff every metric's Push returned nil; a failing metric does not prevent the others from receiving the value.", "quantifier": "every list of metrics, every goroutine schedule", "why_tests_cant": "Goroutine interleavings.", "anchors": ["aggregate/simple_aggregate.go: Push", "aggregate/simple_joint_aggregate.go: Push"]}
{"id": "C39", "title": "Aggregate Values is schedule independent", "statement": "SimpleAggregateMetric.Values returns an error iff some metric's Value does, and otherwise the map from each metric's String() to its value, whatever the schedule.", "quantifier": "every list of metrics, every goroutine schedule", "why_tests_cant": "Map writes race for equal keys; needs all interleavings.", "anchors": ["aggregate/simple_aggregate.go: Values", "aggregate/simple_joint_aggregate.go: Values"]}
{"id": "C40", "title": "Concurrent calls are linearizable", "statement": "Any concurrent execution of Push/Value/Clear calls on a metric protected by its mutex gives the results of executing the same calls one at a time in an order consistent with real time.", "quantifier": "every number of goroutines, call mix and interleaving", "why_tests_cant": "Interleavings cannot be enumerated by tests.", "anchors": ["minmax/*.go", "quantile/heap_median.go", "quantile/quantile.go", "moment/core.go: Push/Mean/Sum/Clear", "joint/core.go"]}
{"id": "C41", "title": "Concurrent use never deadlocks", "statement": "With any number of goroutines calling Push, Value and Clear on one metric, as long as some call is unfinished some goroutine can make progress.", "quantifier": "every metric, number of goroutines and schedule", "why_tests_cant": "Needs all interleavings, including writer arrival between two read locks of one call.", "anchors": ["moment/mean.go: Value", "moment/moment.go: Value", "joint/cov.go: Value", "quantile/iqr.go: Value", "sync.RWMutex use in all cores"]}
{"id": "C42", "title": "Independent metrics may be used from different goroutines", "statement": "Two goroutines using two different moment metrics do not affect each other's results.", "quantifier": "every schedule", "why_tests_cant": "Shared package-level factorial cache; needs the interleaving between its reads.", "anchors": ["util/math/math.go: factorials, factorial"]}
{"id": "C43", "title": "String() distinguishes metrics with different parameters", "statement": "Two metrics with different kinds or parameters (window, lag, order) have different String() results, so they do not overwrite each other in an aggregate's Values map.", "quantifier": "all parameter values", "why_tests_cant": "Injectivity over all integers.", "anchors": ["String methods in minmax, moment, joint, quantile"]}
{"id": "C44", "title": "A failed call has no effect", "statement": "A Push that returns an error (no core, wrong arity) leaves the metric's state, hence all later results, unchanged.", "quantifier": "every state and argument list", "why_tests_cant": "Quantifies over every state.", "anchors": ["joint/core.go: UnsafePush", "joint/cov.go: Push", "moment/*.go: Push"]}
{"id": "C45", "title": "Quantile over the default storage is exact", "statement": "With the default (AVL) implementation, for every window, interpolation option, and history of Push/Clear, Value(q) for 0<q<1 is the documented quantile of exactly the live values, an empty window is reported as an error, an out of range q is an error, and nothing panics.", "quantifier": "every window, valid option list without another implementation, history of non-NaN pushes and clears, every non-NaN q, up to 2^53 live values", "why_tests_cant": "The index is the rounded product q*(n-1); only a proof over all q and n excludes running off the end, and only induction over histories relates the tree to the window.", "anchors": ["quantile/quantile.go: New, Push, Value, Clear", "quantile/ost/avl/tree.go", "quantile/ost/avl/node.go"]}
{"id": "C46", "title": "Changing Reservoir.Size between pushes is safe", "statement": "Assigning the exported field Size between pushes never makes a later Push panic.", "quantifier": "every sequence of pushes and assignments, every outcome of the random choices", "why_tests_cant": "The failing random choices have small probability.", "anchors": ["sample/sample.go: Reservoir, Push"]}
{"id": "C47", "title": "A skip list with equal values errs only downwards and never fails", "statement": "After any sequence of Add, Remove and Clear of non-NaN values (equal ones included) and whatever the coin flips, SkipList.Select(k) for 0<=k<Size returns a stored value that is not above the k-th smallest, nil otherwise; Rank(v) is at least the number of smaller values; neither panics nor loops. Hence Push and Value(q), 0<q<1, of a Quantile over a skip list never fail on a nonempty window, and with Lower, Higher or Nearest interpolation the result is a live value not above the documented quantile.", "quantifier": "all histories, all level choices of the random source, all k, v, q, windows and options", "why_tests_cant": "the wrong answers depend on the coin flips and on the order of equal values; a test sees one random sequence", "anchors": ["quantile/skiplist/skiplist.go: Add, Remove, Select, Rank", "quantile/quantile.go: Value"]}
{"id": "C48", "title": "The mean lies within the data", "statement": "Whenever some value is live, Mean.Value and EWMA.Value are finite and neither below the smallest nor above the largest live value, in float64 arithmetic.", "quantifier": "every history of Push and Clear of finite values of magnitude up to 2^1022 (up to 2^53 operations), every window, every decay in (0,1)", "why_tests_cant": "Rounding in each update could push the result past the extremes; it depends on the exact bits of all values pushed so far.", "anchors": ["moment/core.go: add, addDecay, remove", "moment/mean.go: Mean.Value", "moment/ewma.go: EWMA.Value"]}
{"id": "C49", "title": "Mean is accurate however long the stream and whatever the window", "statement": "With any window, after any history of values of magnitude at most B, Mean.Value is an error exactly if no value is live and otherwise differs from the mean of the live values by at most 34 n 2^-53 B, n being the number of values pushed since the last Clear.", "quantifier": "every window, every history of up to 2^40 operations on finite values, every B from 2^-400 to 2^400 bounding them", "why_tests_cant": "The mean is updated incrementally by adding and removing values; errors could accumulate or be amplified over long streams in ways a finite test does not show.", "anchors": ["moment/core.go: UnsafePush, add, remove", "moment/mean.go: Mean.Value"]}
{"id": "C50", "title": "Variance and Std are accurate", "statement": "With any window and two or more live values, Moment(2).Value is finite and within 1000 n^2 2^-53 B^2 of the sample variance of the live values; where the variance exceeds this, Std.Value is not NaN and its square is within 1100 n^2 2^-53 B^2 of the variance.", "quantifier": "every window, every history of up to 2^40 operations on finite values of magnitude at most B, every B from 2^-400 to 2^400", "why_tests_cant": "Updates of the sum of squares subtract nearly equal numbers; only an induction over the history bounds the accumulated error for all data.", "anchors": ["moment/core.go: UnsafePush, add, remove, Sum", "moment/moment.go: Moment.Value", "moment/std.go: Std.Value"]}
{"id": "C51", "title": "A NaN or infinity stops affecting windowed moments once it has left the window", "statement": "Once a value that is not finite has left the window, Mean, Moment, Std, Skewness and Kurtosis again depend on the live values only.", "quantifier": "every window, every history of pushes (finite or not) and clears", "why_tests_cant": "Whether the incremental state ever recovers is a statement about all continuations of the history.", "anchors": ["moment/core.go: UnsafePush, add, remove", "moment/mean.go", "moment/moment.go", "moment/std.go", "moment/skewness.go", "moment/kurtosis.go"]}
{"id": "C52", "title": "No call panics or blocks, whatever the values", "statement": "Push, Value and Clear of every metric that was constructed without an error return normally (with a result or an error) for all float64 values, NaN and infinities included; Value returns an error exactly when there is nothing to report.", "quantifier": "every metric, accepted configuration, window and history of pushes and clears of arbitrary float64 values", "why_tests_cant": "A panic may need one particular sequence of values and evictions; absence of panics is a statement about all histories.", "anchors": ["minmax/min.go: Push, Value", "minmax/max.go: Push, Value", "moment/core.go: UnsafePush, add, addDecay, remove", "joint/core.go: UnsafePush, add, addDecay, remove", "joint/autocov.go: Push, Value", "joint/autocorr.go: Push, Value", "quantile/quantile.go: Push, Value", "quantile/ost/avl/node.go: add, remove", "quantile/ost/rb/node.go: add", "quantile/heap_median.go: Push, Value", "quantile/skiplist/skiplist.go: Add"]}
{"id": "C53", "title": "A NaN that left the window no longer influences quantiles", "statement": "Once every NaN has left the window, Quantile, Median, IQR and HeapMedian return what a fresh metric given only the live values returns.", "quantifier": "every window, implementation and history of pushes of arbitrary float64 values whose live values contain no NaN", "why_tests_cant": "It depends on where the NaN sat in a tree or heap when it is evicted, hence on the whole history.", "anchors": ["quantile/quantile.go: Push", "quantile/ost/avl/node.go: remove", "quantile/ost/rb/tree.go: Remove", "quantile/heap_median.go: Push"]}
{"id": "C54", "title": "Memory is bounded by the window", "statement": "A metric with window w > 0 holds at most w values in each of its containers, however many values were pushed.", "quantifier": "every window w > 0, metric and history of pushes and clears", "why_tests_cant": "A leak shows only in the limit, and may need particular values.", "anchors": ["minmax/min.go: Push", "minmax/max.go: Push", "quantile/quantile.go: Push", "quantile/heap_median.go: Push", "moment/core.go: UnsafePush", "joint/core.go: UnsafePush"]}
{"id": "C55", "title": "Quantiles lie within the data", "statement": "Value of Quantile and Median is at least the smallest and at most the largest live value.", "quantifier": "every environment, window, option list, history of pushes and clears and argument strictly between 0 and 1", "why_tests_cant": "Interpolation rounds; whether the rounded result can leave the range depends on all values, sizes and arguments.", "anchors": ["quantile/quantile.go: Value", "quantile/interpolation.go", "quantile/median.go: Value", "quantile/iqr.go: Value"]}
{"id": "C56", "title": "Quantiles grow with their argument", "statement": "If p1 <= p2 then Value(p1) <= Value(p2); hence IQR is not negative.", "quantifier": "every environment, window, option list, history of pushes and clears and pair of arguments strictly between 0 and 1", "why_tests_cant": "It compares the results of all pairs of arguments over all data, with rounding.", "anchors": ["quantile/quantile.go: Value", "quantile/interpolation.go", "quantile/median.go: Value", "quantile/iqr.go: Value"]}
{"id": "C57", "title": "Results follow a change of unit and origin", "statement": "If every pushed value x is replaced by a*x+b, then (in exact arithmetic) Mean and EWMA become a*m+b; Moment(k) and EWMMoment(k) are multiplied by a^k; Std and EWMStd by |a|; Skewness by the sign of a; Kurtosis is unchanged; Cov and EWMCov by the product of the two factors, Corr and EWMCorr by the product of their signs; Autocov by a^2; Autocorr is unchanged. Errors occur in the same cases.", "quantifier": "every window, decay, lag, order up to 20, history of pushes and clears, and every a and b (a not 0 for the ratios)", "why_tests_cant": "It relates two runs on arbitrary data and arbitrary factors; rounding hides it in any concrete run.", "anchors": ["moment/*.go: Value", "joint/*.go: Value"]}
{"id": "C58", "title": "Results depend only on the values covered", "statement": "Two histories whose covered values (those in the window since the last Clear) are the same up to order give the same result, whatever was pushed or evicted before: Mean, Moment, Std, Skewness, Kurtosis, Cov, Corr, sums of the joint core, Min, Max, Quantile, HeapMedian.", "quantifier": "every pair of windows and histories whose covered values are permutations of each other", "why_tests_cant": "It compares all pairs of histories, with every past that led to the same window.", "anchors": ["moment/core.go", "joint/core.go", "minmax/*.go", "quantile/quantile.go", "quantile/heap_median.go"]}
{"id": "C59", "title": "A correlation lies between -1 and 1", "statement": "Every finite value returned by Corr, EWMCorr or Autocorr lies between -1 and 1.", "quantifier": "every window, decay, lag and history", "why_tests_cant": "The bound is an inequality between sums over arbitrary data.", "anchors": ["joint/corr.go: Value", "joint/ewmcorr.go: Value", "joint/autocorr.go: Value"]}
{"id": "C60", "title": "Order statistics commute with monotone maps", "statement": "If every value is passed through a non-decreasing function f before it is pushed, then Min, Max and the quantiles that return one of the values (lower, higher, nearest) are f of what they were; a non-increasing f turns Min into Max.", "quantifier": "every window, history without NaN, argument and monotone function on float64", "why_tests_cant": "It ranges over all functions and all histories; f may merge values, which changes the shape of trees and deques.", "anchors": ["minmax/min.go", "minmax/max.go", "quantile/quantile.go: Value"]}
{"id": "C61", "title": "A constant stream is summarised exactly", "statement": "If every pushed value is the finite number x, then in float64 Mean and EWMA return x, and Moment(k), Std, EWMMoment(k) and EWMStd return 0 (Moment and Std from two values on), however long the stream and whatever the window.", "quantifier": "every finite float64 x, window, decay in (0,1), order up to 20 and history of up to 2^40 pushes of x and clears", "why_tests_cant": "Rounding errors could build up after any number of additions and removals; a test runs a few.", "anchors": ["moment/core.go: add, remove, addDecay", "moment/mean.go: Value", "moment/std.go: Value", "moment/ewma.go: Value"]}
{"id": "C62", "title": "Sharing one core between metrics changes no result", "statement": "If the configurations of several metrics are merged with MergeConfigs, a core is made from the result and set as the core of each of them with SetCore, then the Value of each metric is, bit for bit, what it would be with a core of its own after the same calls, whether the calls are made on the core or on any of the metrics.", "quantifier": "every group of Mean, Moment, Std, Skewness, Kurtosis, EWMA, EWMMoment and EWMStd, or of Cov, Corr, EWMCov and EWMCorr, that is accepted, and every history of calls, including infinities and NaN", "why_tests_cant": "The shared core tracks other sums than the own one would, in an order that depends on the group; equality of every float64 bit over all histories and groups cannot be sampled.", "anchors": ["moment/config.go: MergeConfigs", "moment/core.go: NewCore, add, addDecay, remove", "moment/metric.go: Metric.SetCore", "joint/config.go: MergeConfigs, simplifySums", "joint/core.go: NewCore, add, addDecay, remove"]}
{"id": "C63", "title": "Quantile, Median and IQR take logarithmic time", "statement": "With n values tracked, Push and Value of Quantile, Median and IQR each take O(log n) steps, with any storage, as documented.", "quantifier": "every window, every list of options, every history of Push and Clear without NaN, and every next Push or Value", "why_tests_cant": "A benchmark samples a few sizes and orders; the bound has to hold for every history, and a logarithmic factor is not visible in a timing.", "anchors": ["complexity.md: Quantile, Median, IQR", "quantile/quantile.go: Push, Value", "quantile/ost/avl/node.go: add, remove, removeMin, min, Select, Rank", "quantile/ost/rb/node.go: add, remove, contains, min, removeMin, Select, Rank"]}
{"id": "C64", "title": "HeapMedian pushes in logarithmic time", "statement": "With n values tracked, Push of HeapMedian takes O(log n) steps.", "quantifier": "every window, every history of Push and Clear of any values including NaN and infinities, and every next Push", "why_tests_cant": "The bound has to hold for every history and every arrangement of the two heaps.", "anchors": ["complexity.md: HeapMedian", "quantile/heap_median.go: Push, rebalance", "quantile/heap/heap.go: Push, Pop, Update, Remove"]}
{"id": "C65", "title": "Min and Max take constant amortised time", "statement": "Any history of k calls of Push and Clear on Min or Max takes at most a constant times k steps in total.", "quantifier": "every window and every history of calls with any values", "why_tests_cant": "A single Push may scan the whole window, so the claim is about sums over whole histories of any length.", "anchors": ["complexity.md: Min, Max", "minmax/min.go: Push", "minmax/max.go: Push"]}
{"id": "C66", "title": "Moment and joint metrics push in the documented time", "statement": "Push takes O(K^2) steps on a univariate core whose largest exponent is K, and O(t d a^2) on a multivariate core with t tuples of d variables, each with at most a tuples below it, whatever the number of values seen; so Push of Mean, Std, Skewness, Kurtosis, EWMA, EWMStd, Cov, Corr, EWMCov, EWMCorr, Autocov and Autocorr takes constant time, and Push of Moment and EWMMoment of order k takes O(k^2).", "quantifier": "every valid configuration, every history of calls and every next Push, in any arithmetic", "why_tests_cant": "Benchmarks sample a few configurations; the bound has to hold for every configuration and history.", "anchors": ["complexity.md: Moment-Based Statistics, Joint Distribution Statistics", "moment/core.go: Push, add, addDecay, remove", "joint/core.go: Push, add, addDecay, remove", "joint/tuple.go"]}
{"id": "C67", "title": "Autocov and Autocorr are Cov and Corr of lagged pairs", "statement": "Autocov(lag, w) and Autocorr(lag, w) return, bit for bit, what Cov(w) and Corr(w) return when each value is pushed to them together with the value pushed lag calls earlier since the last Clear, and an error while there is no such pair.", "quantifier": "every lag, window and history of Push and Clear, in any arithmetic; float64 with NaN and infinities included", "why_tests_cant": "The relation is between whole histories of two metrics, of any length, with Clear at any point.", "anchors": ["joint/autocov.go: Push, Value, Clear", "joint/autocorr.go: Push, Value, Clear", "joint/cov.go", "joint/corr.go"]}
{"id": "C68", "title": "The statistics of one stream are in order", "statement": "On the same values Quantile, Median, HeapMedian, Mean and EWMA all lie between Min and Max, and HeapMedian equals Median.", "quantifier": "every window, storage, option, quantile in (0,1), decay and history of non-NaN values", "why_tests_cant": "Rounding could push any of them over the bounds on some history; tests sample a few.", "anchors": ["minmax/min.go", "minmax/max.go", "quantile/quantile.go", "quantile/median.go", "quantile/heap_median.go", "moment/mean.go", "moment/ewma.go"]}
{"id": "C69", "title": "Inequalities and identities between moments", "statement": "Without rounding: Mean lies between the bounds m and M of the values; Std^2 is Moment(2) and at most n/(n-1) (M - Mean)(Mean - m); excess Kurtosis is at most n - 3 and at least -2 plus (n-2)^2/(n(n-1)) times the squared Skewness; EWMStd^2 is EWMMoment(2) and at most (M - EWMA)(EWMA - m); Cov(x, x) and Autocov with lag 0 are Moment(2); Corr(x, x) and Autocorr with lag 0 are 1; Cov and Corr are symmetric.", "quantifier": "every window, decay in (0,1), bounds and history of Push and Clear of real numbers", "why_tests_cant": "They relate the results of several metrics for every history; a test compares them on a few lists.", "anchors": ["moment/mean.go", "moment/moment.go", "moment/std.go", "moment/skewness.go", "moment/kurtosis.go", "moment/ewma.go", "moment/ewmmoment.go", "moment/ewmstd.go", "joint/cov.go", "joint/corr.go", "joint/autocov.go", "joint/autocorr.go"]}
{"id": "C70", "title": "With a skip list, Quantile takes logarithmic time on average", "statement": "With n values tracked in a skip list, Push and Value of Quantile each take O(log n) steps on average over the random numbers the skip list draws, as documented.", "quantifier": "every window, level limit, probability, interpolation, history of Push and Clear without NaN, next Push or Value, and distribution of independent random numbers given by a list of equally likely ones", "why_tests_cant": "The bound is on an average over all the random numbers, for every history; a benchmark samples a few sizes and seeds, and the linear term only shows beyond millions of values.", "anchors": ["complexity.md: Quantile", "quantile/skiplist/skiplist.go: Add, Remove, Select, Rank, getPrevs, randLevel", "quantile/skiplist/option.go", "quantile/quantile.go: Push, Value"]}
{"id": "C71", "title": "String of a tree draws the tree", "statement": "String of an AVL or red-black tree returns one line per stored value, largest first, and the drawing determines the tree: two trees with equal strings have the same shape and the same printed values at the same places.", "quantifier": "every history of Add, Remove and Clear without NaN, every printing of values without line breaks", "why_tests_cant": "A test compares the drawing of one tree; that no value is lost and that the bars and corners are unambiguous concerns all trees.", "anchors": ["quantile/ost/avl/tree.go: String", "quantile/ost/avl/node.go: TreeString, treeString", "quantile/ost/rb/tree.go: String", "quantile/ost/rb/node.go: TreeString, treeString"]}
{"id": "C72", "title": "String of a skip list draws its levels", "statement": "String of a skip list returns one line per level, highest first, each with the values that reach the level in ascending order and dashes for the distances between them. It never panics.", "quantifier": "every level limit, probabilities, random source, and history of Add, Remove and Clear without NaN", "why_tests_cant": "The panic needs a particular combination of equal values, removals and random heights; correctness is for all of them.", "anchors": ["quantile/skiplist/skiplist.go: String, string"]}
{"id": "C73", "title": "A core keeps the configuration it was made with", "statement": "After NewCore, whatever the caller does with the config it passed, and with the values its pointers, maps and slices refer to, the core answers as if the config had never changed.", "quantifier": "every program that makes and changes configs, shares their pointers, maps and slices, merges them, makes cores and uses them", "why_tests_cant": "It is about all ways to share and change memory between the creation of a core and its uses; tests build a config, use it once and drop it.", "anchors": ["moment/core.go: NewCore, Push, Clear", "moment/config.go: CoreConfig, MergeConfigs", "joint/core.go: NewCore, Push, Clear", "joint/config.go: CoreConfig, MergeConfigs"]}
{"id": "C74", "title": "NewCore has no side effect on configurations", "statement": "NewCore leaves the contents of every config as they were, and gives the core for the contents of its argument, whatever configs and cores were made before.", "quantifier": "every program that makes and changes configs, shares their pointers, maps and slices, merges them, makes cores and uses them", "why_tests_cant": "A side effect shows only in a later use of the same or of another config; there is no bound on what happens in between.", "anchors": ["moment/core.go: NewCore", "moment/config.go: setConfigDefaults, defaultConfig", "joint/core.go: NewCore", "joint/config.go: setConfigDefaults, defaultConfig"]}
{"id": "C75", "title": "MergeConfigs makes a new config", "statement": "MergeConfigs returns a config with the merged contents of its arguments and changes none of them; changing the result later changes none of them either. If it returns an error nothing changes.", "quantifier": "every program before it, every list of configs, every sequence of changes to the result", "why_tests_cant": "Sharing between the result and the arguments shows only under later changes; all sequences of changes are meant.", "anchors": ["moment/config.go: MergeConfigs", "joint/config.go: MergeConfigs, simplifySums"]}
{"id": "C76", "title": "Exponentially weighted metrics are accurate in float64", "statement": "EWMA, EWMMoment(2) and EWMStd computed in float64 stay within a fixed multiple of the rounding unit of the exact exponentially weighted mean, variance and standard deviation of the values pushed since the last Clear, however many they are; the variance is never negative and the standard deviation never NaN.", "quantifier": "every decay in (0,1) (at least 2^-40 for variance and standard deviation), every bound B between 2^-400 and 2^400, every history of pushes of magnitude at most B and Clears, of any length", "why_tests_cant": "Rounding errors accumulate over the history; a test sees one stream of one length and cannot tell a bounded error from one that grows.", "anchors": ["moment/ewma.go: Push, Value", "moment/ewmmoment.go: Value", "moment/ewmstd.go: Value", "moment/core.go: addDecay, Push"]}
{"id": "C77", "title": "Cov and Autocov are accurate in float64", "statement": "The covariance computed in float64 from two or more live points is finite and within 1000 n^2 2^-53 B^2 of the exact sample covariance of those points, where n is the number of points pushed since the last Clear and B bounds their coordinates; the same holds for Autocov and the pairs (x_t, x_{t-lag}).", "quantifier": "every window (0 for none), every lag, every bound B between 2^-400 and 2^400, every history of at most 2^40 calls pushing coordinates of magnitude at most B, with Clears anywhere", "why_tests_cant": "With a window, each push subtracts an old point and adds a new one, so rounding errors of all points ever pushed stay in the sums; a test sees the error of one stream.", "anchors": ["joint/cov.go: Push, Value", "joint/autocov.go: Push, Value", "joint/core.go: add, remove, Push"]}
{"id": "C78", "title": "Corr and Autocorr are accurate in float64 on points that spread", "statement": "With d = 800 n^2 2^-53 B^2: if the sums of squared deviations X and Y of the two coordinates of the live points are at least 10 d, the correlation computed in float64 is finite (not NaN) and within 3/2 d (1/X + 1/Y) of Pearson's coefficient; the same holds for Autocorr and the pairs (x_t, x_{t-lag}).", "quantifier": "every window (0 for none), every lag, every bound B between 2^-200 and 2^200, every history of at most 2^40 calls pushing coordinates of magnitude at most B, with Clears anywhere, whose live points spread as stated", "why_tests_cant": "The product of the sums can overflow, underflow or turn negative by rounding; whether it does depends on the whole history.", "anchors": ["joint/corr.go: Push, Value", "joint/autocorr.go: Push, Value", "joint/core.go: add, remove, Push"]}
{"id": "C79", "title": "EWMCov and EWMCorr are accurate in float64", "statement": "EWMCov computed in float64 is an error exactly if nothing was pushed since the last Clear, and otherwise finite and within 1000 2^-53 B^2 / decay of the exact exponentially weighted covariance, however many points were pushed. With g that bound, EWMCorr is finite and within 3/2 g (1/X + 1/Y) of the exponentially weighted correlation whenever the weighted variances X and Y of the coordinates are at least 10 g.", "quantifier": "every decay from 2^-40 to 1, every bound B on the coordinates (between 2^-400 and 2^400 for EWMCov, 2^-200 and 2^200 for EWMCorr), every history of pushes and Clears, of any length", "why_tests_cant": "Rounding errors accumulate over the history; a test sees one stream of one length and cannot tell a bounded error from one that grows.", "anchors": ["joint/ewmcov.go: Push, Value", "joint/ewmcorr.go: Push, Value", "joint/core.go: addDecay, Push"]}
{"id": "C80", "title": "Exchanging the two variables changes no result", "statement": "Cov, Corr, EWMCov and EWMCorr are symmetric in float64: a user who gives the two variables in the other order on every Push reads the same value to the last bit, or gets the same error.", "quantifier": "every metric of the four, every window and decay, valid or not, every history of pushes and Clears, all float64 values including NaN, infinities, zeros of both signs and subnormals", "why_tests_cant": "Float addition is not associative and the code enumerates tuples in a fixed order, so symmetry can fail in the last bit or in the sign of a zero for rare inputs that no test picks.", "anchors": ["joint/core.go: add, remove, addDecay, Push", "joint/cov.go: Value", "joint/corr.go: Value", "joint/ewmcov.go: Value", "joint/ewmcorr.go: Value"]}
{"id": "C81", "title": "A stream is perfectly correlated with itself, without a window", "statement": "Computed in float64 without a window, Corr of a variable with itself and Autocorr with lag 0 are exactly 1 if two of the values differ and NaN if all are equal, and Cov of a variable with itself and Autocov with lag 0 are Moment(2) to the last bit. With a window this fails: Autocorr(0, 3) of 5, 4, 4, 4 is -1.", "quantifier": "every history of at most 2^40 pushes and Clears whose values are multiples of 2^-200 of at most 2^100", "why_tests_cant": "The three sums are computed by different formulas (math.Pow and products); that they agree to the last bit for every history, and that the root of the product is exact, cannot be sampled.", "anchors": ["joint/core.go: add, Push", "joint/corr.go: Value", "joint/autocorr.go: Push, Value", "joint/autocov.go: Push, Value", "joint/cov.go: Value", "moment/moment.go: Value"]}
{"id": "C82", "title": "A non-finite point is forgotten once it has left the window of Cov and Corr", "statement": "Once a point with a NaN or infinite coordinate has left the window, or after Clear, Cov, Corr, Autocov and Autocorr are again those of the points in the window. This holds after Clear; it is false for the window: every later result, from two points on, is NaN.", "quantifier": "every window of at least 2 or none, every history before, every non-finite point, every number of later points of any value; Autocov and Autocorr with every lag", "why_tests_cant": "That no sequence of later values, however long, brings the metric back to a number is a statement about infinitely many histories.", "anchors": ["joint/core.go: add, remove, Push, Clear", "joint/cov.go: Value", "joint/corr.go: Value", "joint/autocov.go: Push, Value", "joint/autocorr.go: Push, Value"]}
{"id": "C83", "title": "Negating the stream negates the odd metrics and keeps the even ones, bit for bit", "statement": "Computed in float64, pushing -x in place of x changes the sign of Mean, EWMA, Skewness, and Moment and EWMMoment of odd order, and nothing else; it leaves Std, EWMStd, Kurtosis and the moments of even order unchanged. Negating one variable negates Cov, Corr, EWMCov and EWMCorr, negating both leaves them, and Autocov and Autocorr, unchanged. Min of the negated stream is minus Max of the stream. Only the sign of a zero may differ.", "quantifier": "every window, decay and lag, also invalid ones, every history of pushes and Clears, all float64 values including NaN and infinities; moments up to order 199 (Min and Max: no NaN)", "why_tests_cant": "Bitwise agreement of two computations over all histories, including overflow, underflow and math.Pow on negative arguments, is a universal statement; a test compares a few streams with a tolerance.", "anchors": ["moment/core.go: add, remove, Push", "moment/mean.go: Value", "moment/skewness.go: Value", "moment/kurtosis.go: Value", "moment/moment.go: Value", "joint/core.go: add, remove, Push", "joint/corr.go: Value", "joint/autocorr.go: Push, Value", "minmax/min.go: Push, Value", "minmax/max.go: Push, Value"]}
{"id": "C84", "title": "A change of unit by a power of two is exact in float64", "statement": "Computed in float64, pushing x * 2^s in place of x multiplies Mean and Std by 2^s and the variance by 2^(2s) without any error, whatever has left the window; a result that is not a number stays the same. Without limits on s and the values this is false.", "quantifier": "every s from -100 to 100, every window, every history of up to 2^40 calls, every value that is 0 or between 2^-100 and 2^100 in magnitude", "why_tests_cant": "That no intermediate result of either computation underflows, and hence that both round alike at each step, is a statement about all histories; the sums cancel when values leave the window, and a test meets no such case by chance.", "anchors": ["moment/core.go: add, remove, Push", "moment/mean.go: Value", "moment/moment.go: Value", "moment/std.go: Value"]}
{"id": "C85", "title": "A quantile is accurate at its exact position", "statement": "Against the value at the exact position phi * (n-1) of the ordered values in the window, Quantile in the default linear mode errs by at most 8 * 2^-53 of the largest value plus n * 2^-53 of the range of the values. The modes lower, higher and nearest return exactly the value documented for that position. The latter is false where the position, rounded to a float64, meets an integer or a half, and proved elsewhere.", "quantifier": "every window, option list, history without NaN and argument in (0,1), up to 2^53 values in the window; storages under the conditions of C11; linear: finite values up to 2^1020", "why_tests_cant": "The position is rounded, and may be rounded to the next integer, so that different neighbours are interpolated than in the exact computation; that this never costs more than the bound is a statement about all sizes and arguments.", "anchors": ["quantile/quantile.go: Push, Value", "quantile/interpolation.go: Linear, Lower, Higher, Nearest"]}
{"id": "C86", "title": "A Reservoir shared by goroutines loses no value", "statement": "While any number of goroutines call Push and Sample on one Reservoir, whatever rand.Intn answers, no Push panics, and every slice that Sample returns holds at most Size values, each from a Push of its own called before Sample returned. Once all calls have returned, the reservoir has counted every Push and holds min(number of pushes, Size) values, each from a Push of its own.", "quantifier": "all numbers of goroutines, sequences of calls in each, interleavings, sizes, values and answers of rand.Intn", "why_tests_cant": "The number of interleavings and of random answers is unbounded; a lost update shows in a few of them only.", "anchors": ["sample/sample.go:Reservoir.Push", "sample/sample.go:Reservoir.Sample"]}
{"id": "C87", "title": "The median is correctly rounded", "statement": "Median and HeapMedian return the float64 nearest to the exact median of the values: averaging the two middle values rounds only once, although the code adds and divides. The midpoint mode of Quantile does the same with the two values around its position.", "quantifier": "all histories of pushes and clears, windows, options, storages and float64 values", "why_tests_cant": "Double rounding shows only for few pairs of values, mostly among the subnormal numbers.", "anchors": ["quantile/median.go:Median.Value", "quantile/quantile.go:Quantile.Value", "quantile/heap_median.go:HeapMedian.Value"]}
{"id": "C88", "title": "A non-finite value fades from the exponentially weighted metrics", "statement": "EWMA, EWMMoment, EWMStd, EWMCov and EWMCorr weigh old values less and less, so a NaN or an infinity that was pushed once stops mattering as further values arrive, and Clear removes it at once.", "quantifier": "all decays in (0, 1), all histories of pushes and clears before the value, all values after it, however many", "why_tests_cant": "It is a claim about every continuation of a stream, of any length.", "anchors": ["moment/core.go:Core.addDecay", "moment/ewma.go:EWMA.Value", "moment/ewmmoment.go:EWMMoment.Value", "moment/ewmstd.go:EWMStd.Value", "joint/core.go:Core.addDecay", "joint/ewmcov.go:EWMCov.Value", "joint/ewmcorr.go:EWMCorr.Value"]}
{"id": "C89", "title": "A window that has not been exceeded has no effect", "statement": "As long as no more values have been pushed since the last Clear than the window holds, a metric with a window returns exactly what the same metric without a window returns: the same bits, also for NaN and infinities, and the same errors. For Autocov and Autocorr the window counts pairs, so it holds for lag more values.", "quantifier": "all windows, histories of pushes and clears, values including NaN and infinities, orders, options and storages", "why_tests_cant": "The two run through different code, and that they agree in every bit is a statement about all histories up to the window's length, which is unbounded.", "anchors": ["moment/core.go:Core.UnsafePush", "joint/core.go:Core.UnsafePush", "joint/autocov.go:Autocov.Push", "joint/autocorr.go:Autocorr.Push", "quantile/quantile.go:Quantile.Push", "quantile/heap_median.go:HeapMedian.Push", "minmax/min.go:Min.Push", "minmax/max.go:Max.Push"]}
{"id": "C90", "title": "Raising values never lowers a metric of location", "statement": "If a history is changed by replacing values by values that are not smaller, then Min, Max, Mean, EWMA, Median, HeapMedian and every Quantile, each with the same window, options and clears, are not smaller either.", "quantifier": "all pairs of histories of pushes and clears that differ only in that values are raised, all windows, options, storages, interpolations and quantiles", "why_tests_cant": "The claim compares every history with every raised one; where it fails in float64 the two differ in the last bit only.", "anchors": ["minmax/min.go:Min.Value", "minmax/max.go:Max.Value", "quantile/quantile.go:Quantile.Value", "quantile/median.go:Median.Value", "quantile/heap_median.go:HeapMedian.Value", "moment/mean.go:Mean.Value", "moment/ewma.go:EWMA.Value"]}
{"id": "C91", "title": "A minority of wrong values cannot move the median out of the range of the others", "statement": "If more than half of the live values lie between two bounds, then Median and HeapMedian lie between them too, whatever the other values are, infinities included.", "quantifier": "all histories of pushes and clears, windows, options and storages, bounds, and values of the minority", "why_tests_cant": "The point is that no choice of the minority's values has an effect beyond the bounds, for any number of values; tests try only some outliers.", "anchors": ["quantile/median.go:Median.Value", "quantile/quantile.go:Quantile.Value", "quantile/heap_median.go:HeapMedian.Value", "moment/mean.go:Mean.Value"]}
{"id": "C92", "title": "Changing every value a little changes a metric of location no more than that", "statement": "If two histories differ only in that each value of one is within eps of the corresponding value of the other, then the results of Min, Max, Mean, EWMA, Median, HeapMedian and every Quantile, each with the same window, options and clears, are within eps of each other.", "quantifier": "all eps, all pairs of histories of pushes and clears that differ by at most eps in each value, all windows, options, storages, interpolations and quantiles", "why_tests_cant": "The bound must hold for every simultaneous change of all values; where it fails, it fails through rounding or after a particular order of evictions.", "anchors": ["minmax/min.go:Min.Value", "minmax/max.go:Max.Value", "quantile/quantile.go:Quantile.Value", "quantile/median.go:Median.Value", "quantile/heap_median.go:HeapMedian.Value", "moment/mean.go:Mean.Value", "moment/ewma.go:EWMA.Value"]}
{"id": "C93", "title": "A new value moves a metric of location towards itself, not past itself", "statement": "Without a window, the result of Mean, EWMA, Median and HeapMedian after Push(x) lies between the result before and x, in float64.", "quantifier": "all histories of pushes and clears, all next values, options and decays", "why_tests_cant": "That rounding never overshoots is a claim about all pairs of a state and a next value; a failure would be one unit in the last place.", "anchors": ["moment/mean.go:Mean.Value", "moment/ewma.go:EWMA.Value", "moment/core.go:Core.UnsafePush", "quantile/median.go:Median.Value", "quantile/heap_median.go:HeapMedian.Value"]}
{"id": "C94", "title": "Changing every value a little changes the standard deviations little", "statement": "If two histories differ only in that each value of one is within eps of the corresponding value of the other, then the results of Std with the same window and n live values differ by at most sqrt(n/(n-1)) eps, and those of EWMStd with the same decay by at most eps.", "quantifier": "all eps, all pairs of histories of pushes and clears that differ by at most eps in each value, all windows and decays", "why_tests_cant": "The bound must hold for every simultaneous change of all values of a stream of any length.", "anchors": ["moment/std.go:Std.Value", "moment/ewmstd.go:EWMStd.Value", "moment/core.go:Core.UnsafePush"]}
{"id": "C95", "title": "The median is the value closest to the data, and lies within one standard deviation of the mean", "statement": "The sum of the distances of the live values from the median is at most the sum of their distances from any other number; the sum of the squared distances from Mean is at most that from any other number; and for two or more live values the median differs from Mean by at most Std with the same window.", "quantifier": "all histories of pushes and clears, all windows, implementations and options, every number the median is compared with", "why_tests_cant": "The comparison is with every real number, for every stream.", "anchors": ["quantile/median.go:Median.Value", "quantile/heap_median.go:HeapMedian.Value", "moment/mean.go:Mean.Value", "moment/std.go:Std.Value"]}
{"id": "C96", "title": "The range bounds the standard deviation on both sides, and no value is far from the mean in standard deviations", "statement": "With N >= 2 live values and the same window for all metrics: (Max - Min)^2 <= 2 (N-1) Std^2, 4 (N-1) Std^2 <= N (Max - Min)^2, and every live value differs from Mean by at most (N-1)/sqrt(N) times Std.", "quantifier": "all histories of pushes and clears of finite values, all windows, every live value", "why_tests_cant": "The bounds relate four metrics on every stream of any length.", "anchors": ["minmax/min.go:Min.Value", "minmax/max.go:Max.Value", "moment/mean.go:Mean.Value", "moment/std.go:Std.Value"]}
{"id": "C97", "title": "A few wrong values cannot move a quantile, or the interquartile range, beyond the others", "statement": "If of n live values at most phi (n-1) are below lo and at most (1-phi)(n-1) above hi, then Quantile.Value(phi) lies between lo and hi. If fewer than a quarter are below lo and fewer than a quarter above hi, IQR is at most hi - lo. In particular IQR is between 0 and Max - Min.", "quantifier": "all histories of pushes and clears, windows, options, phi in (0,1), lo and hi, whatever the wrong values", "why_tests_cant": "The wrong values are arbitrary, also infinite, and may be anywhere in a stream of any length.", "anchors": ["quantile/quantile.go:Quantile.Value", "quantile/iqr.go:IQR.Value", "minmax/min.go:Min.Value", "minmax/max.go:Max.Value"]}
{"id": "C98", "title": "EWMStd is at most half the range, and the latest value is never far from EWMA in EWMStd", "statement": "EWMStd is at most half the difference between the largest and the smallest value since the last Clear. After Push(x), however extreme x is, x differs from EWMA with the same decay d by at most sqrt((1-d)/d) times EWMStd.", "quantifier": "all histories of pushes and clears, all decays, all values x", "why_tests_cant": "x and the history are arbitrary; a test of outlier detection by the number of standard deviations only shows that some values pass a threshold, not that no value can.", "anchors": ["moment/ewma.go:EWMA.Value", "moment/ewmstd.go:EWMStd.Value", "moment/core.go:Core.UnsafePush"]}
{"id": "C99", "title": "Every metric accepts exactly the windows, lags and powers that make sense", "statement": "Min, Max, HeapMedian, Quantile, Median, IQR, Mean, Moment, Std, Skewness, Kurtosis, Cov, Corr, Autocov and Autocorr can be made (and initialised) with every window that is not negative, and report every negative window as such; Autocov and Autocorr report every negative lag, Moment every power that is not positive. NewGlobalMin, NewGlobalMax and NewGlobalHeapMedian give what window 0 gives.", "quantifier": "all windows, lags and powers, all valid options, every arithmetic", "why_tests_cant": "The tests reject one negative value, -1; the claim is about all of them, and about all that must be accepted.", "anchors": ["minmax/min.go:NewMin", "minmax/max.go:NewMax", "quantile/heap_median.go:NewHeapMedian", "quantile/quantile.go:New", "quantile/median.go:NewMedian", "quantile/iqr.go:NewIQR", "moment/config.go:validateConfig", "joint/config.go:validateConfig", "joint/autocov.go:NewAutocov", "joint/autocorr.go:NewAutocorr"]}
{"id": "C100", "title": "The ranges of the two variables bound the covariances", "statement": "If the live points have their first variable in an interval of length A and their second in one of length B, then Cov of N >= 2 live points is at most N/(4(N-1)) A B in absolute value, and EWMCov at most A B / 4.", "quantifier": "all histories of pushes and clears of points, all windows and decays, all intervals", "why_tests_cant": "The bound must hold for every arrangement of any number of points in the rectangle.", "anchors": ["joint/cov.go:Cov.Value", "joint/ewmcov.go:EWMCov.Value", "joint/core.go:Core.UnsafePush"]}
