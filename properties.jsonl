{"id": "C01", "title": "Tags stay valid under every history", "statement": "A Tags object, whatever sequence of item/attribute assignments, deletions and updates is applied to it (including calls that raise), always maps names that begin with a letter to non-empty tuples of channel numbers of its fixed range, has no duplicate name, and never changes its range.", "quantifier": "all ranges n, all initial mappings accepted by the constructor, all finite sequences of operations with arbitrary keys and values", "why_tests_cant": "The set of histories is infinite; a test samples a few sequences.", "anchors": ["src/razorback/signalset.py:TagsBase.__init__,__setitem__,__delitem__,__setattr__,__delattr__", "src/razorback/signalset.py:Tags.__init__"]}
{"id": "C02", "title": "Tags behave like a guarded dictionary", "statement": "Assigning a tag succeeds exactly when the name begins with a letter, the value is non-empty and all its entries are in range; then reading the tag (by item or attribute) returns exactly the assigned tuple and every other tag is unchanged; a rejected assignment changes nothing. Removing a tag by item or attribute removes exactly this one; reading or removing a missing tag raises KeyError by item and AttributeError by attribute. The one exception is a Tags object that already holds a tag called 'indices': it shadows the range and makes valid assignments fail.", "quantifier": "all Tags objects, names, values", "why_tests_cant": "Quantifies over all names and values and over all other keys.", "anchors": ["src/razorback/signalset.py:TagsBase.__setitem__,__getitem__,__getattribute__,__setattr__"]}
{"id": "C03", "title": "Tags without explicit size use the smallest sufficient range", "statement": "Tags(**d) with no n gets the smallest range containing every listed channel (0 channels if nothing is listed), and, provided no tag is called 'indices', fails exactly when some name does not begin with a letter or is 'n' or 'self', some value is empty or some index negative.", "quantifier": "all keyword mappings", "why_tests_cant": "All mappings, not a sample.", "anchors": ["src/razorback/signalset.py:Tags.__init__"]}
{"id": "C04", "title": "Every reachable SignalSet is well formed", "statement": "Whatever expression of the public operations (constructor, join, merge, select_channels, select_runs, extract_t with or without exclude, merge_consecutive_runs, tag assignment) produced a SignalSet, its runs are ordered by start time, no run stops after the next one starts, all runs have the same number of channels and every channel of a run has the same number of samples and one calibration, and every tag points inside the channel range.", "quantifier": "all finite expressions over the public operations, all inputs, for exact arithmetic and for IEEE binary64 arithmetic without NaN times", "why_tests_cant": "Closure under arbitrary compositions of operations.", "anchors": ["src/razorback/signalset.py:SignalSet.__init__", "src/razorback/signalset.py:SignalSet.tags", "src/razorback/signalset.py:SyncSignal.__init__"]}
{"id": "C05", "title": "Runs may be supplied in any order", "statement": "Building a SignalSet from synchronous signals with pairwise distinct start times gives the same SignalSet (same runs in the same order, same tags) for every order of the arguments. With two runs starting at the same instant (one of them a single sample) the order decides between success and failure.", "quantifier": "all lists of runs and all their permutations", "why_tests_cant": "All permutations of all lists.", "anchors": ["src/razorback/signalset.py:SignalSet.__init__"]}
{"id": "C06", "title": "The constructor accepts exactly non-overlapping compatible runs", "statement": "SignalSet(tags, *runs) succeeds exactly when all runs have the same number of channels, after sorting by start each run stops no later than the next one starts, and the tags are legal for that number of channels; the result contains exactly the given runs.", "quantifier": "all tags and lists of runs with positive sampling rates", "why_tests_cant": "Characterises success and failure for all inputs.", "anchors": ["src/razorback/signalset.py:SignalSet.__init__"]}
{"id": "C07", "title": "select_channels preserves tagged data", "statement": "select_channels(ids) returns a set with the same runs (start, rate, size, order); its tags are exactly the tags all of whose channels are selected, in the same order, and every such tag reads the same samples and calibrations in every run, position by position. Channels are ordered by their original number without duplicates.", "quantifier": "all signal sets, all identifiers (names, indices, lists, slices)", "why_tests_cant": "All sets, tags and identifiers.", "anchors": ["src/razorback/signalset.py:SignalSet.select_channels", "src/razorback/signalset.py:SyncSignal.select"]}
{"id": "C08", "title": "select_channels rejects unknown identifiers and is idempotent", "statement": "select_channels fails with ValueError when some identifier is neither a tag nor a channel number, and selecting again with all channels of a selection is the identity on runs and tags. On a set with runs, known identifiers that choose no channel raise AssertionError, a slice of step zero raises ValueError, and every other selection succeeds.", "quantifier": "all signal sets and identifiers", "why_tests_cant": "All inputs.", "anchors": ["src/razorback/signalset.py:SignalSet.select_channels"]}
{"id": "C09", "title": "select_runs behaves like 1-d array indexing", "statement": "select_runs with an index, slice, index list or boolean mask keeps exactly the runs designated (each unchanged, in time order); out-of-range indices and masks of the wrong length raise IndexError.", "quantifier": "all signal sets and run selectors", "why_tests_cant": "All selectors.", "anchors": ["src/razorback/signalset.py:SignalSet.select_runs"]}
{"id": "C10", "title": "Joining aligns channels by tag name", "statement": "a.join(b): for every tag and position, the samples, rate, start and calibration of the joined set are, run by run, those of a and b read through their own tags, ordered by start time, even when b numbers its channels differently. Join raises when tag names or tag sizes differ. Two sets with runs that go forward and start at different times join exactly when they have the same tag names and sizes and as many channels, when either the tags are the same or every channel of the first is named and none has to be split, and when no two runs overlap; a channel to be split and overlapping runs raise AssertionError, a channel without name KeyError, missing channels ValueError.", "quantifier": "all pairs (and lists) of signal sets", "why_tests_cant": "All channel permutations and run layouts.", "anchors": ["src/razorback/signalset.py:SignalSet.join", "src/razorback/signalset.py:SignalSet._reorder_data", "src/razorback/signalset.py:SignalSet.__init__"]}
{"id": "C11", "title": "join is commutative and associative in what tags read", "statement": "Whenever the joins succeed, a|b and b|a (distinct start times) read the same segments through every tag, and (a|b)|c and a|(b|c) do too.", "quantifier": "all triples of signal sets", "why_tests_cant": "Algebraic law over all triples.", "anchors": ["src/razorback/signalset.py:SignalSet.join"]}
{"id": "C12", "title": "A single run: time window extraction keeps exactly the samples inside the window", "statement": "For a synchronous signal with positive rate and at least one sample and a window meeting its interval, extract_t(start, stop) keeps exactly the samples whose time lies in [start, stop], with their times, values, order, rate and calibrations; a window that misses the interval yields one boundary sample (left or right end) that is outside the window. In general sample j is kept exactly when (it is not before start or is the last one) and (it is not after stop or is the first one).", "quantifier": "all signals and windows, exact arithmetic", "why_tests_cant": "All window positions relative to the sampling grid.", "anchors": ["src/razorback/signalset.py:SyncSignal.extract_t", "src/razorback/signalset.py:SyncSignal.extract_i", "src/razorback/signalset.py:SyncSignal._time_to_index", "src/razorback/signalset.py:SyncSignal._index_to_time"]}
{"id": "C13", "title": "A signal set: time window extraction keeps exactly the samples inside the window", "statement": "SignalSet.extract_t(a, b) reads, through every tag, exactly the samples of the original at times in [a, b] with the same values, except that a run left with a single sample is dropped entirely; runs stay in order.", "quantifier": "all signal sets with positive rates, all windows, exact arithmetic", "why_tests_cant": "All windows and layouts.", "anchors": ["src/razorback/signalset.py:SignalSet.extract_t"]}
{"id": "C14", "title": "Nested windows compose", "statement": "s.extract_t(a, b).extract_t(c, d) reads the same samples as s.extract_t(max(a, c), min(b, d)).", "quantifier": "all signal sets, all pairs of windows, exact arithmetic", "why_tests_cant": "Algebraic law.", "anchors": ["src/razorback/signalset.py:SignalSet.extract_t"]}
{"id": "C15", "title": "Excluding a window keeps exactly the outside", "statement": "For a non-empty set whose last channel is tagged and start <= stop, extract_t(start, stop, exclude=True) keeps exactly the samples at times <= start or >= stop (except pieces of runs reduced to one sample). With stop < start it raises AssertionError when a run has two samples between stop and start; otherwise it does the same as before, and a sample in between is kept twice. An empty set raises ValueError, and a set whose last channel carries no tag raises KeyError when the window swallows the beginning of the data.", "quantifier": "all signal sets and windows, exact arithmetic", "why_tests_cant": "All inputs, including the failing corner.", "anchors": ["src/razorback/signalset.py:SignalSet.extract_t", "src/razorback/signalset.py:SignalSet.tags", "src/razorback/signalset.py:SignalSet._reorder_data"]}
{"id": "C16", "title": "Extracting the full interval is the identity: exact vs floating point", "statement": "In exact arithmetic extract_t(s.start, s.stop) returns every sample of the run. In binary64 it does so whenever the rate is a power of two up to 2^20 and the start an integer below 2^32 with fewer than 2^31 samples, but not in general: for some rates a sample is silently lost.", "quantifier": "all runs; in binary64 all power-of-two rates and integer starts in the stated range, and a witness outside it", "why_tests_cant": "Rounding behaviour over 2^64 inputs.", "anchors": ["src/razorback/signalset.py:SyncSignal._time_to_index", "src/razorback/signalset.py:SyncSignal._index_to_time", "src/razorback/signalset.py:SyncSignal.extract_t"]}
{"id": "C17", "title": "Common intervals of a merge are the intersections", "statement": "The time intervals over which merge() combines its operands are exactly the non-degenerate intersections of one run of each operand, in increasing order and without overlap.", "quantifier": "any number of operands, any run layout", "why_tests_cant": "All layouts and arities.", "anchors": ["src/razorback/signalset.py:SignalSet.merge (rec)"]}
{"id": "C18", "title": "merge never invents or displaces data", "statement": "Every sample read through a tag of a merged set is a sample of the operand that owns the tag, with the same time, value, rate and calibration, at the same position in the tag; all channels of a merged run cover the same times.", "quantifier": "all lists of operands for which merge succeeds, exact arithmetic", "why_tests_cant": "All operands.", "anchors": ["src/razorback/signalset.py:SignalSet.merge"]}
{"id": "C19", "title": "merge loses nothing common", "statement": "If merge succeeds, each instant inside a common interval (positive length, equal sampling rates) at which an operand has a sample is present in the merged set for all its tags.", "quantifier": "all lists of operands for which merge succeeds, exact arithmetic", "why_tests_cant": "All operands.", "anchors": ["src/razorback/signalset.py:SignalSet.merge"]}
{"id": "C20", "title": "Tags of a merged set", "statement": "merge succeeds only if no tag name is shared; the merged tags are the disjoint union of the operands' tags, and the number of channels is the sum.", "quantifier": "all lists of operands", "why_tests_cant": "All operands.", "anchors": ["src/razorback/signalset.py:SignalSet.merge"]}
{"id": "C21", "title": "Where merge raises", "statement": "merge raises AssertionError as soon as some common interval holds fewer than two samples of an operand (even when the sampling rates differ and the interval would have been skipped), or when two operands of equal rate are out of phase; it raises ValueError if an operand has no run. Otherwise it succeeds. merge() of a set alone whose runs have at least two samples returns an equal set.", "quantifier": "all lists of operands, exact arithmetic", "why_tests_cant": "Failure characterisation.", "anchors": ["src/razorback/signalset.py:SignalSet.merge"]}
{"id": "C22", "title": "merge_consecutive_runs conserves data", "statement": "Whenever merge_consecutive_runs succeeds, for each tag the concatenation of the samples over runs in time order is unchanged, the tags are unchanged and no two adjacent runs of equal rate that were exactly consecutive remain separate.", "quantifier": "all signal sets", "why_tests_cant": "All run layouts.", "anchors": ["src/razorback/signalset.py:SignalSet.merge_consecutive_runs", "src/razorback/signalset.py:_group_indices"]}
{"id": "C23", "title": "merge_consecutive_runs preserves sample times when gaps are exact", "statement": "If every gap judged consecutive is exactly one sampling period, every sample keeps its time; in general the time of a sample moves by at most the accumulated tolerance of the gaps of its group.", "quantifier": "all signal sets, exact arithmetic", "why_tests_cant": "All layouts and tolerances.", "anchors": ["src/razorback/signalset.py:SignalSet.merge_consecutive_runs"]}
{"id": "C24", "title": "merge_consecutive_runs is idempotent for exact gaps", "statement": "Applying merge_consecutive_runs to a set produced by it (exact gaps) changes nothing.", "quantifier": "all signal sets, exact arithmetic", "why_tests_cant": "Idempotence for all inputs.", "anchors": ["src/razorback/signalset.py:SignalSet.merge_consecutive_runs"]}
{"id": "C25", "title": "Where merge_consecutive_runs raises", "statement": "merge_consecutive_runs succeeds on every well-formed set whose last channel is tagged and whose consecutive gaps are exact; it raises KeyError on a set whose last channel is untagged and which has no consecutive runs, and can raise AssertionError when tolerated gaps accumulate into an overlap.", "quantifier": "all signal sets, exact arithmetic", "why_tests_cant": "Failure characterisation.", "anchors": ["src/razorback/signalset.py:SignalSet.merge_consecutive_runs"]}
{"id": "C26", "title": "Grouping of consecutive runs", "statement": "Given the list of 'next run is consecutive' flags, the groups returned are exactly the maximal blocks of set flags, each widened by one, in order.", "quantifier": "all boolean lists", "why_tests_cant": "All lists of any length.", "anchors": ["src/razorback/signalset.py:_group_indices"]}
{"id": "C27", "title": "Index extraction", "statement": "SyncSignal.extract_i(i, j) with 0 <= i < size and 0 <= j <= size returns samples i..j-1 at their original times; in strict mode any other index raises AssertionError.", "quantifier": "all signals and indices", "why_tests_cant": "All indices.", "anchors": ["src/razorback/signalset.py:SyncSignal.extract_i"]}
{"id": "C28", "title": "SyncSignal construction", "statement": "A SyncSignal can be built exactly when there is at least one channel, all channels have equal length and the number of calibrations equals the number of channels (or none is given, in which case every channel gets the unit calibration).", "quantifier": "all argument values", "why_tests_cant": "All inputs.", "anchors": ["src/razorback/signalset.py:SyncSignal.__init__"]}
{"id": "C29", "title": "Fourier coefficients of a set are the concatenation over runs", "statement": "SignalSet.fourier_coefficients returns, for each channel, the concatenation in time order of the per-run coefficients of that channel (so no window spans two runs), and window counts adding up to the number of coefficients; an empty set raises.", "quantifier": "all signal sets and window parameters", "why_tests_cant": "All sets.", "anchors": ["src/razorback/signalset.py:SignalSet.fourier_coefficients", "src/razorback/signalset.py:SyncSignal.fourier_coefficients"]}
{"id": "C30", "title": "Inventory holds exactly the appended signal sets, in order", "statement": "After any sequence of append/extend/+, an inventory contains exactly the accepted signal sets in order; a non SignalSet raises ValueError and (for extend) the elements before it stay.", "quantifier": "all operation sequences", "why_tests_cant": "All histories.", "anchors": ["src/razorback/signalset.py:Inventory.append,extend,__add__"]}
{"id": "C31", "title": "Inventory.select_channels and filter", "statement": "filter(*patterns) keeps, in order, the signal sets having at least one tag matching a pattern, each reduced to the channels of its matching tags; the tags it keeps read the same data. A member with a tag named get makes the selection by one or more keys raise TypeError.", "quantifier": "all inventories and patterns", "why_tests_cant": "All inventories and glob patterns.", "anchors": ["src/razorback/signalset.py:Inventory.filter,select_channels"]}
{"id": "C32", "title": "Inventory.extract_t and select_runs drop empty members only", "statement": "Inventory.extract_t / select_runs apply the operation member by member and drop exactly the members left without runs.", "quantifier": "all inventories", "why_tests_cant": "All inventories.", "anchors": ["src/razorback/signalset.py:Inventory.extract_t,select_runs"]}
{"id": "C33", "title": "pack keeps every tag or returns an empty set", "statement": "When pack() returns, the result either has all the tags of the inventory or is the empty set with no tags and no runs.", "quantifier": "all inventories, every iteration order of the set of sampling rates", "why_tests_cant": "All inventories and hash orders.", "anchors": ["src/razorback/signalset.py:Inventory.pack,_join_merge"]}
{"id": "C34", "title": "pack never invents data", "statement": "Every sample of a packed set is, up to the displacement allowed by merging consecutive runs, a sample of some member of the inventory under the same tag, with the same rate and value.", "quantifier": "all inventories for which pack returns, exact arithmetic", "why_tests_cant": "All inventories.", "anchors": ["src/razorback/signalset.py:Inventory.pack"]}
{"id": "C35", "title": "pack does not depend on hash order", "statement": "The data read through tags from pack() does not depend on the iteration order of the set of sampling rates, as long as start times are distinct.", "quantifier": "all inventories, all orders", "why_tests_cant": "Schedules/hash seeds cannot be enumerated.", "anchors": ["src/razorback/signalset.py:Inventory.pack"]}
{"id": "C36", "title": "Where pack raises", "statement": "pack() returns no set, but raises, on inventories where two members record a tag at the same rate at the same time, where every tag is recorded at two sampling rates at the same time, where a tag is declared in only part of the members holding its channels under other tags, and (keep_multi_tags=False) where the channels of one single tag are channels of another. The error is AssertionError on the sample inventories; without any tag it is IndexError.", "quantifier": "all such inventories, every iteration order, exact arithmetic", "why_tests_cant": "Corner cases outside the tested inventories.", "anchors": ["src/razorback/signalset.py:Inventory.pack,_join_merge"]}
{"id": "C37", "title": "Discrete window parameters", "statement": "discrete_window returns window length Lw = ceil(Nper/f), shift = floor(Lw(1-overlap)) and Nw = floor((size-Lw)/shift) >= 1, and raises exactly when a parameter is out of range, the shift is zero or size < Lw + shift.", "quantifier": "all parameters, exact arithmetic", "why_tests_cant": "All parameters.", "anchors": ["src/razorback/fourier_transform.py:discrete_window"]}
{"id": "C38", "title": "Sliding windows cover the data maximally and never overrun", "statement": "time_to_freq produces one coefficient for every k with k*shift + Lw <= size and no other; each depends only on samples k*shift .. k*shift+Lw-1. The reported Nw is this count, which is one more than discrete_window's; a signal in which exactly one window fits is rejected.", "quantifier": "all signals and parameters", "why_tests_cant": "All sizes.", "anchors": ["src/razorback/fourier_transform.py:time_to_freq,discrete_window"]}
{"id": "C39", "title": "Fourier coefficients are linear in the data", "statement": "time_to_freq(a*x + b*y) = a*time_to_freq(x) + b*time_to_freq(y) coefficientwise.", "quantifier": "all signals and scalars (real arithmetic)", "why_tests_cant": "Universal algebraic law.", "anchors": ["src/razorback/fourier_transform.py:time_to_freq"]}
{"id": "C40", "title": "A pure tone is recovered exactly", "statement": "Without windowing, when the window holds a whole number of periods and 0 < f < fs/2, the k-th coefficient of A*cos(2*pi*f*n/fs + phi) is A*exp(i(phi + 2*pi*f*k*shift/fs)).", "quantifier": "all amplitudes, phases, admissible frequencies (real arithmetic)", "why_tests_cant": "Continuum of parameters.", "anchors": ["src/razorback/fourier_transform.py:time_to_freq"]}
{"id": "C41", "title": "Rejected indices refer to the original data", "statement": "transfer_function returns, for each output, the sorted list of exactly the original row indices that were removed by the initial invalid indices or by any of the successive estimation steps: the rows used by the last step are the original rows minus those indices, in order. It succeeds exactly when there is one guess and one list of indices per output (or none at all) and every step of every output succeeds.", "quantifier": "all data sizes, all numbers of steps, all rejection histories", "why_tests_cant": "All chains of relative rejections.", "anchors": ["src/razorback/mestimator.py:merge_invalid_indices,chain_m_estimate,eliminate,transfer_function"]}
{"id": "C42", "title": "Rejections only grow within a step", "statement": "Within m_estimate the set of rejected rows only grows from one iteration to the next, and always stays in range. The rows returned are exactly those already rejected before the last evaluation of the weights and those whose weight is then finite and of modulus at most eps, the bound included; a nan or infinite weight rejects nothing.", "quantifier": "all weight functions and data", "why_tests_cant": "All weight functions.", "anchors": ["src/razorback/mestimator.py:_eval_weight,m_estimate"]}
{"id": "C43", "title": "m_estimate stops", "statement": "m_estimate performs at most maxit iterations; it returns only if the last relative change of the weighted residual is below tol, otherwise it raises NonConvergence; the returned estimate is the weighted least-square solution for the last weights. A None weight gives plain least squares on the retained rows.", "quantifier": "all data, weight functions, tol, maxit", "why_tests_cant": "All executions.", "anchors": ["src/razorback/mestimator.py:m_estimate"]}
{"id": "C44", "title": "Estimates do not depend on the history of weight objects", "statement": "The result of an estimation with stateful weight objects (Thomson, BoundedInfluenceStep) is the same whatever estimations, finished or aborted, used the same objects before.", "quantifier": "all previous histories of the weight objects", "why_tests_cant": "All histories.", "anchors": ["src/razorback/weights.py:Thomson.__call__,BoundedInfluenceStep.__call__", "src/razorback/mestimator.py:m_estimate"]}
{"id": "C45", "title": "Weight objects are not reentrant", "statement": "Two estimations interleaved on the same weight object can disturb each other: the second iteration of one uses the scale of the other (Thomson), or raises AssertionError (BoundedInfluenceStep).", "quantifier": "schedules (witness)", "why_tests_cant": "Interleavings are not exercised by unit tests.", "anchors": ["src/razorback/weights.py:Thomson.__call__,BoundedInfluenceStep.__call__"]}
{"id": "C46", "title": "Weighted least squares recovers exact relations", "statement": "If outputs are exactly a linear combination of inputs, the weighted least-square estimate returns that combination for every weight making the normal matrix invertible.", "quantifier": "all matrix sizes, all weights, any field with conjugation", "why_tests_cant": "All matrices.", "anchors": ["src/razorback/mestimator.py:wlse"]}
{"id": "C47", "title": "Weighted least squares minimises the weighted residual", "statement": "For non-negative weights with invertible normal matrix, no other coefficient vector has a smaller weighted squared residual, and the minimiser is unique.", "quantifier": "all matrices and weights", "why_tests_cant": "All matrices.", "anchors": ["src/razorback/mestimator.py:wlse"]}
{"id": "C48", "title": "Equivariance of least-square estimates", "statement": "Scaling the output by c scales the estimate by c; replacing the inputs by an invertible linear combination transforms the estimate by the inverse matrix.", "quantifier": "all matrices", "why_tests_cant": "Universal law.", "anchors": ["src/razorback/mestimator.py:wlse"]}
{"id": "C49", "title": "Huber weights", "statement": "Huber weights lie in [0,1], equal 1 for residuals up to alpha*scale, decrease with the residual; if the scale is zero every non-zero residual gets weight 0.", "quantifier": "all residual vectors (real arithmetic)", "why_tests_cant": "All vectors.", "anchors": ["src/razorback/weights.py:Huber.__call__,mad_scale"]}
{"id": "C50", "title": "Thomson weights", "statement": "Thomson weights lie in (0,1], equal 1 at zero residual and strictly decrease with the residual. The weight of residual z with scale s is exp(exp(-t^2) - exp(t(|z|/s - t))), where t is the given threshold or sqrt(2 ln(2n)) for n rows; a nan residual or scale gives nan.", "quantifier": "all residuals and xi > 0 (real arithmetic)", "why_tests_cant": "Continuum.", "anchors": ["src/razorback/weights.py:expexp,Thomson.__call__"]}
{"id": "C51", "title": "Bounded influence weights can exceed one", "statement": "The leverage factor of BoundedInfluenceStep is not bounded by 1: it stays below exp(exp(-log(lower)^2)) and exceeds 1 for some leverage when lower < 1. Its value is the product of the weight of the leverage y against khi and of the weight of log(y) against log(lower).", "quantifier": "all thresholds (real arithmetic)", "why_tests_cant": "Continuum.", "anchors": ["src/razorback/weights.py:BoundedInfluenceStep.__call__"]}
{"id": "C52", "title": "bi_weights schedule", "statement": "bi_weights(p, n) is a sequence of n+2 stages: least squares, then n Huber stages with thresholds lower*2^-i, upper*2^i for i = n-1 .. 0, then a Thomson stage with (lower, upper). mest_weights has three stages: least squares, Huber weights with the scale of the current residuals, Thomson weights with the scale of the first residuals of the stage.", "quantifier": "all n and thresholds", "why_tests_cant": "All n.", "anchors": ["src/razorback/weights.py:bi_weights,mest_weights,Weights"]}
{"id": "C53", "title": "Determination filter partitions the data in blocks", "statement": "The coefficient of determination is constant on consecutive blocks of `size` rows, the last block having between size and 2*size-1 rows (all rows if there are fewer than 2*size); every row belongs to exactly one block. It fails only as one of its blocks does, and with ZeroDivisionError for the size 0.", "quantifier": "all lengths and block sizes", "why_tests_cant": "All lengths.", "anchors": ["src/razorback/prefilters.py:CoefficientOfDeterminationFilter.value"]}
{"id": "C54", "title": "Determination filter rejects exactly the blocks out of range", "statement": "Calling the filter returns, sorted, exactly the rows whose block value is < cod_min or > cod_max.", "quantifier": "all data", "why_tests_cant": "All data.", "anchors": ["src/razorback/prefilters.py:CoefficientOfDeterminationFilter.__call__"]}
{"id": "C55", "title": "Prefilter results accumulate", "statement": "apply_prefilter returns for each output the sorted union of the already invalid indices and the prefilter's; with no prefilter it returns the given indices.", "quantifier": "all outputs, prefilters, index lists", "why_tests_cant": "All inputs.", "anchors": ["src/razorback/utils.py:apply_prefilter"]}
{"id": "C56", "title": "Shape of impedance results", "statement": "For each frequency that is processed the impedance has one row per electric and one column per magnetic channel; a frequency whose Fourier stage fails yields the transposed shape, so results are consistent only when both counts are equal.", "quantifier": "all data sets and frequency lists", "why_tests_cant": "All channel counts and failure patterns.", "anchors": ["src/razorback/utils.py:_impedance,impedance"]}
{"id": "C57", "title": "silent_fail", "statement": "With silent_fail and prefilters that do not raise, failures of the estimators give NaN results and impedance raises in no other case than that of estimates that do not have one shape (C109); without silent_fail the failure propagates, except for failures of the Fourier stage which are always silent.", "quantifier": "all failure patterns", "why_tests_cant": "All failure points.", "anchors": ["src/razorback/utils.py:_impedance"]}
{"id": "C58", "title": "Invalid times are the centres of rejected windows", "statement": "With keep_invalid_times, the k-th reported time is the centre (shift*j + Lw/2)/rate + start of the k-th rejected window, j being its index inside its run.", "quantifier": "all run layouts and rejection lists", "why_tests_cant": "All layouts.", "anchors": ["src/razorback/utils.py:_impedance"]}
{"id": "C59", "title": "First stage rejections carry over", "statement": "With a remote, every window rejected in the remote stage is rejected for every electric channel in the second stage.", "quantifier": "all executions", "why_tests_cant": "All rejections.", "anchors": ["src/razorback/utils.py:_impedance"]}
{"id": "C60", "title": "real_pb never works", "statement": "With real_pb=True every frequency fails (NaN results, or TypeError without silent_fail) because the weights are passed positionally.", "quantifier": "all inputs", "why_tests_cant": "All inputs.", "anchors": ["src/razorback/utils.py:_impedance,transfer_function_real_prob"]}
{"id": "C61", "title": "The real formulation is equivalent to the complex one", "statement": "Complex z satisfies outputs = z.inputs exactly when the interleaved real vector satisfies the real system built by transfer_function_real_prob, and decoding the real solution gives z back.", "quantifier": "all sizes and values", "why_tests_cant": "All matrices.", "anchors": ["src/razorback/utils.py:transfer_function_real_prob"]}
{"id": "C62", "title": "All remote combinations are tried exactly once", "statement": "impedance_mass_proc with combines_remotes runs every subset of the remotes exactly once, counted in binary from the empty one, and returns for each one result per interval, in order; the caller's options are kept but for the remote, the weight objects keep their state from one estimate to the next, and the first exception ends the whole. The data of a combination hold the tags 'E' and 'B' and a tag 'Bremote' made of every channel of every remote of the combination, in the order of the names, with samples recorded under those tags only.", "quantifier": "all numbers of remotes", "why_tests_cant": "All n.", "anchors": ["src/razorback/utils.py:impedance_mass_proc"]}
{"id": "C63", "title": "prefilter_values_mass_proc modifies its argument", "statement": "prefilter_values_mass_proc leaves a 'Bremote' tag in the caller's signal set as soon as one remote is given.", "quantifier": "all inputs with a remote", "why_tests_cant": "Observable side effect.", "anchors": ["src/razorback/utils.py:prefilter_values_mass_proc"]}
{"id": "C64", "title": "tags_from_path: soundness and completeness", "statement": "The normalised form of a path leads to the same place (root, levels above the start, names) and is unique in form. A name is yielded exactly when its normalised path is an instance of the normalised pattern: literal characters equal, '?' any character, '*' any run of characters other than '/', '**' any run, bracket sets, and each field a non-empty run of [_0-9A-Za-z]; the tags are the templates with the fields replaced by such values. ValueError is raised, before any name is read, exactly for patterns and templates that cannot be used together: an undoubled brace, a conversion or format, a field that does not start with a letter or '_', a template field the pattern lacks.", "quantifier": "all names, patterns, templates", "why_tests_cant": "All strings.", "anchors": ["src/razorback/utils.py:tags_from_path,_prepare_pattern,_get_fields"]}
{"id": "C65", "title": "tags_from_path: fields are unambiguous when delimited", "statement": "If every field is followed by a literal character outside [_0-9A-Za-z] or the end and the pattern has no wildcard, the values of the fields are determined by the name: formatting then matching returns the values.", "quantifier": "all names and values", "why_tests_cant": "All strings.", "anchors": ["src/razorback/utils.py:tags_from_path"]}
{"id": "C66", "title": "tags_from_path: pattern corner cases", "statement": "A field used twice need not match the same text (the last value wins), and a pattern whose normalisation drops a field assigns values to the wrong field.", "quantifier": "witnesses", "why_tests_cant": "Untested corner.", "anchors": ["src/razorback/utils.py:tags_from_path"]}
{"id": "C67", "title": "Lazy array indexing law", "statement": "For each index (integer or slice with any start, stop, positive step) of a lazy array proxy, indexing equals indexing the full array, both in value and in IndexError; for a negative step the law holds for proxies that accept the full slice.", "quantifier": "all dimensions and indices", "why_tests_cant": "All indices.", "anchors": ["src/razorback/io/binary_file_array.py:BaseArrayProxy._to_slice,__getitem__"]}
{"id": "C68", "title": "Binary file arrays read the file", "statement": "For a file holding a header of `offset` bytes followed by encoded samples, reading [i:j:k] (0 <= i <= j after normalisation, k > 0) from BinaryFileArray_1D returns exactly the samples, whatever the trailing bytes; a truncated file shortens the array to the complete samples and no read fails.", "quantifier": "all files, offsets, slices", "why_tests_cant": "All file contents.", "anchors": ["src/razorback/io/binary_file_array.py:BinaryFileArray_1D.extract,_get_real_size"]}
{"id": "C69", "title": "Where binary file arrays differ from arrays", "statement": "A slice whose normalised stop is before its start raises instead of giving an empty array, and a negative step raises TypeError.", "quantifier": "all reversed slices, all negative steps", "why_tests_cant": "Untested corner.", "anchors": ["src/razorback/io/binary_file_array.py:BinaryFileArray_1D.extract", "src/razorback/io/binary_file_array.py:BaseArrayProxy._to_slice"]}
{"id": "C70", "title": "ATS header layout and decoding", "statement": "Of a file of at least 1024 bytes whose header has at least that length, read_ats_header returns every field, decoded from the bytes at its position of the documented table (the fields fill the first 1024 bytes without padding), with latitude, longitude and elevation converted to degrees and metres; every other file is refused.", "quantifier": "all header values", "why_tests_cant": "All byte strings.", "anchors": ["src/razorback/io/ats.py:read_ats_header"]}
{"id": "C71", "title": "load_ats", "statement": "load_ats succeeds only if all files agree on start and sampling rate; channel i holds lsb_i times the raw samples of file i, in the order of the file list. With readable files every failure is an AssertionError (no file, a file without samples, different starts, rates or numbers of samples, wrong number of calibrations); the first file that is missing or has no header stops the loading with its own exception.", "quantifier": "all file lists", "why_tests_cant": "All lists.", "anchors": ["src/razorback/io/ats.py:load_ats,read_ats_sample"]}
{"id": "C72", "title": "Calibration file lookup", "statement": "get_data_file returns the file of the local data directory if it has it, otherwise the packaged one, otherwise raises ValueError; names that differ only by empty or '.' components designate the same file.", "quantifier": "all file systems", "why_tests_cant": "All file-system states.", "anchors": ["src/razorback/data.py:get_data_file,data_path"]}
{"id": "C73", "title": "Metronix calibration selection", "statement": "The chopper-on section is used exactly when sampling_rate <= limit; the table is the block of lines between the section mark and the next blank line; below the first tabulated frequency the extrapolation is used exactly in chopper-on mode and otherwise the tabulation is used.", "quantifier": "all files, rates, frequencies", "why_tests_cant": "All files.", "anchors": ["src/razorback/calibrations.py:metronix"]}
{"id": "C74", "title": "Plugin commands", "statement": "The command list is sorted without duplicates and contains built-in and plugin commands; a plugin shadows a built-in of the same name.", "quantifier": "all plugin sets", "why_tests_cant": "All sets.", "anchors": ["src/razorback/cli.py:PluginGroup"]}
{"id": "C75", "title": "Equality of tags ignores insertion order", "statement": "Two Tags objects without a tag called 'indices' compare equal exactly when they have the same channel range and the same tag for every name, whatever the order of insertion.", "quantifier": "all pairs of Tags objects", "why_tests_cant": "All insertion orders.", "anchors": ["src/razorback/signalset.py:Tags.__eq__"]}
{"id": "C76", "title": "A one-dimensional array of invalid indices is refused", "statement": "transfer_function documents a 1d-array as value of invalid_idx, but a non-empty integer array always makes it raise, while the same indices in a list are accepted.", "quantifier": "all arrays, data and weights", "why_tests_cant": "All arrays.", "anchors": ["src/razorback/mestimator.py:transfer_function,eliminate"]}
{"id": "C77", "title": "Weighted estimates of exact data never converge", "statement": "If the data fit so exactly that the weighted residual vanishes after each iteration (for instance a channel of zeros), an estimation step with a weight function never returns: the relative change is undefined and the step ends with NonConvergence or another exception.", "quantifier": "all weight functions, tolerances, maxit", "why_tests_cant": "All weight functions; needs degenerate data.", "anchors": ["src/razorback/mestimator.py:m_estimate"]}
{"id": "C78", "title": "Leverages are a partition of the number of inputs", "statement": "With non-negative weights and an invertible normal matrix, the leverages of the rows used by the bounded-influence step lie in [0,1], add up to the number of inputs, and do not change when the inputs are replaced by invertible combinations of them.", "quantifier": "all matrices and non-negative weights", "why_tests_cant": "tests compute leverages on a few matrices; the statement is about every matrix and weight vector", "anchors": ["src/razorback/weights.py:BoundedInfluenceStep.__call__", "src/razorback/mestimator.py:dotdiag"]}
{"id": "C79", "title": "Robust weights depend neither on the unit nor on the row order", "statement": "Multiplying all residuals by a non-zero complex number leaves the Huber weights and the first Thomson weights unchanged; permuting the rows permutes the weights.", "quantifier": "all residual vectors (real arithmetic, nan allowed)", "why_tests_cant": "all vectors, factors and permutations", "anchors": ["src/razorback/weights.py:Huber", "src/razorback/weights.py:Thomson", "src/razorback/weights.py:mad_scale"]}
{"id": "C80", "title": "The robust scale resists outliers, and degenerates for equal magnitudes", "statement": "If more than half of the residual magnitudes lie in [a,b], the scale is at most (b-a)/0.44845 whatever the other rows; if more than half are equal, every Huber weight is 0 or nan, so that no row keeps a weight.", "quantifier": "all residual vectors", "why_tests_cant": "all vectors; outliers of any size", "anchors": ["src/razorback/weights.py:mad_scale", "src/razorback/weights.py:median_absolute_deviation", "src/razorback/weights.py:Huber"]}
{"id": "C81", "title": "Coefficient of determination of a block", "statement": "The coefficient of determination exists exactly when no input is a combination of the others. It is not a number for an output that is zero. For another output it is the square root of the part of the energy of the output that the best combination of the inputs explains; it lies in [0,1], is 1 exactly when the output is a combination of the inputs, and does not change when the output is rescaled or the inputs replaced by invertible combinations, or when the windows are reordered.", "quantifier": "all blocks (exact arithmetic)", "why_tests_cant": "all matrices", "anchors": ["src/razorback/prefilters.py:CoefficientOfDeterminationFilter.coeff_determination"]}
{"id": "C82", "title": "Prefilter values ignore the remotes", "statement": "prefilter_values_mass_proc returns the same values for all 2^n combinations of n remotes: those computed on the local channels alone: per frequency and electric channel the value of the prefilter on its coefficients and on those of the magnetic channels, with the centres of all windows as times.", "quantifier": "all data sets, remotes, frequencies and intervals", "why_tests_cant": "all inputs", "anchors": ["src/razorback/utils.py:prefilter_values_mass_proc,prefilter_values"]}
{"id": "C83", "title": "Creating the local data directory", "statement": "The path command with --create adds exactly the local data directory and the missing directories above it; this fails exactly when one of the paths above it is a file, and an existing path of this name is reported and left as it is; from then on that directory is the one in use, files found before are still found at the same place, and creating again changes nothing. Without --create nothing changes and the directory in use is shown.", "quantifier": "all file systems, targets and file names", "why_tests_cant": "All file-system states.", "anchors": ["src/razorback/cli.py:path_action", "src/razorback/data.py:local_data_path,data_path"]}
{"id": "C84", "title": "Phoenix calibrations", "statement": "phoenix returns one function per channel; each gives the values of the rows of the requested level at their frequencies, is linear between neighbouring frequencies and raises ValueError outside their range, whatever the order of the rows; a level without rows is an error.", "quantifier": "all tables, levels and frequencies", "why_tests_cant": "All tables.", "anchors": ["src/razorback/calibrations.py:phoenix"]}
{"id": "C85", "title": "The two stages of an estimate with remotes", "statement": "With a remote, impedance returns values exactly when two estimations succeed: the magnetic outputs from the remote inputs, with remote_weights or else weights and remote_prefilter or else prefilter; then the electric outputs from the magnetic ones predicted by the first stage, without the windows the first stage rejected for any output. The transfer, impedance and error returned are those of these estimations; without a remote there is only the second one, on the measured inputs.", "quantifier": "all data sets, options, weight functions and prefilters", "why_tests_cant": "The combination of defaults, rejected windows and stages is open-ended; tests check some numbers only.", "anchors": ["src/razorback/utils.py:_impedance,apply_prefilter", "src/razorback/mestimator.py:transfer_function"]}
{"id": "C86", "title": "Bounded-influence weights over the iterations", "statement": "The weights of BoundedInfluenceStep at each iteration are those of its Huber or Thomson function, zero on the rejected rows, times the product of the hat factors of all iterations so far. They are numbers between 0 and a power of a bound that depends on the lower threshold; a weight that became zero stays zero; a call fails only if the normal matrix of the previous weights is singular.", "quantifier": "all residual sequences and rejected rows, real arithmetic, lower threshold below 1", "why_tests_cant": "The state of the object over any number of iterations.", "anchors": ["src/razorback/weights.py:BoundedInfluenceStep.__call__,Huber.__call__,Thomson.__call__,expexp"]}
{"id": "C87", "title": "Groups of tags", "statement": "extract_groups returns, for each (new tag, old tags), a signal set with at least one run where the new tag lists the channels of the old tags one after the other; every sample read through any tag was recorded by a member of the inventory under the corresponding old tag and position, with the same rate and value, displaced by merged gaps at most. A group without a common recording is an error. Conversely every sample inside an interval covered, at one rate, by a run for every tag of the group is in its signal set, under its own tag and under the new one, displaced by merged gaps at most.", "quantifier": "all inventories and groups", "why_tests_cant": "All inventories; the tests have a few recordings.", "anchors": ["src/razorback/signalset.py:Inventory.extract_groups,Inventory.filter,Inventory.pack"]}
{"id": "C88", "title": "The error of a transfer function", "statement": "transfer_error raises exactly when the inputs are linearly dependent, so never after an estimate from some of the windows succeeded. With n windows, p < n inputs and k < n rejected windows, the squared error of a coefficient is the sum of squared residuals times n^2 divided by n - p, by (n - k)^2 and by the squared distance of its input to the combinations of the others; with p = n or k = n it is infinite, or not a number for an exact relation. It follows the units of the channels and ignores the order of the windows. The residuals of rejected windows do count in it.", "quantifier": "all numbers of windows, inputs and outputs; exact complex arithmetic", "why_tests_cant": "Algebraic identities over all matrices.", "anchors": ["src/razorback/mestimator.py:transfer_error"]}
{"id": "C89", "title": "Searching tags by patterns", "statement": "Tags.filter(*patterns) returns exactly the tag names that match at least one shell pattern, each once; Tags.filter_get(*patterns) returns the channels of these tags, each once and in increasing order, whatever the iteration order of sets. A tag named 'filter' makes both raise TypeError; a tag named 'get' makes filter_get raise TypeError exactly when some tag matches, and give an empty tuple otherwise.", "quantifier": "all tag tables, pattern lists and set iteration orders", "why_tests_cant": "Set iteration orders and all patterns.", "anchors": ["src/razorback/signalset.py:Tags.filter", "src/razorback/signalset.py:Tags.filter_get"]}
{"id": "C90", "title": "The older Fourier transform", "statement": "time_to_freq_old gives, for all arguments, what time_to_freq gives with the last window of each channel left out and the number of windows one less, and raises the same exception when time_to_freq raises. sliding_window gives the asked number of windows, each the right stretch of the array, and raises AssertionError when the array is too short. ft recovers amplitude and phase of a tone over a whole number of periods.", "quantifier": "all data, frequencies, windows; exact complex arithmetic", "why_tests_cant": "Equality of two programs on all inputs; real trigonometry.", "anchors": ["src/razorback/fourier_transform.py:time_to_freq_old", "src/razorback/fourier_transform.py:sliding_window", "src/razorback/fourier_transform.py:ft"]}
{"id": "C91", "title": "Slepian windows", "statement": "slepian(N, tau, N_MAX) returns N values for every N and every positive N_MAX. Up to N_MAX the values are those of the dpss window scaled to mean 1. Above, value n is the linear interpolation of the window of length N_MAX at the place n*N_MAX/N, equal to its last value after its last place, never outside its range. There the window is not symmetric and its mean is not 1, against the documentation.", "quantifier": "all lengths, limits and dpss values; exact arithmetic", "why_tests_cant": "Unbounded lengths.", "anchors": ["src/razorback/fourier_transform.py:slepian", "src/razorback/fourier_transform.py:slepian_window"]}
{"id": "C92", "title": "Tags have the operations of a dictionary", "statement": "On a Tags object: deleting an existing tag (item, attribute or pop) removes it alone and keeps the order of the others; deleting a missing one raises KeyError (AttributeError by attribute) and changes nothing; popitem removes the first tag; setdefault leaves an existing tag alone and otherwise is an assignment; clear removes all tags and keeps the range; update assigns the items one after the other up to the first refused one, whose exception it raises. Assigning the attribute 'indices' raises AttributeError. A tag named like a method (pop, popitem, setdefault, clear, update) makes that method raise TypeError and change nothing.", "quantifier": "all Tags objects, names, values, lists of items", "why_tests_cant": "All names, values and update sequences.", "anchors": ["src/razorback/signalset.py:TagsBase.__delitem__,__setattr__,__delattr__,__getattribute__"]}
{"id": "C93", "title": "pack keeps what all the tags have in common", "statement": "Take a sampling rate and an interval that, for every tag of the inventory, is covered by one run of a member carrying the tag at that rate. When pack() returns, every sample of such runs inside the interval is in the result, under the same tag and position, with the same rate and value, displaced by merged gaps at most. With keep_multi_tags=False the same holds of the single tags when no other tag lies within their channels.", "quantifier": "all inventories for which pack returns, all rates and intervals, exact arithmetic", "why_tests_cant": "All layouts of recordings; the tests have a few.", "anchors": ["src/razorback/signalset.py:Inventory.pack,_join_merge"]}
{"id": "C94", "title": "pack leaves no consecutive runs", "statement": "When every run of the inventory starts at a multiple of its sampling period (rates up to 10 MHz), no run of the packed set comes one period after the previous one. With starts off by less than the tolerance, consecutive runs may remain.", "quantifier": "all inventories for which pack returns, every iteration order, exact arithmetic", "why_tests_cant": "All layouts of recordings.", "anchors": ["src/razorback/signalset.py:Inventory.pack", "src/razorback/signalset.py:SignalSet.merge_consecutive_runs"]}
{"id": "C95", "title": "Merging an inventory", "statement": "Inventory.merge() returns a signal set with every tag of the members that has a channel and no other; every sample of it was recorded by a member under the same tag and position at the same time, rate and value; every sample inside an interval covered at its rate by a run for every tag is in it at its time.", "quantifier": "all inventories for which merge returns, exact arithmetic", "why_tests_cant": "All layouts of recordings.", "anchors": ["src/razorback/signalset.py:Inventory._join_merge,merge"]}
{"id": "C96", "title": "The robust estimation follows a change of units, of inputs and of the expected transfer function", "statement": "Take data for transfer_function with weights among least squares, Huber, Thomson and bounded influence of these. Multiply the outputs by a complex number c other than 0, add to every output the response b.z0 of the inputs to a transfer function z0 of its own, and replace the inputs by invertible linear combinations M of them. Then transfer_function raises the same exceptions, rejects the same rows, and the estimates become M^-1 (c z + z0): no row is treated differently because of the units, the basis of the inputs or the size of the transfer function.", "quantifier": "all data, sequences of weights, options, invalid indices, numbers of inputs; exact complex arithmetic", "why_tests_cant": "Infinitely many data sets and an iteration without a bound; a test compares two runs with rounding.", "anchors": ["src/razorback/mestimator.py:transfer_function,m_estimate,wlse", "src/razorback/weights.py:Huber,Thomson,BoundedInfluenceStep,vnorm,mad_scale"]}
{"id": "C97", "title": "Data without noise", "statement": "When the output follows the inputs exactly and the inputs have full rank, least squares returns the exact transfer function, but a robust step that follows it raises ValueError: the scale of the residuals is zero, and the weights are 0/0. The same happens from any guess that more than half of the rows fit exactly. So the default weights of the library fail on synthetic data without noise.", "quantifier": "all data, all weights of the library, exact complex arithmetic", "why_tests_cant": "All data sets and weights; with rounding the residuals are seldom exactly zero, so a test sees it by chance.", "anchors": ["src/razorback/mestimator.py:transfer_function,m_estimate,wlse", "src/razorback/weights.py:Huber,Thomson,BoundedInfluenceStep,mad_scale,mest_weights"]}
{"id": "C98", "title": "Channels as attributes, and copies", "statement": "For a tag k with an admissible name that is not a member of the class, s.k is the signal set s[k]: same runs, exactly the channels of the tag. A tag named like a method or property is only reached by s[k]. Any other public name raises AttributeError, and hasattr tells the two cases apart. On an object whose fields are not set (as copy and pickle create it) every lookup that is not a method recurses without end, so copying or unpickling a signal set exceeds every recursion limit (defect).", "quantifier": "all signal sets built through the interface, all names, all recursion limits", "why_tests_cant": "All names and sets; the failure of copies is a recursion that no finite limit ends.", "anchors": ["src/razorback/signalset.py:SignalSet.__getattr__,tags,signals"]}
{"id": "C99", "title": "Numbers, functions and None as calibrations", "statement": "A calibration given to SyncSignal may be a function of the frequency or a number; the Fourier coefficients of each channel are those of its samples divided by the value of its own calibration at the frequency, and they exist exactly when the transform of the samples and all calibrations do. Without calibrations, or with an empty list, the coefficients are those of the samples. A None in the list is accepted by the constructor and makes every transform raise AssertionError.", "quantifier": "all samples, rates, lists of calibrations, frequencies, windows", "why_tests_cant": "All mixtures of numbers and functions.", "anchors": ["src/razorback/signalset.py:SyncSignal.__init__,fourier_coefficients"]}
{"id": "C100", "title": "repr of tags identifies them", "statement": "repr(Tags) is the number of channels and the tags, shorter tuples first, then in the order of their names. As long as no name contains '=' or is 'indices', two Tags objects have the same repr exactly when they are equal, whatever the order in which the tags were set. With '=' in a name different objects can have the same repr, with a tag named 'indices' the number shown is the number of its members, and with a tag named 'items' repr raises TypeError (defects).", "quantifier": "all valid tags, all names, all pairs of objects", "why_tests_cant": "All names and pairs of objects: injectivity of a printer cannot be sampled.", "anchors": ["src/razorback/signalset.py:Tags.__repr__,TagsBase.__getattribute__"]}
{"id": "C101", "title": "repr of signal sets", "statement": "repr(SignalSet) lists the tags in their order, each name as a Python literal (with the quote and the backslashes it needs), then the runs with numbers of channels and samples, rate and start, whenever the names are printable ASCII without percent signs. A percent sign in a name is taken for a formatting directive (defect): repr raises unless the percent signs of every name come in pairs, and then shows one sign for each pair, so never the right names.", "quantifier": "all signal sets, all names", "why_tests_cant": "All names.", "anchors": ["src/razorback/signalset.py:SignalSet.__repr__,SyncSignal.__repr__,Tags.__str__"]}
{"id": "C102", "title": "The order of the rows does not matter for the robust estimation", "statement": "Put the windows of the inputs and of all outputs in another order and rename the invalid indices accordingly. With weights among least squares, Huber, Thomson and bounded influence of these, transfer_function raises the same exceptions, returns the same estimates and rejects the same windows (under their new positions), whatever earlier estimations left in the weight objects.", "quantifier": "all data, orders, sequences of weights, options, guesses, invalid indices, numbers of inputs and outputs; exact complex arithmetic", "why_tests_cant": "All orders and data; a test compares two runs with rounding.", "anchors": ["src/razorback/mestimator.py:transfer_function,chain_m_estimate,m_estimate,merge_invalid_indices,wlse", "src/razorback/weights.py:Huber,Thomson,BoundedInfluenceStep"]}
{"id": "C103", "title": "The sign convention of the Fourier transform", "statement": "Conjugate all outputs and inputs. With the weights of the library, transfer_function raises the same exceptions, rejects the same rows and returns the conjugate estimates.", "quantifier": "all data, sequences of weights, options, invalid indices; exact complex arithmetic", "why_tests_cant": "All data and an iteration without a bound.", "anchors": ["src/razorback/mestimator.py:transfer_function,m_estimate,wlse", "src/razorback/weights.py:Huber,Thomson,BoundedInfluenceStep,vnorm"]}
{"id": "C104", "title": "Every output is estimated as if it were alone", "statement": "transfer_function on several outputs gives, output by output, the estimate and the rejected rows that each of them gives alone, with its own guess, its own invalid indices and fresh weight objects, although the outputs share the weight objects; when some outputs fail alone, the first of them decides the exception.", "quantifier": "all data, kernels, weight formulas, objects with any content, guesses, invalid indices", "why_tests_cant": "All sequences of outputs and all states of shared objects.", "anchors": ["src/razorback/mestimator.py:transfer_function", "src/razorback/weights.py:Huber,Thomson,BoundedInfluenceStep"]}
{"id": "C105", "title": "Numbers and times in the printed forms", "statement": "Numbers are shown with 2 digits (repr of runs), 5 digits (rates of a printed set) or 6 digits (weights): the text is the nearest decimal with at most that many digits, of two the one with the even last digit, without useless zeros, with an exponent below 1/10000 or when the digits do not reach the units. Times are shown in UTC as the date and time of the nearest second (the even one of two) in the Gregorian calendar; outside the years 1 to 9999 printing raises ValueError.", "quantifier": "all rational values, all numbers of digits, all times", "why_tests_cant": "All numbers and all days; a test sees a few.", "anchors": ["src/razorback/signalset.py:SignalSet.__str__,SyncSignal.__str__,SyncSignal.__repr__", "src/razorback/weights.py:Huber.__str__,Thomson.__str__,BoundedInfluenceStep.__str__,bi_weights"]}
{"id": "C106", "title": "Printed signal sets, runs and inventories", "statement": "str(SignalSet) is a line with the numbers of channels and runs, the tags (shorter tuples first, then by name) in rows of at most 52 characters filled greedily, and a table with the rate, the start and the stop of every run in order. It fails exactly when a run starts or stops outside the years 1 to 9999 or a tag is named 'items'. str(SyncSignal) shows channels, size, rate, start and stop and fails for the same runs. repr(Inventory) lists the repr of its members in order.", "quantifier": "all signal sets with valid tags, all runs, all inventories", "why_tests_cant": "All names, numbers of tags and lengths of rows.", "anchors": ["src/razorback/signalset.py:SignalSet.__str__,SyncSignal.__str__,Inventory.__repr__"]}
{"id": "C107", "title": "Sequences of weights and their printed forms", "statement": "A named Weights object shows its name; an unnamed one (an empty name counts as none) shows its members between parentheses, functions and named sequences by their names, the others by their text with the parameters to 6 digits. An unnamed sequence inside an unnamed one makes it raise TypeError (defect). Length, iteration and indexing (also from the end) are those of the given list; an index out of range raises IndexError. Thomson(xi) raises AssertionError exactly for xi <= 0. mest_weights, least_square and bi_weights(p, n, dim) have the documented members and names.", "quantifier": "all weights, nested to any depth, all names, indices, parameters", "why_tests_cant": "All nestings and parameters.", "anchors": ["src/razorback/weights.py:Weights,Huber,Thomson,BoundedInfluenceStep,mest_weights,least_square,bi_weights"]}
{"id": "C108", "title": "Calibration tables are read as written", "statement": "The table of a calibration file holds the values of the decimal numbers written in its lines: blank lines and comments are skipped, cells are separated by white space (Metronix) or commas (Phoenix), all rows of a Metronix section have as many cells and at least three, each Phoenix row has at least 2 + 2n cells, n being the number of channels in the fourth field of the first line; the second line of a Phoenix file may be a title. metronix and phoenix then tabulate these numbers. Anything else raises ValueError, except that a Phoenix file with one row, a Metronix section with less than two rows or less than three columns raise IndexError. A Metronix section whose first row has not the least frequency is not followed below it in chopper-on mode (defect).", "quantifier": "all texts of files, all numbers of lines, columns and channels, all decimal notations", "why_tests_cant": "All texts.", "anchors": ["src/razorback/calibrations.py:metronix,phoenix"]}
{"id": "C109", "title": "One array for all frequencies", "statement": "impedance processes the frequencies one after the other and stacks their results; it succeeds exactly when all of them succeed and the numbers of electric and magnetic channels are equal, or all frequencies have Fourier coefficients, or none has. Otherwise it raises ValueError, even with silent_fail, because a frequency without coefficients gives NaN arrays of the transposed shape. Every slice of a stacked array has the same shape.", "quantifier": "all data sets, channel counts, frequency lists and failure patterns", "why_tests_cant": "Needs a rectangular problem in which only some of the frequencies have no coefficients.", "anchors": ["src/razorback/utils.py:impedance,_impedance"]}
{"id": "C110", "title": "Binary files that change after the array was made", "statement": "An array over a binary file keeps the place its name stood for, whatever the current directory becomes. Whatever the file has become, an index gives the samples that are now at the positions asked for, or raises when some of them are not there any more: no read gives fewer samples. An array cannot be made, nor be read, where there is no file. Conversion to a numpy array reads all samples and converts them to the data type asked for.", "quantifier": "all names, file contents and later changes of the file system, all indices", "why_tests_cant": "Needs files that are truncated, replaced or deleted between the creation of an array and its use.", "anchors": ["src/razorback/io/binary_file_array.py:BinaryFileArray_1D,FileArrayProxy,BaseArrayProxy"]}
{"id": "C111", "title": "Values returned by the dictionary methods of tags", "statement": "get and pop return the tuple of the tag, or the default given, and pop then removes exactly this tag; popitem returns and removes the first item; setdefault returns the tuple of an existing tag, and for a missing one assigns the default and returns it unconverted, so it differs from the tag unless it is a tuple; a missing tag without default is refused. A tag of the name of the method makes it raise TypeError. The changes are those of C92.", "quantifier": "all tags, names and defaults", "why_tests_cant": "All tables and names, including those that shadow methods.", "anchors": ["src/razorback/signalset.py:TagsBase,Tags"]}
{"id": "C112", "title": "Least squares of the real formulation", "statement": "transfer_function_real_prob with plain least squares raises the same exceptions and returns the same complex estimates as transfer_function on the complex data, if both parts of the values to leave out are named; the rejected indices it returns are positions of real and imaginary parts, 2i and 2i+1 for the value i. For all weights it raises ValueError unless the inputs are lines of one length and each output has this length or one value, which is then repeated.", "quantifier": "all data, all numbers of inputs, outputs and rows, all lists of non-negative indices; exact arithmetic", "why_tests_cant": "All data, including those with a singular normal matrix.", "anchors": ["src/razorback/utils.py:transfer_function_real_prob", "src/razorback/mestimator.py:transfer_function,wlse"]}
{"id": "C113", "title": "What the estimates print", "statement": "Printing changes no result. impedance announces every frequency (with six digits) in order before its estimation, so an exception belongs to the frequency announced last; nothing is printed when a tag is missing. Exactly the exceptions of the two estimations are shown, one per frequency at most, with silent_fail or without it (then the one shown is the one raised); a frequency without Fourier coefficients becomes nan without any message. The mass functions show the share of the steps (combinations times intervals) done before each step, in order, rounded to 0.1%: it begins with 0.0%, never decreases and 100.0% is not shown for fewer than 2000 steps. After a failure the lines are those of the steps before it.", "quantifier": "all data sets, options, frequency lists, combinations of remotes and intervals; fewer than 2**46 steps for the texts", "why_tests_cant": "Order and completeness of the output for all failure patterns; rounding of percentages in binary64.", "anchors": ["src/razorback/utils.py:impedance_mass_proc,impedance,_impedance,prefilter_values_mass_proc"]}
{"id": "C114", "title": "The determination filter on complex data", "statement": "The filter works exactly when in every block no input is a combination of the others, and raises LinAlgError otherwise. It rejects exactly the windows of the blocks in which the output is not zero and the square root of the part of its energy explained by the best transfer function of the block is below cod_min or above cod_max; windows of blocks with a zero output are always kept. The unit of the output and an invertible change of the inputs do not matter. Nothing is rejected for cod_min <= 0 and cod_max >= 1, nor for cod_min <= 1 <= cod_max when each block has an exact transfer function.", "quantifier": "all windows, numbers of inputs, positive block sizes and limits; exact complex arithmetic", "why_tests_cant": "All data and block structures.", "anchors": ["src/razorback/prefilters.py:CoefficientOfDeterminationFilter"]}
{"id": "C115", "title": "Remote reference removes the bias of local noise", "statement": "Let the electric coefficients be the transfer function applied to the recorded magnetic coefficients plus a remainder that is uncorrelated, over the windows, with every remote channel (noise of the magnetic channels included). If no remote channel is a combination of the others and no combination of the magnetic channels is uncorrelated with all remote channels, impedance with this remote, without weight functions and prefilters, returns exactly this transfer function at every frequency and rejects no window; the reported T is the transfer function from the remote to the magnetic channels that leaves a remainder uncorrelated with the remote channels. Without remote the same holds with the magnetic channels in the place of the remote ones; the estimate without remote is biased otherwise: there are recordings for which the remote gives the true value 1 and the local estimate is 1/2.", "quantifier": "all recordings, calibrations, Fourier options, frequency lists and numbers of channels; exact arithmetic", "why_tests_cant": "Sums over all windows of arbitrary data; both stages of least squares.", "anchors": ["src/razorback/utils.py:impedance", "src/razorback/mestimator.py:transfer_function", "src/razorback/signalset.py:SignalSet.fourier_coefficients"]}
{"id": "C116", "title": "Other units of the channels, from recordings to results", "statement": "If the samples of every channel are multiplied by a real number and its calibration is changed, so that at each frequency the calibrated values of channel c are multiplied by d(c) (not 0), impedance raises the same exception as before or returns the same rejected windows, each entry of the transfer function multiplied by the factor of its output over the factor of its input, each error multiplied by the modulus of this number, and the same for the transfer function of the first stage with a remote. This holds for all weight functions of the library, with or without remote, and for all prefilters that do not depend on units; the determination filter is one.", "quantifier": "all recordings with any number of runs and channels, frequencies, factors, weight functions of the library in any sequence; exact arithmetic", "why_tests_cant": "Iterations of any length on all data.", "anchors": ["src/razorback/utils.py:impedance", "src/razorback/signalset.py:SignalSet.fourier_coefficients", "src/razorback/mestimator.py:transfer_function", "src/razorback/mestimator.py:transfer_error", "src/razorback/prefilters.py:CoefficientOfDeterminationFilter"]}
{"id": "C117", "title": "Errors, shapes and failures of complete estimates", "statement": "The error reported with the transfer function from input j to output i is the norm over all n windows of what the reported transfer function leaves of the output, divided by sqrt(n - p) for p inputs, times n/(n - k) when k windows are rejected for this output, times the square root of entry (j, j) of the inverse of the cross products of the inputs; with a remote the inputs are the magnetic channels predicted from the remote channels with the reported T. It is not finite when n = p or n = k. Without noise least squares gives the transfer functions and errors 0; with a remote whose channels predict the magnetic ones without noise it also reports this prediction as T. All results have one row per electric and one column per magnetic channel (the other way round when there are no coefficients at any frequency); with silent_fail nothing is raised but the ValueError for different shapes.", "quantifier": "all recordings, options, weight functions, legal prefilters and frequency lists; exact arithmetic", "why_tests_cant": "All data, both stages, all numbers of windows including n = p and all windows rejected.", "anchors": ["src/razorback/utils.py:impedance", "src/razorback/mestimator.py:transfer_error", "src/razorback/mestimator.py:transfer_function"]}
{"id": "C118", "title": "Recordings of one frequency give the transfer function between the fields", "statement": "Let every electric and magnetic channel of every run be sampled from a sinusoid of frequency f whose complex amplitude is the calibration of the channel at f (not 0) times the amplitude of a field, with any phase; let in every run the electric amplitudes be a transfer function z, the same for all runs, applied to the magnetic ones, and let the magnetic amplitudes of the runs determine it (no combination of the magnetic channels vanishes in all runs). If the windows used, of no special shape, hold a whole number of periods and f is below half of each sampling rate, impedance at f with least squares, no remote and no prefilter returns exactly z, with errors 0, whatever the sampling rates, starts, sizes, overlaps and numbers of runs. Windows of another shape give the same when, in every run, their values times the tone of twice the frequency sum to 0 and their values do not; whole periods without shape are one case, the Hann window is another. With a remote whose fields are such sinusoids too, determine a transfer function T, the same for all runs, and give the magnetic fields through it, impedance returns exactly z and T, with errors 0.", "quantifier": "all recordings with any number of runs and channels, rates, amplitudes, phases, calibrations, z; exact arithmetic", "why_tests_cant": "The property composes windowing, Fourier sums, calibration, stacking over runs and least squares, for all of their parameters.", "anchors": ["src/razorback/utils.py:impedance", "src/razorback/signalset.py:SignalSet.fourier_coefficients", "src/razorback/mestimator.py:transfer_function", "src/razorback/mestimator.py:transfer_error"]}
{"id": "C119", "title": "Estimates depend only on the channels of their tags", "statement": "If two signal sets read the same (channel by channel, run by run: rate, start, samples and calibration) through the electric, magnetic and remote tags of an estimate, and all channels of both have calibrations at the frequencies, impedance returns the same result or raises the same exception on both, whatever the order of the channels, the other channels and the other tags; so do prefilter_values (values) and impedance after select_channels of at least these tags. The condition on calibrations is needed: a channel that is not used but has no calibration at a frequency turns the estimate at this frequency into nan without message.", "quantifier": "all reachable signal sets, options, weight functions, prefilters, numeric kernels, frequency lists", "why_tests_cant": "All pairs of data sets and arbitrary numeric kernels.", "anchors": ["src/razorback/utils.py:impedance,prefilter_values", "src/razorback/signalset.py:SignalSet.fourier_coefficients,SignalSet.select_channels"]}
{"id": "C120", "title": "Estimates do not depend on the clock", "statement": "Give the recordings another origin and another unit of time: the same samples, every sampling rate multiplied by u > 0, every start t replaced by t/u + d, calibrations that have at the frequency u*f the value they had at f. Then impedance at the frequencies u*f returns the transfer functions, errors and remote transfers it returned at the frequencies f, or raises the same exception, whatever the weight functions and prefilters; only the times of the rejected windows change, each t to t/u + d.", "quantifier": "all recordings, u > 0, d, options, weight functions, prefilters, frequency lists; exact arithmetic", "why_tests_cant": "All recordings and all changes of the clock; the equality is exact only in exact arithmetic.", "anchors": ["src/razorback/utils.py:impedance", "src/razorback/signalset.py:SignalSet.fourier_coefficients", "src/razorback/fourier_transform.py:discrete_window"]}
{"id": "C121", "title": "Frequencies and electric channels do not influence each other", "statement": "With weight objects of weights.py, shared by all frequencies and channels, impedance on a list of frequencies gives the results of each frequency alone; the first frequency that raises alone decides the exception, otherwise the only failure is the ValueError of estimates of different shapes (C109). At one frequency the estimate of several electric channels has values exactly when the estimate of each of them alone has (so one bad channel makes all of them NaN or raises), and then its rows of the transfer function, of the errors and of the rejected times are those of each channel alone, with the same remote transfer.", "quantifier": "all recordings, options, prefilters, weight objects, frequency lists, with and without remote; exact arithmetic", "why_tests_cant": "All combinations of channels and frequencies, with weight objects that keep state.", "anchors": ["src/razorback/utils.py:impedance", "src/razorback/mestimator.py:transfer_function,transfer_error"]}
{"id": "C122", "title": "Fourier options of an estimate", "statement": "impedance uses the given Nper, overlap and window and the defaults 8, 0.71 and slepian_window(4) for those not given, in any order; compute is accepted and does not change the result. With any other option, or a value of a wrong kind, it raises nothing, even with silent_fail=False: every frequency gives NaN arrays of shape (number of magnetic channels, number of electric channels) and no rejected windows. SignalSet.fourier_coefficients itself has no defaults: without one of the three options it raises TypeError, as it does for an option it does not know once the calibrations of the first run are available. compute_prefilter raises TypeError for all arguments.", "quantifier": "all option dictionaries, recordings, arguments and frequency lists for which the tags exist; exact arithmetic", "why_tests_cant": "All dictionaries and recordings.", "anchors": ["src/razorback/utils.py:impedance", "src/razorback/utils.py:compute_prefilter", "src/razorback/signalset.py:SignalSet.fourier_coefficients", "src/razorback/fourier_transform.py:time_to_freq"]}
{"id": "C123", "title": "Combined channels", "statement": "Without a remote reference, let the calibrated magnetic channels be replaced by an invertible combination M of each other (sensors turned, for instance), and each electric channel by a non-zero multiple of itself plus a combination of the magnetic channels, the latter only when there is no prefilter. Then impedance with weights of the library rejects the same windows, fails in the same cases, and its new estimate times M is the old one, multiplied line by line, plus the added combination; if only the electric channels change, the error estimates are multiplied by the modulus. With a remote reference, replacing the remote channels by an invertible combination of each other changes neither the estimate nor the error estimates nor the rejected windows. A filter on the coefficient of determination may be used in both cases.", "quantifier": "all recordings, combinations of channels (per frequency), arguments with weights of the library and frequency lists; exact arithmetic", "why_tests_cant": "All recordings and combinations.", "anchors": ["src/razorback/utils.py:impedance", "src/razorback/mestimator.py:transfer_function", "src/razorback/prefilters.py:CoefficientOfDeterminationFilter"]}
{"id": "C124", "title": "Options of the estimator", "statement": "impedance uses the given tol, maxit and eps, in any order, and 0.01, 100 and 1e-14 for those not given, for the estimate and for the remote reference. Another name among the options, but for init, is not reported by default: where the call does not raise, every result is NaN of the same shapes as for a failed estimate. With silent_fail=False the call raises TypeError at the first frequency that has Fourier coefficients, unless it has failed before. An initial estimate given by init, one per output, changes nothing when the first weighting is None (least squares).", "quantifier": "all option dictionaries, recordings, arguments and frequency lists for which the tags exist; exact arithmetic", "why_tests_cant": "All dictionaries and recordings.", "anchors": ["src/razorback/utils.py:impedance", "src/razorback/mestimator.py:transfer_function", "src/razorback/mestimator.py:chain_m_estimate", "src/razorback/mestimator.py:m_estimate"]}
{"id": "C125", "title": "Robust estimates of recordings without noise are nan", "statement": "Let impedance be called with a sequence of weights that starts with least squares followed by an estimator of the library (Huber, Thomson or bounded influence: mest_weights and bi_weights of any parameters are such sequences), no prefilter and a positive maxit. If at a frequency one of the outputs of the first estimation (the magnetic channels from the remote ones or, without remote, the electric ones from the magnetic ones) is the same combination of the inputs in all windows, and no input is a combination of the others, then with silent_fail the result at this frequency is arrays of nan of the right shapes without rejected windows, whatever the other outputs and frequencies; without silent_fail an exception is raised, ValueError when it is the first output at the first frequency. This holds in particular for the sinusoidal recordings of C118, of which least squares gives the exact transfer function with errors 0.", "quantifier": "all recordings, options, weights of the library, frequency lists; exact arithmetic", "why_tests_cant": "The property composes Fourier coefficients, stages, weights and failure handling for all recordings; with rounding the residuals are seldom exactly zero, so a test sees it by chance.", "anchors": ["src/razorback/utils.py:impedance", "src/razorback/mestimator.py:transfer_function,m_estimate", "src/razorback/weights.py:mest_weights,bi_weights,Huber,Thomson,BoundedInfluenceStep"]}
{"id": "C126", "title": "Estimates do not depend on when the runs were recorded", "statement": "Let two signal sets have the same tags and the same runs (samples, calibrations, sampling rates), recorded at any other times and so in any other order. Then impedance without prefilters and with weights of the library, with or without remote reference, fails in the same cases with the same exception, and otherwise gives the same transfer functions, the same error estimates and the same remote transfer functions at every frequency, and it rejects the same windows: the reported times of each output correspond one to one, each at the same distance from the start of the same run.", "quantifier": "all recordings with any number of runs, all orders and starts of the runs, all weights of the library, Fourier options and frequency lists; exact arithmetic", "why_tests_cant": "The runs can be in any order and number, and the weights depend on all windows through medians, iterations and rejected rows; a test compares few orders, and only up to rounding.", "anchors": ["src/razorback/utils.py:impedance", "src/razorback/signalset.py:SignalSet.fourier_coefficients", "src/razorback/mestimator.py:transfer_function,m_estimate,transfer_error", "src/razorback/weights.py:Huber,Thomson,BoundedInfluenceStep"]}
