{"id": "C01", "title": "Accepted weights are usable", "statement": "Whenever a weighted API (mixture, discrete, average, geomean) accepts its weights, the effective weights are all strictly positive, they pair one-to-one and in the original order with the values whose given weight was non-zero, and they sum to strictly between 0.99 and 1.01; they sum to exactly 1 when weights are omitted, relative, or the last one is inferred.", "quantifier": "every weights argument (none, number, list, array, tuple), every values argument (list, list of [w, v] pairs, array, dict), every drop_na flag", "why_tests_cant": "infinitely many shapes and weight vectors; tests use a handful of literals", "anchors": ["squigglepy/utils.py:_process_weights_values"]}
{"id": "C02", "title": "Weight rejection is exact", "statement": "A plain list of values with a plain list of non-NA weights (not relative, NA not dropped) is accepted if and only if values are non-empty, no weight (including the inferred last one) is negative, and either there is one weight fewer than values and the given ones sum to less than 1, or there are as many weights as values and the sum lies strictly between 0.99 and 1.01. Every rejection is a ValueError.", "quantifier": "all weight lists and value lists", "why_tests_cant": "an iff over an unbounded input space", "anchors": ["squigglepy/utils.py:_process_weights_values"]}
{"id": "C03", "title": "Relative weights are scale-free", "statement": "With relative_weights the resulting weights are the given ones divided by their sum, so multiplying every relative weight by the same non-zero factor never changes the result.", "quantifier": "all relative weight vectors with non-zero sum, all non-zero factors", "why_tests_cant": "quantifies over all vectors and factors", "anchors": ["squigglepy/utils.py:_process_weights_values", "squigglepy/utils.py:normalize"]}
{"id": "C04", "title": "Negative relative weights are rejected", "statement": "A relative weight vector containing a negative entry is rejected with an error.", "quantifier": "all relative weight vectors", "why_tests_cant": "needs a search over sign patterns; tests only try positive entries", "anchors": ["squigglepy/utils.py:_process_weights_values"]}
{"id": "C05", "title": "Caller's weights list is not modified", "statement": "Calling mixture / average / geomean / mixture_sample never changes the caller's weights list.", "quantifier": "all weights lists and values", "why_tests_cant": "an aliasing effect that no return-value test observes", "anchors": ["squigglepy/utils.py:_process_weights_values"]}
{"id": "C06", "title": "Processing weights is idempotent", "statement": "Sampling a mixture re-processes the weights stored at construction; this second pass accepts them and yields exactly the same weights and components.", "quantifier": "every mixture that could be constructed", "why_tests_cant": "composition of two passes over arbitrary inputs", "anchors": ["squigglepy/utils.py:_process_weights_values", "squigglepy/samplers.py:mixture_sample", "squigglepy/distributions.py:MixtureDistribution"]}
{"id": "C07", "title": "Equal weights by default", "statement": "If no weights are given to n plain values each value gets weight exactly 1/n (n counted after NA values are dropped). With drop_na no NA-like value is among the returned values; next to given weights, NA-like values raise ValueError.", "quantifier": "all value lists", "why_tests_cant": "all lengths", "anchors": ["squigglepy/utils.py:_process_weights_values"]}
{"id": "C08", "title": "Compressing a long discrete list keeps probabilities", "statement": "For discrete over a list, the total probability attached to each distinct value equals (number of occurrences)/(length of list), whether or not the list is long enough (>= 100) to be compressed.", "quantifier": "all lists of values of all lengths", "why_tests_cant": "the two code paths meet at a length threshold; every multiset of values", "anchors": ["squigglepy/utils.py:_process_discrete_weights_values"]}
{"id": "C09", "title": "Mixture picks component i with probability weight_i", "statement": "For a uniform draw u in [0,1), component i of a mixture is picked exactly when u falls in the i-th consecutive interval of length weight_i, so the intervals partition the draws and each has length weight_i when the weights sum to 1.", "quantifier": "all positive weight vectors, all draws", "why_tests_cant": "probabilistic claim about all draws; sampling tests only estimate it", "anchors": ["squigglepy/samplers.py:_mixture_sample_for_small_n", "squigglepy/samplers.py:_mixture_sample_for_large_n"]}
{"id": "C10", "title": "Small-n and large-n mixture sampling agree", "statement": "The n<=100 scan and the n>100 binary search pick the same component for every draw that does not exceed the total weight.", "quantifier": "all positive weight vectors, all draws", "why_tests_cant": "two different algorithms must agree on all inputs", "anchors": ["squigglepy/samplers.py:_mixture_sample_for_small_n", "squigglepy/samplers.py:_mixture_sample_for_large_n"]}
{"id": "C11", "title": "Mixture sampling never fails on accepted weights", "statement": "A mixture whose weights were accepted at construction can be sampled for every n and every sequence of random draws without an exception from component selection.", "quantifier": "all accepted weight vectors, all draw sequences, all n", "why_tests_cant": "fails only for rare draws above the total weight", "anchors": ["squigglepy/samplers.py:_mixture_sample_for_large_n", "squigglepy/utils.py:_process_weights_values"]}
{"id": "C12", "title": "zero_inflated returns 0 with probability p_zero", "statement": "zero_inflated(p, d) yields exactly 0 for draws u <= p and a sample of d otherwise; p outside [0,1] is rejected; p=1 always gives 0 and p=0 always gives a sample of d.", "quantifier": "all p, all distributions d, all draws", "why_tests_cant": "all probabilities and draws", "anchors": ["squigglepy/distributions.py:zero_inflated", "squigglepy/samplers.py:mixture_sample"]}
{"id": "C13", "title": "sample(d, n) returns n samples", "statement": "sample(d, n) raises for n<=0, and for n>=1 a successful call returns exactly n values (a bare scalar when n is 1), for every expression built from literals, leaf distributions, mixtures, operators, clips, pipes and model functions (excluding log_tdist() without bounds and t-distributions with equal bounds).", "quantifier": "all expression trees, all n, all RNG states", "why_tests_cant": "arbitrary nesting", "anchors": ["squigglepy/samplers.py:sample"]}
{"id": "C14", "title": "Every distribution returns n samples", "statement": "sample(d, n) with n>1 returns n values for every leaf distribution including tdist and log_tdist.", "quantifier": "all leaf distributions and n", "why_tests_cant": "one leaf kind silently drops n", "anchors": ["squigglepy/samplers.py:log_t_sample", "squigglepy/samplers.py:t_sample"]}
{"id": "C15", "title": "Clipping bounds hold", "statement": "Every numeric value returned by sample(d, n, lclip, rclip) lies within the tightest combination of the call's and the distribution's own bounds (when the lower bound does not exceed the upper), and equals the unclipped sample whenever that already lies inside.", "quantifier": "all distributions, bounds, n and RNG states", "why_tests_cant": "quantifies over every draw", "anchors": ["squigglepy/samplers.py:sample", "squigglepy/distributions.py:lclip", "squigglepy/distributions.py:rclip", "squigglepy/distributions.py:clip"]}
{"id": "C16", "title": "Crossed clip bounds", "statement": "If the effective lower bound exceeds the effective upper bound, every returned value is the upper bound.", "quantifier": "all bounds with lclip > rclip", "why_tests_cant": "corner of an order-dependent implementation", "anchors": ["squigglepy/samplers.py:sample"]}
{"id": "C17", "title": "Arithmetic on distributions is pointwise", "statement": "For every binary operator (+,-,*,/,//,**,<,<=,>,>=), sampling a combined distribution first samples the left operand, then the right, with the same n, and returns the elementwise operator result; the reflected forms (number op distribution) keep operand order; unary minus negates.", "quantifier": "all operand expressions, n, RNG states", "why_tests_cant": "homomorphism over all expression trees", "anchors": ["squigglepy/distributions.py:OperableDistribution", "squigglepy/samplers.py:sample"]}
{"id": "C18", "title": "Constant expressions evaluate to their arithmetic value", "statement": "Sampling any expression tree whose leaves are numbers or const() yields the value ordinary arithmetic gives, repeated n times, whatever the RNG state, and consumes no randomness.", "quantifier": "all expression trees, all n", "why_tests_cant": "unbounded trees", "anchors": ["squigglepy/distributions.py:OperableDistribution", "squigglepy/distributions.py:const"]}
{"id": "C19", "title": "== and != on distributions compare samples", "statement": "Sampling (a == b) yields whether the sampled values are equal, and (a != b) whether they differ.", "quantifier": "all operand values", "why_tests_cant": "the repo's own test passes because <= and == coincide on the value tried", "anchors": ["squigglepy/distributions.py:OperableDistribution.__eq__", "squigglepy/distributions.py:OperableDistribution.__ne__"]}
{"id": "C20", "title": "dist_fn composes in order", "statement": "dist_fn(d, [f1,...,fk]) (direct or piped with >>) sampled at n equals fk(...f1(sample(d, n))...); with a second distribution each fi also receives a fresh sample of it, in order.", "quantifier": "all function lists and distributions", "why_tests_cant": "all lengths of pipelines", "anchors": ["squigglepy/distributions.py:dist_fn", "squigglepy/distributions.py:OperableDistribution.__rshift__"]}
{"id": "C21", "title": "clip/lclip/rclip functions", "statement": "clip(d,l,r) samples to min(max(x,l),r) pointwise; the pipe form clip(l,r) is the same; None bounds leave the value unchanged; applying the same clip twice changes nothing.", "quantifier": "all values and bounds", "why_tests_cant": "all values", "anchors": ["squigglepy/distributions.py:lclip", "squigglepy/distributions.py:rclip", "squigglepy/distributions.py:clip", "squigglepy/distributions.py:_lclip", "squigglepy/distributions.py:_rclip"]}
{"id": "C22", "title": "Samples stay in the support", "statement": "uniform(x,y) samples lie in [x,y); bernoulli gives 0 or 1, and is 1 exactly when the uniform draw is below p; triangular and PERT stay in [left,right]; pareto >= 1; inverse lognormal > 0; coin is 'heads' or 'tails'.", "quantifier": "all parameters accepted by constructors, all RNG outputs allowed by numpy's documented ranges", "why_tests_cant": "all parameters and draws", "anchors": ["squigglepy/samplers.py"]}
{"id": "C23", "title": "Sampling depends only on the RNG", "statement": "With memcache off and no cache file, sampling an uncorrelated distribution reads and writes nothing but the RNG state: caches, files and correlation state are unchanged and the result is a function of (distribution, n, clips, RNG state), so re-seeding reproduces it after any history of calls.", "quantifier": "all histories of previous API calls", "why_tests_cant": "quantifies over all prior histories", "anchors": ["squigglepy/samplers.py:sample", "squigglepy/rng.py:set_seed"]}
{"id": "C24", "title": "Model functions are called once per sample", "statement": "sample(f, n) for a model function f calls f exactly n times before resolving any result, then resolves every returned distribution or function in order, and returns the n resolved values.", "quantifier": "all model functions and n", "why_tests_cant": "ordering of side effects over all n", "anchors": ["squigglepy/samplers.py:sample"]}
{"id": "C25", "title": "event(p) follows p", "statement": "event(p) is True exactly when the next uniform draw u in [0,1) is below p: never for p<=0, always for p>=1, and monotone in p.", "quantifier": "all p, all RNG states", "why_tests_cant": "probabilistic over all draws", "anchors": ["squigglepy/utils.py:event_occurs", "squigglepy/utils.py:event", "squigglepy/utils.py:event_happens"]}
{"id": "C26", "title": "In-memory cache hit", "statement": "After sample(d, memcache=True) has cached d, a later sample(d, memcache=True) without reload, clips or files returns exactly the cached samples, draws no random numbers and leaves all state unchanged, after any intervening calls that do not reload d's entry.", "quantifier": "all histories of cache-using calls", "why_tests_cant": "needs induction over call histories", "anchors": ["squigglepy/samplers.py:sample"]}
{"id": "C27", "title": "Cached sampling honours n", "statement": "sample(d, n, memcache=True) returns n samples.", "quantifier": "all histories", "why_tests_cant": "depends on an earlier call with a different n", "anchors": ["squigglepy/samplers.py:sample"]}
{"id": "C28", "title": "Cache never confuses two distributions", "statement": "sample(d, memcache=True) never returns samples that were generated for a different distribution.", "quantifier": "all pairs of distributions", "why_tests_cant": "requires injectivity of the text form over all distributions", "anchors": ["squigglepy/samplers.py:sample", "squigglepy/distributions.py:ComplexDistribution.__str__", "squigglepy/distributions.py:NormalDistribution.__str__", "squigglepy/distributions.py:MixtureDistribution.__str__"]}
{"id": "C29", "title": "Cached sampling and clips", "statement": "A cache hit still respects the lclip/rclip passed to the call; and a call without clips returns unclipped samples even if the cache was filled by a clipped call.", "quantifier": "all histories", "why_tests_cant": "interaction of two features across calls", "anchors": ["squigglepy/samplers.py:sample"]}
{"id": "C30", "title": "Cache source selection", "statement": "Without reload, samples come from the file when load_cache_file exists and (there is no in-memory entry or cache_file_primary), else from memory when memcache is on and an entry exists, else they are generated; reload_cache always generates; generation happens in no other case.", "quantifier": "all combinations of flags and cache states", "why_tests_cant": "full decision table over states", "anchors": ["squigglepy/samplers.py:sample"]}
{"id": "C31", "title": "An existing load_cache_file is used", "statement": "If load_cache_file exists and reload_cache is off, sample returns data from a cache instead of generating new samples.", "quantifier": "all flag combinations", "why_tests_cant": "one flag combination silently regenerates", "anchors": ["squigglepy/samplers.py:sample"]}
{"id": "C32", "title": "Dump then load round-trips", "statement": "sample(..., dump_cache_file=f) followed, after any calls that do not dump to f, by sample(load_cache_file=f, cache_file_primary=True) returns the dumped samples.", "quantifier": "all histories not writing f", "why_tests_cant": "history", "anchors": ["squigglepy/samplers.py:sample"]}
{"id": "C33", "title": "reload_cache refreshes", "statement": "sample(d, memcache=True, reload_cache=True) generates fresh samples and makes exactly those the cached entry, changing no other entry.", "quantifier": "all states", "why_tests_cant": "all states", "anchors": ["squigglepy/samplers.py:sample"]}
{"id": "C34", "title": "Work split across cores", "statement": "n items over k>=1 cores are split into k non-negative parts summing to n, all equal to floor(n/k) except the last, which is at least as large.", "quantifier": "all n >= 0 and k >= 1", "why_tests_cant": "all n and k", "anchors": ["squigglepy/utils.py:_core_cuts"]}
{"id": "C35", "title": "Multicore result is schedule-independent", "statement": "For n >= cores, sample(d, n, cores=k) returns the concatenation of the k batches in core order, n values in total, for every order in which workers finish, and removes its temporary files.", "quantifier": "all completion orders of workers, all prior file-system contents", "why_tests_cant": "all interleavings and leftover files", "anchors": ["squigglepy/samplers.py:sample"]}
{"id": "C36", "title": "Any number of cores works", "statement": "sample(d, n, cores=k) succeeds whenever sample(d, n) does.", "quantifier": "all n and k", "why_tests_cant": "fails exactly when n < cores", "anchors": ["squigglepy/samplers.py:sample", "squigglepy/utils.py:_core_cuts"]}
{"id": "C37", "title": "Crash leftovers do not poison multicore sample", "statement": "If an earlier multicore call crashed at any point leaving temporary files behind, the next multicore sample call with n >= cores returns only freshly generated values.", "quantifier": "all crash points", "why_tests_cant": "all crash points", "anchors": ["squigglepy/samplers.py:sample"]}
{"id": "C38", "title": "Crash leftovers do not poison multicore bayesnet", "statement": "If an earlier multicore bayesnet call crashed leaving temporary files behind, the next multicore bayesnet call returns only events generated by its own event function.", "quantifier": "all crash points", "why_tests_cant": "needs a crash between write and collect", "anchors": ["squigglepy/bayes.py:bayesnet"]}
{"id": "C39", "title": "Cores draw different numbers", "statement": "Batches generated by different cores are not copies of each other.", "quantifier": "all RNG states, all pool start states", "why_tests_cant": "depends on process fork state, not visible in single runs", "anchors": ["squigglepy/samplers.py:sample", "squigglepy/rng.py"]}
{"id": "C40", "title": "simple_bayes is Bayes' rule", "statement": "For likelihoods in [0,1] and prior in [0,1] with positive evidence probability, the posterior lies in [0,1], its odds are prior odds times the likelihood ratio, posteriors of h and not-h sum to 1, it increases with prior, and updating on two independent pieces of evidence in sequence equals updating on their product.", "quantifier": "all probabilities", "why_tests_cant": "real-valued identities", "anchors": ["squigglepy/bayes.py:simple_bayes"]}
{"id": "C41", "title": "bayesnet is rejection sampling", "statement": "bayesnet(find, conditional_on, n) returns the fraction of events satisfying find among those generated events that satisfy conditional_on, a number in [0,1] for boolean find; it raises ValueError when no event satisfies the condition; event_fn is called exactly n times per uncached single-core call.", "quantifier": "all event functions, predicates, n and RNG states", "why_tests_cant": "all event functions", "anchors": ["squigglepy/bayes.py:bayesnet"]}
{"id": "C42", "title": "bayesnet caching is transparent", "statement": "With default caching, repeating a bayesnet call with any find/conditional_on and any n' <= n reuses the same generated events without calling event_fn again, and n' > n raises, after any history of non-reloading calls on any event functions.", "quantifier": "all call histories", "why_tests_cant": "induction over histories", "anchors": ["squigglepy/bayes.py:bayesnet"]}
{"id": "C43", "title": "bayesnet honours n on a cache hit", "statement": "A bayesnet call with n samples uses exactly n events.", "quantifier": "all histories", "why_tests_cant": "depends on an earlier larger call", "anchors": ["squigglepy/bayes.py:bayesnet"]}
{"id": "C44", "title": "bayesnet sufficiency check is accurate", "statement": "A cached call raises 'insufficient samples' only if fewer events than requested are stored.", "quantifier": "all histories", "why_tests_cant": "metadata is overwritten by a particular call sequence", "anchors": ["squigglepy/bayes.py:bayesnet"]}
{"id": "C45", "title": "Returned results do not alias the cache", "statement": "Modifying a result returned by a cached sample or bayesnet call does not change what later calls return.", "quantifier": "all histories with caller mutation", "why_tests_cant": "aliasing across calls", "anchors": ["squigglepy/samplers.py:sample", "squigglepy/bayes.py:bayesnet"]}
{"id": "C46", "title": "Normal update is precision weighting", "statement": "bayes.update of normals gives precision = prior precision + weight * evidence precision and precision-weighted mean; hence posterior sd <= prior sd, mean between the two means, evidence_weight=0 returns the prior, and unweighted updates are commutative and associative.", "quantifier": "all means, positive sds, non-negative weights", "why_tests_cant": "real-valued algebra", "anchors": ["squigglepy/bayes.py:update"]}
{"id": "C47", "title": "Lognormal update is normal update in log space", "statement": "bayes.update of lognormals has norm_mean/norm_sd equal to the normal update of the norm parameters.", "quantifier": "all parameters", "why_tests_cant": "real-valued algebra", "anchors": ["squigglepy/bayes.py:update"]}
{"id": "C48", "title": "Beta update adds counts", "statement": "bayes.update of betas adds a and b, so it is commutative, associative, and its mean lies between prior and evidence means.", "quantifier": "all parameters", "why_tests_cant": "algebra", "anchors": ["squigglepy/bayes.py:update"]}
{"id": "C49", "title": "Gamma update", "statement": "bayes.update of gammas adds (weighted) shapes and takes the shape-weighted mean of rates; unweighted it is commutative and associative, and the posterior scale lies between the two scales.", "quantifier": "all positive parameters", "why_tests_cant": "real-valued algebra", "anchors": ["squigglepy/bayes.py:update"]}
{"id": "C50", "title": "update rejects other types", "statement": "bayes.update raises ValueError exactly when the two arguments are not both normal, both lognormal, both beta or both gamma.", "quantifier": "all pairs of distribution kinds", "why_tests_cant": "all pairs", "anchors": ["squigglepy/bayes.py:update"]}
{"id": "C51", "title": "average is a two-component mixture", "statement": "bayes.average(p, e, w) is the mixture of p and e with the given weights, a single weight w being completed by 1-w; default 50/50 on every call in every history.", "quantifier": "all weights, all histories (mutable default argument)", "why_tests_cant": "history of calls sharing a default list", "anchors": ["squigglepy/bayes.py:average"]}
{"id": "C52", "title": "correlate validation", "statement": "correlate accepts a scalar only strictly between -1 and 1 and otherwise only a square symmetric matrix of matching size with unit diagonal and entries in [-1,1]; fewer than two variables or already-correlated variables are rejected; originals are not modified.", "quantifier": "all inputs", "why_tests_cant": "all matrices", "anchors": ["squigglepy/correlation.py:correlate", "squigglepy/correlation.py:CorrelationGroup"]}
{"id": "C53", "title": "Correlating preserves marginals when scores are tie-free", "statement": "When the recomputed score column has no ties, each output column is a permutation of the input column and is ordered exactly as the new scores.", "quantifier": "all data columns and score columns", "why_tests_cant": "all data", "anchors": ["squigglepy/correlation.py:CorrelationGroup.induce_correlation", "squigglepy/correlation.py:CorrelationGroup._sort_data_according_to_rank"]}
{"id": "C54", "title": "Correlating preserves marginals", "statement": "Inducing correlation only re-orders each variable's samples; it never changes the multiset of values.", "quantifier": "all data accepted by the diversity check", "why_tests_cant": "ties are needed; tests compare means within 1%", "anchors": ["squigglepy/correlation.py:CorrelationGroup._sort_data_according_to_rank"]}
{"id": "C55", "title": "Diversity check", "statement": "Inducing correlation raises ValueError if some variable has fewer than min_unique distinct samples or less than 70% distinct samples, and otherwise does not raise for this reason.", "quantifier": "all data", "why_tests_cant": "all data", "anchors": ["squigglepy/correlation.py:CorrelationGroup.has_sufficient_sample_diversity"]}
{"id": "C56", "title": "Correlated variables sampled together are one joint draw", "statement": "When each variable of a correlated group is sampled once in any order with the same n, all returned columns come from one joint draw; sampling a variable again triggers a new joint draw; a stored column is returned at most once.", "quantifier": "all sampling histories over a group", "why_tests_cant": "induction over histories", "anchors": ["squigglepy/samplers.py:sample_correlated_group", "squigglepy/samplers.py:sample"]}
{"id": "C57", "title": "Correlated sampling honours n", "statement": "Sampling a correlated variable with n returns n values.", "quantifier": "all histories", "why_tests_cant": "stale columns with another n", "anchors": ["squigglepy/samplers.py:sample"]}
{"id": "C58", "title": "odds and probability are inverse", "statement": "odds_to_p(p_to_odds(p)) = p for 0<p<1, p_to_odds(odds_to_p(o)) = o for o>0, both strictly increasing, values outside rejected, NA passed through, elementwise on lists.", "quantifier": "all p, o", "why_tests_cant": "all reals", "anchors": ["squigglepy/utils.py:p_to_odds", "squigglepy/utils.py:odds_to_p"]}
{"id": "C59", "title": "Geometric mean", "statement": "geomean lies between min and max of positive values, is multiplicative under scaling, invariant under simultaneous permutation of values and weights, equals the common value of a constant list, and NA values are ignored when unweighted.", "quantifier": "all positive lists and weights", "why_tests_cant": "all reals", "anchors": ["squigglepy/utils.py:geomean"]}
{"id": "C60", "title": "Geometric mean of odds", "statement": "geomean_odds of at least two probabilities lies between their min and max, and is complement-symmetric: geomean_odds(1-p) = 1 - geomean_odds(p).", "quantifier": "all lists of >= 2 probabilities", "why_tests_cant": "all reals", "anchors": ["squigglepy/utils.py:geomean_odds"]}
{"id": "C61", "title": "geomean_odds of one probability", "statement": "geomean_odds([p]) = p.", "quantifier": "all p in (0,1)", "why_tests_cant": "a length-1 corner", "anchors": ["squigglepy/utils.py:geomean_odds", "squigglepy/utils.py:_simplify"]}
{"id": "C62", "title": "Laplace rule", "statement": "laplace(s, n) = (s+1)/(n+2) in (0,1), increasing in s, rejects s>n; the time forms return 1-(1+r/t)^-(s or s+1, at least 1) in (0,1), increasing in the remaining time and decreasing in the time passed; all argument combinations either return or raise ValueError as documented.", "quantifier": "all arguments", "why_tests_cant": "decision table over reals", "anchors": ["squigglepy/utils.py:laplace"]}
{"id": "C63", "title": "Growth rate and doubling time are inverse", "statement": "growth_rate_to_doubling_time and doubling_time_to_growth_rate are mutually inverse on positive inputs and satisfy (1+g)^T = 2; on numpy arrays they do the same to every element, with infinity, 0 or nan where a single number raises.", "quantifier": "all positive reals", "why_tests_cant": "all reals", "anchors": ["squigglepy/utils.py:growth_rate_to_doubling_time", "squigglepy/utils.py:doubling_time_to_growth_rate"]}
{"id": "C64", "title": "Kelly values", "statement": "kelly rejects prices outside (0,1), deference outside [0,1], and (with error=True) my_price below market; otherwise the reported numbers are the roundings of: adj = my(1-d)+market*d, fraction = |adj-market|/(1-market), target = bankroll*fraction, delta = target-current; the fraction is in [0,1] when my_price >= market_price, is 0 at deference 1, and scales linearly with 1-deference.", "quantifier": "all prices, deference, bankroll", "why_tests_cant": "all reals", "anchors": ["squigglepy/utils.py:kelly"]}
{"id": "C65", "title": "Full Kelly maximises log growth", "statement": "For my_price > market_price the unrounded full-Kelly fraction maximises expected log wealth p*ln(1+f(1-m)/m)+(1-p)*ln(1-f) over all stakes f in [0,1).", "quantifier": "all prices and stakes", "why_tests_cant": "optimality over a continuum", "anchors": ["squigglepy/utils.py:kelly", "squigglepy/utils.py:full_kelly"]}
{"id": "C66", "title": "Kelly with error=False is symmetric", "statement": "With error=False and my_price below market, kelly behaves symmetrically: the fraction equals that of betting on the complement at complementary prices, and is at most 1.", "quantifier": "all prices", "why_tests_cant": "all reals", "anchors": ["squigglepy/utils.py:kelly"]}
{"id": "C67", "title": "extremize", "statement": "extremize(p, e) stays in (0,1), is identity at e=1, for e>=1 moves p>1/2 up and p<=1/2 down, is complement-symmetric except at p=1/2, increasing in p on each side, and rejects p outside (0,1).", "quantifier": "all p and e>0", "why_tests_cant": "all reals", "anchors": ["squigglepy/utils.py:extremize"]}
{"id": "C68", "title": "Sharpe ratio invariances", "statement": "sharpe_ratio is unchanged when returns and risk-free rate are shifted by the same amount, and scaled by the sign of k when both are multiplied by k.", "quantifier": "all return lists", "why_tests_cant": "all reals", "anchors": ["squigglepy/utils.py:sharpe_ratio"]}
{"id": "C69", "title": "Percentiles", "statement": "get_percentiles returns values between min and max of the data, 0 gives min, 100 gives max, is monotone in the percentile, independent of data order; reverse pairs the i-th computed value with the i-th label from the end; percentiles outside [0,100] raise.", "quantifier": "all data and percentile lists", "why_tests_cant": "all data", "anchors": ["squigglepy/utils.py:get_percentiles"]}
{"id": "C70", "title": "Weighted percentiles", "statement": "With positive weights the weighted percentiles lie between min and max, are monotone, unchanged by scaling all weights, by permuting data with weights, and mismatched lengths raise.", "quantifier": "all data and weights", "why_tests_cant": "all data", "anchors": ["squigglepy/utils.py:_weighted_percentile"]}
{"id": "C71", "title": "Equal weights reproduce unweighted percentiles", "statement": "get_percentiles with all weights equal returns the same values as without weights.", "quantifier": "all data", "why_tests_cant": "needs comparison of two algorithms", "anchors": ["squigglepy/utils.py:_weighted_percentile", "squigglepy/utils.py:get_percentiles"]}
{"id": "C72", "title": "Mean/median and CI", "statement": "get_mean_and_ci and get_median_and_ci return ci_low <= median <= ci_high with ci bounds at (100-c)/2 and 100-(100-c)/2, nested as credibility grows; the mean lies between min and max.", "quantifier": "all data, credibility in [0,100]", "why_tests_cant": "all data", "anchors": ["squigglepy/utils.py:get_mean_and_ci", "squigglepy/utils.py:get_median_and_ci"]}
{"id": "C73", "title": "Weighted mean in get_mean_and_ci", "statement": "When weights are given, the reported mean is the weighted mean.", "quantifier": "all data and weights", "why_tests_cant": "the repo's own test encodes the unweighted value", "anchors": ["squigglepy/utils.py:get_mean_and_ci"]}
{"id": "C74", "title": "Buckets partition the data", "statement": "With explicit increasing edges every datum in [first,last] is counted in exactly one bucket (last bucket closed, others half-open), so counts add up to the number of such data and percentages to 100 when all data are covered; pairwise disjoint custom ranges count each datum at most once.", "quantifier": "all data and edges", "why_tests_cant": "all data and edges", "anchors": ["squigglepy/utils.py:bucket_percentages"]}
{"id": "C75", "title": "Bucket labels describe their ranges", "statement": "The automatic label of each custom bucket states the range actually counted.", "quantifier": "all custom_bins", "why_tests_cant": "tests use contiguous ranges only", "anchors": ["squigglepy/utils.py:bucket_percentages"]}
{"id": "C76", "title": "one_in is a rounded reciprocal", "statement": "one_in(p, digits) is 1/p rounded half-to-even to the given digits (error at most half a unit in that digit), and the printed text with thousands separators determines the number.", "quantifier": "all p and digits", "why_tests_cant": "all reals", "anchors": ["squigglepy/utils.py:one_in", "squigglepy/utils.py:_round"]}
{"id": "C77", "title": "Credible intervals of norm", "statement": "norm(x, y, credibility=c) has mean (x+y)/2 and sd >= 0 such that x and y are the (50 -/+ c/2)th percentiles; inconsistent parameter combinations raise.", "quantifier": "all x<=y, 0<c<100, all argument combinations", "why_tests_cant": "all reals and combinations", "anchors": ["squigglepy/distributions.py:NormalDistribution"]}
{"id": "C78", "title": "norm always ends up fully specified", "statement": "Every norm(...) that does not raise has both a mean and an sd.", "quantifier": "all combinations of optional arguments", "why_tests_cant": "one of 2^4 combinations slips through", "anchors": ["squigglepy/distributions.py:NormalDistribution"]}
{"id": "C79", "title": "Credible intervals and moments of lognorm", "statement": "lognorm(x,y) has x,y at the stated percentiles; its norm_* and lognorm_* parameters satisfy the lognormal moment equations, so defining it by either pair and reading the other round-trips; every accepted call has all four parameters.", "quantifier": "all parameters and argument combinations", "why_tests_cant": "transcendental identities", "anchors": ["squigglepy/distributions.py:LognormalDistribution"]}
{"id": "C80", "title": "invlognorm interval", "statement": "invlognorm(x,y): the reciprocal of the underlying lognormal has x,y at the stated percentiles.", "quantifier": "all 0<x<=y", "why_tests_cant": "transcendental identity", "anchors": ["squigglepy/distributions.py:InverseLognormalDistribution"]}
{"id": "C81", "title": "invlognorm mean parameter", "statement": "invlognorm(lognorm_mean=m, lognorm_sd=s) samples have mean m, and the reported lognorm_mean is the mean of the samples.", "quantifier": "all parameters", "why_tests_cant": "transcendental identity", "anchors": ["squigglepy/distributions.py:InverseLognormalDistribution"]}
{"id": "C82", "title": "to() chooses by sign", "statement": "to(x,y) is lognorm(x,y) when x>0 and norm(x,y) otherwise, passing credibility and clips through.", "quantifier": "all x,y", "why_tests_cant": "all reals", "anchors": ["squigglepy/distributions.py:to"]}
{"id": "C83", "title": "Constructors validate", "statement": "uniform, triangular, pert, exponential, chisquare, binomial, bernoulli accept exactly parameters satisfying their documented constraints, and accepted parameters are valid for numpy's generator (so sampling does not raise).", "quantifier": "all parameters", "why_tests_cant": "all reals", "anchors": ["squigglepy/distributions.py"]}
{"id": "C84", "title": "Accepted distributions can be sampled", "statement": "Every distribution whose constructor succeeded can be sampled without a parameter error.", "quantifier": "all constructors and parameters", "why_tests_cant": "boundary values", "anchors": ["squigglepy/distributions.py:GeometricDistribution", "squigglepy/distributions.py:PoissonDistribution"]}
{"id": "C85", "title": "PERT shape", "statement": "pert(l,m,r,lam) uses beta parameters >= 1 summing to 2+lam and has mean (l+lam*m+r)/(lam+2).", "quantifier": "all accepted parameters", "why_tests_cant": "algebra", "anchors": ["squigglepy/samplers.py:pert_sample", "squigglepy/distributions.py:PERTDistribution"]}
{"id": "C86", "title": "Dice", "statement": "die(sides, explode_on) is accepted exactly for integer sides >= 2 with fewer explode values than sides, each an integer in 1..sides; some face never explodes so rolling ends as soon as one is drawn; the result is the sum of the exploding rolls and the final non-exploding one; without explosions it is uniform on 1..sides; with a single explode value v the result is never v.", "quantifier": "all sides, explode lists, roll streams", "why_tests_cant": "unbounded roll sequences", "anchors": ["squigglepy/dice.py:Die", "squigglepy/samplers.py:die_sample"]}
{"id": "C87", "title": "Text form of repr/hash", "statement": "Distributions with equal parameters have equal hash; repr includes the version; nested expressions print without the '<Distribution>' prefix.", "quantifier": "all expressions", "why_tests_cant": "all trees", "anchors": ["squigglepy/distributions.py:ComplexDistribution.__str__", "squigglepy/distributions.py:BaseDistribution.__repr__"]}
{"id": "C88", "title": "Single and multiple samples agree", "statement": "Each element of a sample of size n>1 of an arithmetic expression equals what a single sample of the same operand values would give.", "quantifier": "all operators and operand values", "why_tests_cant": "python scalars and numpy arrays follow different rules for bools, zero division and ints", "anchors": ["squigglepy/samplers.py:sample", "squigglepy/distributions.py:ComplexDistribution"]}
{"id": "C89", "title": "dist_round rounds every sample", "statement": "dist_round(d, digits) sampled at n rounds each of the n samples of d to the nearest multiple of 10^-digits, ties to even.", "quantifier": "all d, digits, n", "why_tests_cant": "the repo tests sample it once only", "anchors": ["squigglepy/distributions.py:dist_round", "squigglepy/utils.py:_round"]}
{"id": "C90", "title": "dist_exp and dist_log work for every n", "statement": "dist_exp(d) and dist_log(d, base) sampled at n apply the function to each of the n samples of d.", "quantifier": "all d, base, n", "why_tests_cant": "the repo tests sample them once only", "anchors": ["squigglepy/distributions.py:dist_exp", "squigglepy/distributions.py:dist_log"]}
{"id": "C91", "title": "dist_max and dist_min are pointwise", "statement": "dist_max(a,b) / dist_min(a,b) sample a, then b, with the same n and return the elementwise maximum / minimum.", "quantifier": "all a, b, n, RNG states", "why_tests_cant": "all distributions and draws", "anchors": ["squigglepy/distributions.py:dist_max", "squigglepy/distributions.py:dist_min"]}
{"id": "C92", "title": "Saved bayesnet cases reload unchanged", "statement": "bayesnet(dump_cache_file=f) followed, in a fresh process, by bayesnet(load_cache_file=f) with the same find/conditional_on gives the same answer without calling the event function.", "quantifier": "all event functions and find/conditional functions", "why_tests_cant": "needs whole-process histories", "anchors": ["squigglepy/bayes.py:bayesnet"]}
{"id": "C93", "title": "bayesnet without event function", "statement": "bayesnet(None, ...) gives an answer exactly when a cache (memory or file) supplies the cases; otherwise it returns None and changes nothing.", "quantifier": "all cache states and arguments", "why_tests_cant": "all histories", "anchors": ["squigglepy/bayes.py:bayesnet"]}
{"id": "C94", "title": "update keeps the prior's clips", "statement": "The posterior of a clipped prior respects the prior's clip bounds.", "quantifier": "all priors and evidence", "why_tests_cant": "tests never clip the prior", "anchors": ["squigglepy/bayes.py:update"]}
{"id": "C95", "title": "average accepts relative weights", "statement": "average(prior, evidence, relative_weights=[a,b]) is the mixture with weights a/(a+b), b/(a+b).", "quantifier": "all relative weights", "why_tests_cant": "the repo tests pass weights only", "anchors": ["squigglepy/bayes.py:average"]}
{"id": "C96", "title": "Clip arguments of constructors are honoured", "statement": "Every constructor function that takes lclip/rclip returns a distribution whose samples lie within those bounds.", "quantifier": "all constructors, parameters, bounds, draws", "why_tests_cant": "the repo tests clip a few constructors only", "anchors": ["squigglepy/distributions.py:triangular", "squigglepy/distributions.py:pert", "squigglepy/distributions.py:gamma", "squigglepy/samplers.py:sample"]}
{"id": "C97", "title": "Correlation tolerance is enforced", "statement": "correlate(..., tolerance=t): whenever every variable has 3 or more samples, every pair's achieved Spearman correlation is within t of the requested one.", "quantifier": "all groups and draws", "why_tests_cant": "one unlucky draw suffices", "anchors": ["squigglepy/correlation.py:CorrelationGroup", "squigglepy/correlation.py:correlate"]}
{"id": "C98", "title": "Every accepted correlation can be induced", "statement": "A matrix that correlate() accepts never makes sampling fail.", "quantifier": "all accepted matrices", "why_tests_cant": "singular matrices are a measure-zero set", "anchors": ["squigglepy/correlation.py:CorrelationGroup"]}
{"id": "C99", "title": "discrete returns each value with its probability", "statement": "discrete(items): each of the n values returned is the item whose weight interval contains that position's own uniform draw, with the weights the items carry.", "quantifier": "all accepted item lists and dicts, all n, all draws", "why_tests_cant": "weights and values must stay paired through filtering and compression", "anchors": ["squigglepy/samplers.py:discrete_sample", "squigglepy/utils.py:_process_discrete_weights_values"]}
{"id": "C100", "title": "Logs of percentiles", "statement": "get_log_percentiles(display=False): 10 to the power of each value gives the percentile (up to rounding of the value).", "quantifier": "all positive data", "why_tests_cant": "all data and digits", "anchors": ["squigglepy/utils.py:get_log_percentiles"]}
{"id": "C101", "title": "Log percentile of a single percentile", "statement": "get_log_percentiles with one percentile and display=True returns its text form.", "quantifier": "all data", "why_tests_cant": "the repo tests never ask for one displayed percentile", "anchors": ["squigglepy/utils.py:get_log_percentiles"]}
{"id": "C102", "title": "Data of weight zero do not matter", "statement": "Removing data whose weight is 0 leaves the weighted percentiles unchanged.", "quantifier": "all data and weights", "why_tests_cant": "all data", "anchors": ["squigglepy/utils.py:_weighted_percentile"]}
{"id": "C103", "title": "Log percentiles accept digits=None", "statement": "get_log_percentiles(digits=None) is accepted, as documented, with the default display=True.", "quantifier": "all data", "why_tests_cant": "documented argument value no test passes", "anchors": ["squigglepy/utils.py:get_log_percentiles"]}
{"id": "C104", "title": "Label of the last bucket", "statement": "The automatic label of every bucket made from edges states the range actually counted.", "quantifier": "all edges and data", "why_tests_cant": "data equal to the last edge", "anchors": ["squigglepy/utils.py:bucket_percentages"]}
{"id": "C105", "title": "Default bins", "statement": "bucket_percentages(data) uses the documented default edges [-inf, 2, 4, 6, 8, 10, inf].", "quantifier": "all data", "why_tests_cant": "no test leaves bins out", "anchors": ["squigglepy/utils.py:bucket_percentages"]}
{"id": "C106", "title": "Every custom range is reported", "statement": "bucket_percentages(custom_bins=ranges) without labels returns one entry per range.", "quantifier": "all custom_bins", "why_tests_cant": "tests use contiguous ranges with labels", "anchors": ["squigglepy/utils.py:bucket_percentages"]}
{"id": "C107", "title": "What can be sampled", "statement": "sample accepts exactly distributions, callables, strings, None and numbers; anything else raises before drawing; a plain value samples to copies of itself.", "quantifier": "all objects", "why_tests_cant": "open-ended set of argument types", "anchors": ["squigglepy/utils.py:is_sampleable", "squigglepy/samplers.py:sample"]}
{"id": "C108", "title": "Continuity test", "statement": "is_continuous_dist is true exactly when every part of the distribution is continuous, and a distribution deemed continuous only produces floats.", "quantifier": "all expression trees and draws", "why_tests_cant": "all trees", "anchors": ["squigglepy/utils.py:is_continuous_dist"]}
{"id": "C109", "title": "Correlation flag of composites", "statement": "contains_correlated of a composite is true exactly when some part at any depth belongs to a correlation group.", "quantifier": "all expression trees", "why_tests_cant": "all trees", "anchors": ["squigglepy/distributions.py:CompositeDistribution._check_correlated"]}
{"id": "C110", "title": "Sampling operators", "statement": "d @ n and n @ d return int(n) samples of d (fractions cut off), ~d one; counts below 1 raise ValueError and every non-integer count is reported as such.", "quantifier": "all d, n, RNG states", "why_tests_cant": "all counts and distributions", "anchors": ["squigglepy/distributions.py:OperableDistribution.__matmul__", "squigglepy/distributions.py:OperableDistribution.__invert__"]}
{"id": "C111", "title": "set_seed makes runs reproducible", "statement": "After set_seed(z), sampling any object gives the same values whatever was sampled before.", "quantifier": "all objects, seeds and earlier histories", "why_tests_cant": "depends on the whole earlier history", "anchors": ["squigglepy/rng.py:set_seed"]}
{"id": "C112", "title": "Number names", "statement": "thousand ... decillion are successive powers of 1000 and K, M, B, T their abbreviations.", "quantifier": "all names", "why_tests_cant": "finite table", "anchors": ["squigglepy/numbers.py"]}
{"id": "C113", "title": "tdist follows a change of units", "statement": "Scaling (or shifting) both bounds of tdist(low, high) scales (or shifts) every sample accordingly.", "quantifier": "all bounds, degrees of freedom, draws", "why_tests_cant": "tests mock the generator", "anchors": ["squigglepy/samplers.py:t_sample"]}
{"id": "C114", "title": "discrete only returns listed values", "statement": "Every sample of discrete(items) is one of the listed values.", "quantifier": "all item lists and dicts, all n, all draws", "why_tests_cant": "mixed types are coerced by numpy", "anchors": ["squigglepy/samplers.py:discrete_sample"]}
{"id": "C115", "title": "Constructors sample the distribution they name", "statement": "The samples of an accepted constructor are exactly the numbers of the one generator call its name and parameters ask for (gamma(shape, scale) draws gamma(shape, scale), bernoulli compares uniforms with p, pareto adds 1, pert rescales a beta, ...).", "quantifier": "all constructors, parameters, n, RNG states", "why_tests_cant": "tests mock the generator with one parameter choice each", "anchors": ["squigglepy/dice.py:GammaDistribution", "squigglepy/samplers.py:gamma_sample", "squigglepy/samplers.py:pert_sample"]}
{"id": "C116", "title": "Piping into a composed distribution", "statement": "d >> (l op r) makes use of d and of both operands of the composed distribution.", "quantifier": "all d, l, r, operators", "why_tests_cant": "tests pipe only into functions", "anchors": ["squigglepy/distributions.py:OperableDistribution.__rshift__"]}
{"id": "C117", "title": "Growth rates of distributions", "statement": "Sampling growth_rate_to_doubling_time(d) (or its inverse) gives, for each of the n samples g of d, the doubling time of g; converting there and back gives d's samples again.", "quantifier": "all d, n, RNG states", "why_tests_cant": "tests check the text and one sample", "anchors": ["squigglepy/utils.py:growth_rate_to_doubling_time", "squigglepy/utils.py:doubling_time_to_growth_rate"]}
{"id": "C118", "title": "Dict mixtures keep every component", "statement": "mixture({d1: w1, ..., dk: wk}) has the components d1 ... dk with these weights.", "quantifier": "all dicts of distributions", "why_tests_cant": "depends on hash and equality of distributions", "anchors": ["squigglepy/distributions.py:OperableDistribution.__hash__", "squigglepy/distributions.py:MixtureDistribution.__init__"]}
{"id": "C119", "title": "Mixture notations agree", "statement": "mixture([[w1, d1], ...]), mixture([d1, ...], weights=[w1, ...]) and the dict form build the same distribution or raise the same error.", "quantifier": "all components and weight lists of equal length", "why_tests_cant": "tests compare two examples", "anchors": ["squigglepy/distributions.py:mixture", "squigglepy/utils.py:_process_weights_values"]}
{"id": "C120", "title": "log_tdist is tdist in log space", "statement": "The samples of log_tdist(low, high, t) are exp of the samples of tdist(log low, log high, t) under the same draws.", "quantifier": "all bounds 0 < low < high, degrees of freedom, n, RNG states", "why_tests_cant": "tests mock the generator", "anchors": ["squigglepy/samplers.py:log_t_sample", "squigglepy/samplers.py:t_sample"]}
{"id": "C121", "title": "Equal weights survive float rounding", "statement": "Weights left out (1/n each) are always accepted and no value is dropped, although 1/n and the running sum are rounded.", "quantifier": "all value lists of up to 2^43 - 1 values, every rounding with relative error at most 2^-53", "why_tests_cant": "tests use a handful of lengths; rounding depends on n", "anchors": ["squigglepy/utils.py:_process_weights_values"]}
{"id": "C122", "title": "Rounding cannot flip the verdict on weights", "statement": "Whatever the rounding, non-negative weights whose exact sum is within 0.005 of 1 are accepted and those off by 0.02 are rejected; an inferred last weight and normalised relative weights bring the exact total to within 0.003 of 1.", "quantifier": "all non-negative weight lists of up to 2^43 - 1 entries, every rounding with relative error at most 2^-53", "why_tests_cant": "infinitely many lists and roundings", "anchors": ["squigglepy/utils.py:_process_weights_values", "squigglepy/utils.py:normalize"]}
{"id": "C123", "title": "dist_ceil and dist_floor", "statement": "Each sample of dist_ceil(d) (dist_floor(d)) is the least integer not below (greatest not above) the corresponding sample of d, for any number of samples.", "quantifier": "all d, n, RNG states", "why_tests_cant": "tests check a few samples", "anchors": ["squigglepy/distributions.py:dist_ceil", "squigglepy/distributions.py:dist_floor"]}
{"id": "C124", "title": "The text of a distribution is code that builds it", "statement": "str() of a constructed distribution is, after the <Distribution> mark, a Python call of the library's constructor with arguments that build the same distribution.", "quantifier": "all single distributions and parameters, any number formatting", "why_tests_cant": "tests compare a few strings and never evaluate them", "anchors": ["squigglepy/distributions.py:NormalDistribution.__str__", "squigglepy/distributions.py:PERTDistribution.__str__", "squigglepy/distributions.py:LognormalDistribution.__str__"]}
{"id": "C125", "title": "Infinities and nan in arithmetic", "statement": "Sums, differences, products and quotients of infinite floats are the limit of the operation on numbers approaching the operands where all approaches agree, and nan where they do not; comparisons hold when they hold for all approaching numbers; nan spreads and compares false; dividing by zero raises for one sample and is the limit from above for several.", "quantifier": "all pairs of floats including inf, -inf, nan", "why_tests_cant": "tests never use infinite samples", "anchors": ["squigglepy/distributions.py:OperableDistribution.__add__", "squigglepy/distributions.py:OperableDistribution.__truediv__", "squigglepy/samplers.py:sample"]}
{"id": "C126", "title": "Clipping numbers, arrays and pipes", "statement": "clip(x, l, r) of a number is the number clamped to [l, r], of an array the elementwise clamp, of a distribution the clipped distribution; with an argument left out, a function is returned that gives the same results when applied.", "quantifier": "all numbers, arrays of one kind, distributions, bounds", "why_tests_cant": "tests use a few numbers and mostly one kind", "anchors": ["squigglepy/distributions.py:lclip", "squigglepy/distributions.py:rclip", "squigglepy/distributions.py:clip"]}
{"id": "C127", "title": "Mixture picks in double precision", "statement": "With the cumulative weights computed in doubles, every uniform draw picks a component, and component i is picked for an interval of draws whose ends are the exact cumulative weights up to 2 * n * 2^-53 of the total.", "quantifier": "all lists of up to 2^43 - 1 non-negative double weights, all draws", "why_tests_cant": "rounding depends on all weights; failing draws have probability about 1e-16", "anchors": ["squigglepy/samplers.py:_mixture_sample_for_large_n", "squigglepy/samplers.py:_mixture_sample_for_small_n"]}
{"id": "C128", "title": "Work split in double precision", "statement": "math.floor(n / cores) in doubles is the exact integer quotient, so the parts given to the cores are the exact ones; they always add up to n.", "quantifier": "all n < 2^53, all core counts >= 1", "why_tests_cant": "infinitely many pairs; failures would sit at rounding boundaries", "anchors": ["squigglepy/utils.py:_core_cuts"]}
{"id": "C129", "title": "One value too many is noticed in double precision", "statement": "Weights that already add up to 1 or more, given with one value more than weights, are rejected.", "quantifier": "all lists of double weights", "why_tests_cant": "depends on the rounding of the running sum", "anchors": ["squigglepy/utils.py:_process_weights_values"]}
{"id": "C130", "title": "Bayes' rule in double precision", "statement": "simple_bayes computed in doubles is between 0 and 1, raises exactly when the exact evidence is zero, and is otherwise within a relative 6 * 2^-53 of the exact posterior.", "quantifier": "all non-negative likelihoods, all priors in [0, 1]", "why_tests_cant": "tests compare rounded values of a few examples", "anchors": ["squigglepy/bayes.py:simple_bayes"]}
{"id": "C131", "title": "Odds and probabilities in double precision", "statement": "Converting a probability strictly between 0 and 1 to odds and back never raises and changes it by at most a relative 5 * 2^-53; converting positive odds to a probability and back never raises.", "quantifier": "all probabilities in (0, 1), all positive double odds", "why_tests_cant": "breaks only for odds above 2^53", "anchors": ["squigglepy/utils.py:p_to_odds", "squigglepy/utils.py:odds_to_p"]}
{"id": "C132", "title": "Laplace's rule in double precision", "statement": "laplace(s, n) computed in doubles is the double nearest to (s + 1) / (n + 2) and never certainty.", "quantifier": "all 0 <= s <= n", "why_tests_cant": "breaks only for more than 2^53 trials", "anchors": ["squigglepy/utils.py:laplace"]}
{"id": "C133", "title": "event_occurs in double precision", "statement": "Over the 2^53 equally likely values of a uniform draw, event_occurs(p) is true for a share of p, up to 2^-53; exactly for p = 0, p = 1 and multiples of 2^-53.", "quantifier": "all p in [0, 1], all draws", "why_tests_cant": "2^53 draws", "anchors": ["squigglepy/utils.py:event_occurs"]}
{"id": "C134", "title": "Bucket percentages in double precision", "statement": "The percentage of a bucket computed in doubles is between 0 and 100 and within a relative 3 * 2^-53 of the exact one, larger counts never have smaller percentages, and the percentages of all buckets add up to 100 within 300 * 2^-53.", "quantifier": "all counts and totals", "why_tests_cant": "infinitely many counts", "anchors": ["squigglepy/utils.py:bucket_percentages"]}
{"id": "C135", "title": "Powers of floats", "statement": "Powers with an infinite base or exponent are the limit of integer powers of the absolute values (for an infinite base with an integer exponent, of the base itself, sign included); anything to the power 0 is 1, 1 to the power nan is 1, other nans spread; zero to a negative power raises for one sample and is inf for several; fractional powers of negative numbers are nan for several samples.", "quantifier": "all pairs of floats including inf, -inf, nan", "why_tests_cant": "special cases of pow are many and tests use ordinary numbers", "anchors": ["squigglepy/distributions.py:OperableDistribution.__pow__", "squigglepy/samplers.py:sample"]}
{"id": "C136", "title": "Operators on texts", "statement": "For text samples, + joins, the comparisons follow dictionary order by character code, text times integer repeats for one sample only, and every other operator raises TypeError.", "quantifier": "all texts, operators, numbers", "why_tests_cant": "text samples only come from discrete and const and the tests do no arithmetic on them", "anchors": ["squigglepy/distributions.py:OperableDistribution.__add__", "squigglepy/distributions.py:OperableDistribution.__lt__", "squigglepy/samplers.py:sample"]}
{"id": "C137", "title": "Re-correlated scores have exactly the requested correlation", "statement": "The scores induce_correlation computes from the ranks of the samples have exactly the requested Pearson correlations, and the returned columns are the samples in the order of those scores.", "quantifier": "all correlation matrices, sample columns, quantile functions", "why_tests_cant": "tests check rank correlations up to a tolerance", "anchors": ["squigglepy/correlation.py:CorrelationGroup.induce_correlation"]}
{"id": "C138", "title": "Re-correlation succeeds exactly for definite matrices", "statement": "For varied samples the linear algebra of induce_correlation succeeds exactly if the requested matrix and the correlations of the scores are positive definite, and raises LinAlgError otherwise; the Cholesky factor is triangular, has a positive diagonal and multiplies back to the matrix.", "quantifier": "all correlation matrices, sample columns, quantile functions", "why_tests_cant": "tests use a few matrices", "anchors": ["squigglepy/correlation.py:CorrelationGroup.induce_correlation"]}
{"id": "C139", "title": "Inducing correlation commutes with a change of units", "statement": "Converting each variable by its own increasing function and then inducing correlation gives the converted result of inducing correlation first, and the same errors.", "quantifier": "all sample columns, increasing conversions, correlation matrices, tolerances", "why_tests_cant": "tests never compare two runs", "anchors": ["squigglepy/correlation.py:CorrelationGroup.induce_correlation", "squigglepy/correlation.py:CorrelationGroup._sort_data_according_to_rank"]}
{"id": "C140", "title": "Resolve dates are calendar days", "statement": "kelly takes exactly the texts YYYY-MM-DD (month and day with one or two digits) of days that exist in the Gregorian calendar, and raises ValueError for every other text.", "quantifier": "all texts", "why_tests_cant": "infinitely many texts; leap years", "anchors": ["squigglepy/utils.py:kelly"]}
{"id": "C141", "title": "Annualised returns count the days until the resolve date", "statement": "For a resolve date n >= 1 days after today, kelly's expected_arr is (1 + roi) ** (365 / n) - 1.", "quantifier": "all dates, times of day, prices", "why_tests_cant": "the result depends on the clock", "anchors": ["squigglepy/utils.py:kelly"]}
{"id": "C142", "title": "Distributions do not follow later changes of the caller's lists", "statement": "Changing a list or dict after building a distribution from it does not change what the distribution samples.", "quantifier": "all lists, dicts, changes, constructors taking lists", "why_tests_cant": "tests never change their arguments", "anchors": ["squigglepy/distributions.py:CategoricalDistribution.__init__", "squigglepy/dice.py:Die.__init__", "squigglepy/distributions.py:MixtureDistribution.__init__"]}
{"id": "C143", "title": "Multicore results do not depend on scheduling", "statement": "However the steps of the worker processes and of the calling process interleave, a multicore call on its own ends in one way only: it returns the batches in core order and removes its files, or raises its own batch's exception or FileNotFoundError; it never deadlocks and ends within 7 steps per core and 2 more.", "quantifier": "all core counts, batches, leftover files, interleavings", "why_tests_cant": "the scheduler decides the interleaving", "anchors": ["squigglepy/samplers.py:sample", "squigglepy/bayes.py:bayesnet"]}
{"id": "C144", "title": "A crashed multicore call does not affect later calls", "statement": "Whatever point a multicore call was stopped at, a later multicore call in the same directory returns its own batches.", "quantifier": "all crash points, core counts, interleavings", "why_tests_cant": "tests never kill a process", "anchors": ["squigglepy/samplers.py:sample", "squigglepy/bayes.py:bayesnet"]}
{"id": "C145", "title": "Concurrent multicore calls do not affect each other", "statement": "Two multicore calls running at the same time each return their own batches.", "quantifier": "all pairs of calls, interleavings", "why_tests_cant": "tests never run two calls at once", "anchors": ["squigglepy/samplers.py:sample", "squigglepy/bayes.py:bayesnet"]}
{"id": "C146", "title": "Progress bars end full", "statement": "With verbose=True every progress bar of a call that returns has received exactly as many ticks as its total.", "quantifier": "all sample counts, core counts, distributions", "why_tests_cant": "tests never look at the bars", "anchors": ["squigglepy/samplers.py:sample", "squigglepy/samplers.py:mixture_sample", "squigglepy/bayes.py:bayesnet", "squigglepy/utils.py:_tick_tqdm"]}
{"id": "C147", "title": "Normal intervals in double precision", "statement": "norm(x, y) computed in doubles has as mean a double nearest to the middle of the interval, inside it, and a positive sd for x < y; mean plus and minus sd times the quantile give the interval back up to rounding.", "quantifier": "all finite double intervals, all positive quantiles", "why_tests_cant": "breaks only for neighbouring doubles", "anchors": ["squigglepy/distributions.py:NormalDistribution.__init__"]}
{"id": "C148", "title": "Normal update in double precision", "statement": "The posterior of update on normals computed in doubles is the precision-weighted average within a relative 7 * 2^-53 of its terms, keeps a positive variance, and does not move when prior and evidence agree.", "quantifier": "all finite means, positive variances, evidence weights >= 0", "why_tests_cant": "tests compare rounded values of a few examples", "anchors": ["squigglepy/bayes.py:update"]}
{"id": "C149", "title": "Kelly fraction in double precision", "statement": "The Kelly fraction computed in doubles is the exact one up to a small multiple of 2^-53.", "quantifier": "all prices in (0, 1), all deferences in [0, 1]", "why_tests_cant": "breaks only next to price 1", "anchors": ["squigglepy/utils.py:kelly"]}
{"id": "C150", "title": "A mixture of mixtures multiplies weights", "statement": "Sampling a mixture whose component i is itself a mixture takes one draw for i and a second, separate draw for its component j; of all pairs of equally likely draws, the share selecting j inside i is w_i * v_j up to the granularity of the draws.", "quantifier": "all weight vectors, all numbers of equally likely draws, all components", "why_tests_cant": "a nested draw reused or a weight applied twice changes only frequencies", "anchors": ["squigglepy/samplers.py:_mixture_sample_for_small_n", "squigglepy/samplers.py:mixture_sample"]}
{"id": "C151", "title": "Exploding dice probabilities", "statement": "For an n-sided die of which e faces explode and f do not, exactly e^m * f of the n^(m+1) equally likely roll sequences make a throw with m explosions, the share of sequences still exploding after m rolls is (e/n)^m, and the expected total of a throw is n(n+1)/(2f).", "quantifier": "all numbers of sides, all sets of exploding faces, all numbers of explosions", "why_tests_cant": "tests draw a few throws; probabilities and the mean need all sequences", "anchors": ["squigglepy/samplers.py:die_sample", "squigglepy/dice.py:Die"]}
{"id": "C152", "title": "Samples of a mixture average to the weighted mean", "statement": "Over N equally likely draws, the samples of a mixture of numbers (or of a discrete distribution written as one) add up to N times the weighted mean of the numbers, up to the sum of their absolute values: the bias is at most that sum divided by N = 2^53.", "quantifier": "all weights adding up to 1, all numbers, all N", "why_tests_cant": "a statement about all draws at once; a test can only average a few thousand", "anchors": ["squigglepy/samplers.py:mixture_sample", "squigglepy/samplers.py:_mixture_sample_for_small_n"]}
{"id": "C153", "title": "The tolerance test measures rank correlation", "statement": "The coefficient that the tolerance of correlate is compared with (Spearman's, computed from average ranks) lies between -1 and 1, is 1 exactly when the samples of two variables without ties are in the same order and -1 exactly when they are in opposite order, equals the textbook formula 1 - 6 sum d^2 / (n (n^2 - 1)) without ties, and does not change when a variable is converted by an increasing function.", "quantifier": "all sample columns", "why_tests_cant": "tests look at a few random draws", "anchors": ["squigglepy/correlation.py:CorrelationGroup._check_empirical_correlation"]}
{"id": "C154", "title": "Rejection sampling gives Bayes' rule", "statement": "bayesnet with an event function that draws a hypothesis and then evidence with a likelihood depending on it, asked for the hypothesis given the evidence, answers over all pairs of equally likely draws exactly what simple_bayes computes, and raises exactly when simple_bayes does.", "quantifier": "all likelihoods and priors, all numbers of equally likely draws, all orders of the draws", "why_tests_cant": "a test can only compare a random frequency up to a tolerance; a statement about all draws at once", "anchors": ["squigglepy/bayes.py:bayesnet", "squigglepy/bayes.py:simple_bayes", "squigglepy/utils.py:event_occurs"]}
{"id": "C155", "title": "Percentiles follow a change of units", "statement": "Multiplying all data by a positive number and adding another changes every percentile get_percentiles reports in the same way; changing the sign of the data swaps percentile p with percentile 100 - p.", "quantifier": "all data, all lists of percentiles, with or without reverse; with weights when the data differ", "why_tests_cant": "equivariance relates runs on infinitely many pairs of inputs; tests check single fixed values", "anchors": ["squigglepy/utils.py:get_percentiles", "squigglepy/utils.py:_weighted_percentile"]}
{"id": "C156", "title": "A percentile has its share of the data below it", "statement": "Of n data fewer than (n-1)p/100 + 1 lie below percentile p and more than (n-1)p/100 lie at or below it; with weights the weight below is p percent of the whole up to half the largest weight; a credible interval of c percent contains more than (n-1)c/100 - 1 of the data.", "quantifier": "all data with ties, all percentiles, all weights", "why_tests_cant": "the meaning of a percentile for every data set, including ties and tiny samples; tests fix a few data sets", "anchors": ["squigglepy/utils.py:get_percentiles", "squigglepy/utils.py:_weighted_percentile", "squigglepy/utils.py:get_median_and_ci"]}
{"id": "C157", "title": "Percentiles in double precision", "statement": "np.percentile as get_percentiles uses it, computed in doubles, never leaves the range of the data, does not fall when the percentage rises, is exactly the datum of rank k when p / 100 is a double and the position is k, and is otherwise the exact percentile up to 2^-53 * (3 (n - 1) * range + 7 * largest size). It need not be the datum when the position is whole but p / 100 is not a double.", "quantifier": "all finite double data up to 2^53 of them, all percentages", "why_tests_cant": "rounding cases that show only for some data", "anchors": ["squigglepy/utils.py:get_percentiles"]}
{"id": "C158", "title": "Weighted percentiles in double precision", "statement": "np.interp as _weighted_percentile uses it, computed in doubles, gives the outer data beyond the outer points, the datum at a point, never less than the datum on the left, and the exact interpolation up to 14 * 2^-53 * largest size. It can exceed the datum on the right, so that it falls when the percentage rises (witness).", "quantifier": "all rising points, all percentages", "why_tests_cant": "rounding cases that show only for some data", "anchors": ["squigglepy/utils.py:_weighted_percentile"]}
{"id": "C159", "title": "Rounding to digits in double precision", "statement": "_round computed in doubles (np.round: scale, round, scale back) does not reverse order, leaves numbers already rounded to d digits as they are, moves a number by at most half a unit up to a few 2^-53, and one_in of the double nearest to 1/k says k. The result need not be the nearest multiple (2.675 becomes 2.68).", "quantifier": "all finite doubles, all numbers of digits, all k up to 2^50", "why_tests_cant": "rounding cases that show only for some numbers", "anchors": ["squigglepy/utils.py:_round", "squigglepy/utils.py:one_in"]}
{"id": "C160", "title": "The diversity test in double precision", "statement": "has_sufficient_sample_diversity computed in doubles accepts exactly the columns in which at least 7 of 10 values are different and at least the minimum number are.", "quantifier": "all columns of up to 2^49 samples", "why_tests_cant": "breaks only at the boundary", "anchors": ["squigglepy/correlation.py:CorrelationGroup.has_sufficient_sample_diversity"]}
{"id": "C161", "title": "Gains reported by kelly are those of the bet", "statement": "max_gain is what the target stake gains if the bet is won, modeled_gain what it gains on average for adj_price, and expected_roi what a unit staked gains on average; none is negative. (Fails for error=False with a price below the market's, and the documented example shows other gains.)", "quantifier": "all prices, deferences, bankrolls, dates", "why_tests_cant": "tests check one value each and none for bets against the market", "anchors": ["squigglepy/utils.py:kelly", "squigglepy/utils.py:full_kelly", "squigglepy/utils.py:half_kelly", "squigglepy/utils.py:third_kelly", "squigglepy/utils.py:quarter_kelly"]}
{"id": "C162", "title": "Floating point arithmetic is that of IEEE 754", "statement": "Sums, differences, products, quotients and comparisons of binary64 numbers as the IEEE 754 standard defines them (with subnormal numbers, infinities and NaN) are the model's exact operations on extended numbers followed by rounding to the nearest double.", "quantifier": "all pairs of binary64 numbers (divisor other than minus zero)", "why_tests_cant": "2^128 pairs per operation", "anchors": ["squigglepy/distributions.py:OperableDistribution.__add__", "squigglepy/samplers.py:_mixture_sample_for_large_n", "squigglepy/utils.py:_weighted_percentile"]}
{"id": "C163", "title": "Leaving out the range of exponents does no harm", "statement": "Doubles with unbounded exponents, as the properties about double precision use them, give the same sums and differences as IEEE 754 short of overflow, and the same products and quotients from 2^-1022 on; below, the results are at most 2^-1075 off. (Products and quotients below 2^-1022 do differ.)", "quantifier": "all pairs of finite binary64 numbers", "why_tests_cant": "2^128 pairs; differences only at the ends of the range", "anchors": ["squigglepy/utils.py:get_percentiles", "squigglepy/utils.py:normalize", "squigglepy/bayes.py:update"]}
{"id": "C164", "title": "Percentiles stay finite", "statement": "np.percentile as get_percentiles uses it, in IEEE arithmetic with overflow and underflow, gives finite numbers between the smallest and largest datum whenever those are less than 2^1024 - 2^970 apart. (Two finite data further apart have NaN as percentile 0, infinity below the median and minus infinity from the median on.)", "quantifier": "all finite binary64 data, all percentages", "why_tests_cant": "overflow of an intermediate result, not of the data", "anchors": ["squigglepy/utils.py:get_percentiles"]}
{"id": "C165", "title": "Normal intervals hold what they promise", "statement": "Of the normal distribution norm builds from an interval, measured by the area under the density, the interval contains exactly the share the credibility says, with as much left of it as right of it; the density has total 1 and the mean and variance of its parameters.", "quantifier": "all intervals x < y, all credibilities between 0 and 100", "why_tests_cant": "a test can only estimate areas from samples", "anchors": ["squigglepy/distributions.py:NormalDistribution.__init__", "squigglepy/distributions.py:norm"]}
{"id": "C166", "title": "Lognormal parameters are those of the distribution", "statement": "The mean and sd that a lognormal distribution reports are the mean and sd of exp(X) for the normal X it is sampled from, by integration against the density, and intervals of lognorm and invlognorm hold the share the credibility says. (The mean invlognorm reports is not the mean of 1 / exp(X).)", "quantifier": "all parameters, intervals and credibilities", "why_tests_cant": "a test can only estimate areas and means from samples", "anchors": ["squigglepy/distributions.py:LognormalDistribution.__init__", "squigglepy/distributions.py:lognorm", "squigglepy/distributions.py:invlognorm"]}
{"id": "C167", "title": "Updates follow Bayes' rule on densities", "statement": "The density of the posterior of update is, up to a constant factor, the density of the prior times the likelihood: for normals (and lognormals in log space) the evidence density to the power of its weight, for betas the probability of the evidence's counts. (The gamma update is neither the product of densities nor that rule.)", "quantifier": "all parameters and evidence weights", "why_tests_cant": "an identity of functions at every point; tests compare a few parameters", "anchors": ["squigglepy/bayes.py:update"]}
{"id": "C168", "title": "The mode of a PERT distribution is its most likely value", "statement": "The density of the samples of pert(left, mode, right, lam) rises up to mode and falls from there (flat for lam = 0), has mean (left + lam * mode + right) / (lam + 2) and variance (mean - left) (right - mean) / (lam + 3), by integration.", "quantifier": "all left <= mode <= right with left < right, all lam >= 0", "why_tests_cant": "a test can only estimate densities and means from samples", "anchors": ["squigglepy/samplers.py:pert_sample", "squigglepy/distributions.py:pert"]}
{"id": "C169", "title": "Updating moves the mean towards the evidence", "statement": "The mean of the posterior of update, by integration of its density, lies between those of prior and evidence, and evidence equal to the prior keeps the mean and does not widen the distribution. (Fails for lognormals, whose mean drops, and for gammas, whose mean and variance are multiplied by 1 + weight.)", "quantifier": "all normal, lognormal, beta and gamma distributions, all evidence weights", "why_tests_cant": "tests check the parameters of one posterior each, not what they mean", "anchors": ["squigglepy/bayes.py:update"]}
{"id": "C170", "title": "Normal intervals and updates at the ends of the range of doubles", "statement": "In IEEE arithmetic with its overflow and underflow, a finite interval gets a mean inside it and a finite sd that is not negative, and a normal update of finite positive sds gets a positive finite variance. (Fails where the ends add up to more than the largest double, where the sd is minus infinity, and for sds whose squares or products leave the range: the variance is zero or infinite, or the update raises.)", "quantifier": "all finite binary64 ends of intervals; all means, sds and weights", "why_tests_cant": "tests use numbers of ordinary size", "anchors": ["squigglepy/distributions.py:NormalDistribution", "squigglepy/bayes.py:update"]}
{"id": "C171", "title": "Laplace's rules are predictions", "statement": "laplace(s, n) is the average of the probability of success given s successes in n trials and a flat prior; laplace(s, time_passed, time_remaining) is the average probability of an event in the remaining time given s events of a Poisson process, with a flat prior of its rate or, for a time that ends with an event, the prior 1/rate. So it is consistent over consecutive waits and the same in every unit of time.", "quantifier": "all s, n, times and time_fixed", "why_tests_cant": "tests compare a handful of numbers with numbers computed by the same formula", "anchors": ["squigglepy/utils.py:laplace"]}
{"id": "C172", "title": "Pooling odds commutes with Bayes' rule", "statement": "geomean_odds of probabilities that were each revised by the same likelihood ratio is the geomean_odds of the original probabilities revised by it; simple_bayes revises by the ratio of its likelihoods.", "quantifier": "all values, weights, relative weights and drop_na; all likelihoods", "why_tests_cant": "a relation between two functions and two orders of calling them", "anchors": ["squigglepy/utils.py:geomean_odds", "squigglepy/bayes.py:simple_bayes"]}
{"id": "C173", "title": "Percentiles follow the data", "statement": "If no datum falls then no percentile, median or end of a credible interval that is reported falls; if no datum moves by more than e then no unrounded percentile does. With weights this holds as long as the data keep their order.", "quantifier": "all data, changes of the data, percentiles, orders, digits and argsorts", "why_tests_cant": "a relation between two calls", "anchors": ["squigglepy/utils.py:get_percentiles", "squigglepy/utils.py:_weighted_percentile", "squigglepy/utils.py:get_median_and_ci", "squigglepy/utils.py:get_mean_and_ci"]}
{"id": "C174", "title": "Geometric means rise with their values and lie below arithmetic means", "statement": "Raising the numbers raises geomean, raising the probabilities raises geomean_odds; geomean of products and powers is the product and power of the geomeans; geomean lies between the weighted harmonic mean and the weighted arithmetic mean.", "quantifier": "all positive numbers, in every form of values and weights", "why_tests_cant": "a relation between several calls; tests compare single numbers", "anchors": ["squigglepy/utils.py:geomean", "squigglepy/utils.py:geomean_odds"]}
{"id": "C175", "title": "Percentiles follow the data in double precision", "statement": "In double arithmetic percentiles do not depend on the order of the list; when no datum falls a percentile falls by at most a few rounding errors, not at all at a rank computed exactly; when no datum moves by more than e no percentile moves by more than e and a few rounding errors.", "quantifier": "all lists of doubles", "why_tests_cant": "needs data whose percentiles change by one unit in the last place", "anchors": ["squigglepy/utils.py:get_percentiles"]}
{"id": "C176", "title": "Buckets of reordered, pooled and rescaled data", "statement": "bucket_percentages does not depend on the order of the data; with given ranges, counts of pooled data are sums and shares weighted averages; leaving out an edge adds up the two entries beside it; data and ranges in other units give the same values under names in those units.", "quantifier": "all data, ranges, labels and options", "why_tests_cant": "relations between several calls; tests compare single calls", "anchors": ["squigglepy/utils.py:bucket_percentages"]}
{"id": "C177", "title": "Better bets are larger", "statement": "A higher price of one's own, a lower market price, less deference, a larger bankroll or less of it staked lowers none of the fraction, target, change, gains and returns that kelly reports; the largest gain is the expected return on the bankroll and the expected gain the expected return on the stake.", "quantifier": "all prices with the market's below one's own, deferences, bankrolls and stakes", "why_tests_cant": "compares calls for all pairs of arguments, after rounding", "anchors": ["squigglepy/utils.py:kelly"]}
{"id": "C178", "title": "Answers about one Bayes net obey the laws of probability", "statement": "All answers bayesnet gives about one event function with default caching are fractions of the same sample, so they obey the chain rule, the law of total probability and inclusion-exclusion, an event and its opposite add up to 1, and simple_bayes of three answers is exactly the fourth.", "quantifier": "all event functions, numbers of cores and samples, questions in any order, with other calls in between that neither reload nor edit the events", "why_tests_cant": "relates unboundedly many calls through the cache", "anchors": ["squigglepy/bayes.py:bayesnet", "squigglepy/bayes.py:simple_bayes"]}
{"id": "C179", "title": "Everywhere larger discrete distributions have larger samples", "statement": "From the same state of the generator, a discrete distribution that puts less weight on numbers up to x, for every x, has no smaller samples and leaves the generator in the same state; raising numbers or moving weight to larger ones gives such a distribution.", "quantifier": "all weighted numbers in rising order with at least two positive weights, sample sizes and generators", "why_tests_cant": "compares two samplings for all weights, numbers and draws", "anchors": ["squigglepy/samplers.py:discrete_sample", "squigglepy/samplers.py:mixture_sample"]}
{"id": "C180", "title": "Shares of samples in double precision", "statement": "Whatever order numpy adds in, np.mean of up to 2^53 Booleans (as in bayesnet) is the double nearest to the exact share; it is 1 or 0 only for always and never, distinguishes counts up to 2^51 cases, an event and its opposite add up to 1 within 2^-53, and the chain rule holds within a relative 5*2^-53.", "quantifier": "all lists of Booleans and all orders of additions", "why_tests_cant": "says how far the exact-arithmetic laws of bayesnet answers survive rounding", "anchors": ["squigglepy/bayes.py:bayesnet"]}
{"id": "C181", "title": "Averages of samples in double precision", "statement": "Whatever order numpy adds in, the average of a list is within 1.002*2^-53 times the sum of absolute values of the exact average, and is monotone for a fixed order; but it can lie outside the range of the data, and can depend on the order (refuted).", "quantifier": "all lists short enough (fewer than about 9*10^12 values) and all orders of additions", "why_tests_cant": "bounds what rounding can do to every reported mean", "anchors": ["squigglepy/bayes.py:bayesnet", "squigglepy/utils.py:get_mean_and_ci"]}
{"id": "C182", "title": "Beta updates in double precision", "statement": "Combining any number of beta distributions by updates, in whatever order and grouping, gives exactly the sums of the parameters when these are whole and total at most 2^53, and otherwise sums within a relative 1.002*n*2^-53; fractional parameters need not be grouped alike (refuted).", "quantifier": "all trees of updates and all non-negative parameters", "why_tests_cant": "says when updating is independent of order in the arithmetic actually used", "anchors": ["squigglepy/bayes.py:update"]}
{"id": "C183", "title": "Gamma updates in double precision", "statement": "Updating a gamma distribution with positive parameters and weight never fails in doubles; the shape is within a relative 3*2^-53 and the scale within 9*2^-53 of the exact ones; with weight 1 prior and evidence commute; but the scale of two equal distributions can fall below theirs (refuted).", "quantifier": "all positive parameters and weights", "why_tests_cant": "rounding bound for a formula with two reciprocals", "anchors": ["squigglepy/bayes.py:update"]}
{"id": "C184", "title": "Repeated application of Bayes' rule in double precision", "statement": "Using each posterior as the next prior, certainty and impossibility are never left, and what is possible stays possible; but an uncertain prior can become certain, so the order of evidence can matter (refuted: two pieces of evidence that cancel leave 1/2 in one order and 1 in the other).", "quantifier": "all sequences of likelihoods", "why_tests_cant": "what rounding does to sequences of updates of any length", "anchors": ["squigglepy/bayes.py:simple_bayes"]}
{"id": "C185", "title": "Expressions with larger parts have larger samples", "statement": "From the same state of the generator, an expression built with sums, differences, multiples, negation, dist_max and dist_min has no smaller sample after raising the parts it increases in and lowering those it decreases in, whatever the depth; discrete distributions that dominate each other can be the parts. For products of parts this is false (refuted).", "quantifier": "all expressions, sample sizes, generators and states", "why_tests_cant": "an induction over expressions that compares two runs", "anchors": ["squigglepy/distributions.py:__add__", "squigglepy/distributions.py:__sub__", "squigglepy/distributions.py:dist_max", "squigglepy/samplers.py:sample"]}
{"id": "C186", "title": "Mixtures of larger parts have larger samples", "statement": "From the same state of the generator, a mixture (and so zero inflation) has no smaller sample and leaves the same state after its components are raised and the weights kept, for samples picked one by one and for those picked from columns.", "quantifier": "all weights, components, sample sizes, generators and states", "why_tests_cant": "compares two runs that interleave picking and sampling", "anchors": ["squigglepy/samplers.py:mixture_sample", "squigglepy/samplers.py:_mixture_sample_for_small_n", "squigglepy/samplers.py:_mixture_sample_for_large_n"]}
{"id": "C187", "title": "Distributions with parameters are rescaled standard ones", "statement": "uniform(lo, hi), norm(mean, sd), exponential(scale) and gamma(shape, scale) have, from the same state, the samples of the standard distribution multiplied and shifted with the library's operators; raising bounds, mean or scale lowers no sample, raising a standard deviation can (refuted).", "quantifier": "all parameters, sample sizes and generators that rescale standard draws", "why_tests_cant": "relates two routes through the library, sampling with parameters and operators on samples", "anchors": ["squigglepy/samplers.py:uniform_sample", "squigglepy/samplers.py:normal_sample", "squigglepy/samplers.py:exponential_sample", "squigglepy/samplers.py:gamma_sample", "squigglepy/distributions.py:__mul__"]}
{"id": "C188", "title": "Intervals and updates follow a change of units", "statement": "norm, lognorm and to given an interval in other units give the distribution in those units (mirrored and raised to powers too); lognorm is norm of the logarithms and invlognorm is lognorm of the reciprocals; wider intervals have larger standard deviations, more credible ones smaller ones; a credible interval read off at any credibility leads back to the same distribution; bayes.update in other units gives the updated distribution in those units.", "quantifier": "all intervals, credibilities, factors, shifts and evidence weights", "why_tests_cant": "relates pairs of constructor and update calls, not single values", "anchors": ["squigglepy/distributions.py:norm", "squigglepy/distributions.py:lognorm", "squigglepy/distributions.py:invlognorm", "squigglepy/distributions.py:to", "squigglepy/bayes.py:update"]}
{"id": "C189", "title": "Programs of random choices have their exact probabilities", "statement": "A program built from event, bernoulli, coin, die and discrete choices, each depending on the results so far, never fails and only returns values it can reach; over all equally likely sequences of draws the share of runs with any property is within c/N of its exact probability, and averages of bounded numbers of the result are within c B/N of their expected values, and bayesnet over such runs answers with the exact conditional probability (or conditional mean) up to a bound that vanishes with N; sampled as a model function it gives numbers with those shares and averages; these probabilities obey the laws of probability.", "quantifier": "all programs (any number and nesting of choices), properties, conditions, generators under the contract", "why_tests_cant": "an induction over arbitrary user programs composed with the library's samplers and bayesnet, relating counts over all draw sequences to exact probabilities", "anchors": ["squigglepy/bayes.py:bayesnet", "squigglepy/utils.py:event_occurs", "squigglepy/samplers.py:bernoulli_sample", "squigglepy/samplers.py:coin_sample", "squigglepy/samplers.py:die_sample", "squigglepy/samplers.py:discrete_sample"]}
{"id": "C190", "title": "The README's worked examples", "statement": "For all probabilities the mammography program's conditional probability is what simple_bayes returns and what bayesnet approximates; simple_bayes of the README's numbers is 25/322, in double precision 0.07763975155279504; the alarm net's two answers are 0.18347047 and 592242590/2084100239; Monty Hall is won 2/3 of the time when switching and 1/3 when not; the coin and dice example is 59/480 = 0.12292; the Kelly example gives 0.143, 142.86 and 0.077.", "quantifier": "all priors and likelihoods for the mammography program; the other programs as written in README.md", "why_tests_cant": "documented whole-program behaviour crossing samplers, events, bayesnet and simple_bayes", "anchors": ["squigglepy/bayes.py:bayesnet", "squigglepy/bayes.py:simple_bayes", "squigglepy/utils.py:kelly", "squigglepy/utils.py:event_occurs"]}
{"id": "C191", "title": "With many samples, answers far off are rare", "statement": "For a program of random choices sampled n times, as a model function or by bayesnet, the share of all equally likely sequences of draws for which the sampled mean is further than e from the exact expected value is at most (hi-lo)^2/(4 n e^2) plus the grid error nc/N; bayesnet's answer without a condition is off by more than e for a share of at most 1/(4 n e^2) + nc/N, and its conditional answer is off by more than 2e/(P(given)-e) for a share of at most 1/(2 n e^2) + 2nc/N.", "quantifier": "all programs, numbers of samples n, tolerances e, conditions, generators under the contract", "why_tests_cant": "a weak law of large numbers with explicit constants proved for arbitrary user programs composed with the library's samplers, sample and bayesnet, over the whole sequence of n runs with one shared generator", "anchors": ["squigglepy/bayes.py:bayesnet", "squigglepy/samplers.py:sample", "squigglepy/utils.py:event_occurs", "squigglepy/samplers.py:bernoulli_sample", "squigglepy/samplers.py:discrete_sample"]}
{"id": "C192", "title": "Operators on distributions combine independent draws", "statement": "One sample of an expression built from numbers, bernoulli, die and discrete with +, -, *, dist_max, dist_min and mixture is the exact value of one run in which every occurrence of a distribution is drawn afresh; over all equally likely sequences of draws the samples follow the exact law of independent operands to within c/N, so means add, subtract and multiply and variances add. d - d averages to 0 with twice the variance of d, and d + d has half the variance of 2*d.", "quantifier": "all expressions of any depth, all properties of the sampled number, generators under the contract", "why_tests_cant": "an induction over arbitrary expressions that relates what the operators and samplers do with one shared generator to products and convolutions of exact probabilities", "anchors": ["squigglepy/distributions.py:OperableDistribution", "squigglepy/samplers.py:sample", "squigglepy/samplers.py:mixture_sample", "squigglepy/samplers.py:discrete_sample", "squigglepy/samplers.py:die_sample", "squigglepy/distributions.py:dist_max", "squigglepy/distributions.py:dist_min"]}
{"id": "C193", "title": "n samples of an expression are n independent copies", "statement": "Asking for n samples of an expression at once draws all samples of the left operand before the right one, and for more than 100 samples all components of a mixture before choosing among them; the n samples nevertheless have the joint law of n independent single samples: over all equally likely sequences of draws any joint property of the samples holds as often as for independent copies to within n*c/N, and the mean of the samples is within d of the exact mean for all but (hi-lo)^2/(4 n d^2) + n*c/N of them.", "quantifier": "all expressions of any depth, all n >= 1, all properties of the list of samples, generators under the contract", "why_tests_cant": "an induction over expressions that exchanges the order in which draws are made on both paths of mixture_sample (loop and vectorised) and relates shared-generator sampling to products of exact probabilities", "anchors": ["squigglepy/samplers.py:sample", "squigglepy/samplers.py:mixture_sample", "squigglepy/samplers.py:discrete_sample", "squigglepy/samplers.py:die_sample", "squigglepy/samplers.py:bernoulli_sample", "squigglepy/distributions.py:OperableDistribution"]}
{"id": "C194", "title": "Percentiles and credible intervals of many samples are near those of the exact law", "statement": "If a lies below and b above the p-th percentile of the exact law of an expression (chance of less than a at most p/100 - d - 1/n, chance of at most b more than p/100 + d + 1/n), then get_percentiles of n samples of the expression is between a and b for all but 1/(2 n d^2) + n*c/N of all equally likely sequences of draws; the median and both ends of get_median_and_ci are each between such bounds for all but 3/(2 n d^2) + n*c/N; both ends of get_mean_and_ci are, with the mean within t of the expected value, for all but 1/(n d^2) + (hi-lo)^2/(4 n t^2) + n*c/N.", "quantifier": "all expressions of any depth, all n >= 1, percentiles, credibilities, margins, argsorts, generators under the contract", "why_tests_cant": "connects the samplers, the joint law of n samples and the interpolated order statistics of get_percentiles by a rank argument and a union bound", "anchors": ["squigglepy/utils.py:get_percentiles", "squigglepy/utils.py:get_median_and_ci", "squigglepy/samplers.py:sample", "squigglepy/samplers.py:mixture_sample", "squigglepy/distributions.py:OperableDistribution"]}
{"id": "C195", "title": "User programs that sample expressions have their exact probabilities", "statement": "A user function that samples expressions (x = ~(d1 + d2), mixtures, nested operators) and makes single random choices, each step depending on earlier results, returns exactly what a program of single choices returns on the same generator; hence over all equally likely sequences of draws any property of its value holds as often as its exact probability to within c/N, bayesnet over it answers with the exact conditional probability, and with n samples the answer is far off for at most 1/(2 n e^2) + 2 n c/N of the sequences.", "quantifier": "all such programs, properties, conditions, bayesnet calls without caches and with one core, generators under the contract", "why_tests_cant": "ties samplers, operators, mixtures and bayesnet together for arbitrary user programs by an equality of state transformers", "anchors": ["squigglepy/bayes.py:bayesnet", "squigglepy/samplers.py:sample", "squigglepy/samplers.py:mixture_sample", "squigglepy/distributions.py:OperableDistribution"]}
{"id": "C196", "title": "Which laws of arithmetic hold for distributions", "statement": "Expressions over distributions may be rewritten without changing the law of their samples as follows: +, *, dist_max and dist_min commute and associate, 0 + d, 1 * d and d - 0 are d, 0 * d is 0, a - b is a + -1 * b, a number may be multiplied out, operators go through mixtures, mixtures in mixtures may be flattened, reordered, and merged when their parts agree; parts may be replaced by parts with the same law. A distribution that occurs twice is drawn twice, so multiplying out a distribution, d + d = 2 * d, d - d = 0 and max(d, d) = d are false.", "quantifier": "all expressions of any depth; samples of any number under the generator contract", "why_tests_cant": "equalities in law are proved by exchanging the order of independent draws and lifted to the samples of the library by C193", "anchors": ["squigglepy/distributions.py:OperableDistribution", "squigglepy/distributions.py:ComplexDistribution", "squigglepy/distributions.py:dist_max", "squigglepy/distributions.py:dist_min", "squigglepy/samplers.py:sample", "squigglepy/samplers.py:mixture_sample"]}
{"id": "C197", "title": "Comparisons of distributions hold as often as they should", "statement": "n samples of a < b, a <= b, a > b or a >= b for expressions a and b over distributions are n truth values; they say of the samples of a - b drawn in the same state whether they are below (at most, above, at least) 0. Over all equally likely sequences of draws they are n independent answers with the exact chance that the comparison holds of independent draws of both sides, so the share of True among many samples is near that chance. Opposite comparisons have chances adding up to 1, turning a comparison round changes nothing, and d < d is as likely as d > d, at most 1/2.", "quantifier": "all expressions of any depth on both sides, all n >= 1, all properties of lists of truth values, generators under the contract", "why_tests_cant": "connects comparison operators on arrays and scalars with the joint law of samples of differences; exchange of independent draws", "anchors": ["squigglepy/distributions.py:OperableDistribution", "squigglepy/distributions.py:ComplexDistribution", "squigglepy/samplers.py:sample", "squigglepy/samplers.py:mixture_sample"]}
{"id": "C198", "title": "Samples drawn in batches are samples drawn at once", "statement": "n + m samples of a single distribution (any but discrete, log_tdist and tdist with bounds) are n samples followed by m samples drawn next, and leave the generator in the same state; so are up to 100 samples of a mixture, before their type is unified. For sums, and for mixtures beyond 100 samples, this is false, but for every expression the first n of n + m samples have the law of n samples.", "quantifier": "all single distributions and parameters, all mixtures of any objects, all n, m >= 1, all states, all generators that draw n + m numbers as n and then m", "why_tests_cant": "induction over replicated draws and the picking loop; case analysis over all leaf samplers with type coercion; witnesses against sums and large mixtures", "anchors": ["squigglepy/samplers.py:sample", "squigglepy/samplers.py:mixture_sample", "squigglepy/samplers.py:die_sample", "squigglepy/samplers.py:coin_sample", "squigglepy/distributions.py:OperableDistribution"]}
{"id": "C199", "title": "Stochastically larger parts make stochastically larger expressions", "statement": "If b exceeds every level at least as likely as a, then over all equally likely sequences of draws n samples of b have every property that raising samples cannot take away (such as a mean, a median or a maximum above some level) at least as often as n samples of a, to within the fineness of the draws. Sums, maxima, minima and mixtures follow their parts in this order, differences fall with the second operand, products of what is never negative follow both factors. Dice with more sides, likelier events and larger numbers are larger. The order is that of the means of all rising functions; the lower expression beats any third one less often, and beats the higher one at most half the time. A larger mean is not enough.", "quantifier": "all expressions of any depth, all n >= 1, all upward closed properties of lists, generators under the contract", "why_tests_cant": "compares distributions that make different draws, unlike the pathwise comparisons of C179, C185 and C186; needs the decomposition of rising functions into steps and the joint law of n samples", "anchors": ["squigglepy/distributions.py:OperableDistribution", "squigglepy/distributions.py:ComplexDistribution", "squigglepy/samplers.py:sample", "squigglepy/samplers.py:mixture_sample", "squigglepy/samplers.py:die_sample"]}
{"id": "C200", "title": "The mean of samples is right on average, and how far off it is", "statement": "Averaged over all equally likely sequences of draws, every bounded statistic of n samples of an expression over distributions is its expected value for n independent draws, to within the fineness of the draws. In particular the mean of n samples is on average the expected value of the expression, and its mean squared error is the variance divided by n. The variance of a product is that of independent factors; the variance of a mixture is the mean of the variances plus the variance of the means, so sq.mixture([a, b]) has the mean of (a + b) / 2 but at least twice its variance.", "quantifier": "all expressions of any depth, all n >= 1, all statistics of lists that are bounded on the range of the expression, generators under the contract", "why_tests_cant": "an equality for every statistic, where C193 and C191 bound how often samples are off; values drawn by the column-wise sampling stay in the range of the law", "anchors": ["squigglepy/samplers.py:sample", "squigglepy/samplers.py:mixture_sample", "squigglepy/distributions.py:OperableDistribution", "squigglepy/distributions.py:ComplexDistribution"]}
{"id": "C201", "title": "Shares far from the probability are exponentially rare", "statement": "That at least k of n independent runs of a program of random choices have a property of probability p has a probability of at most (1 + p (t - 1))^n / t^k for every t >= 1, and that at most k have it the same with 0 < t <= 1; so for every share above or below p the probability of reaching it falls at least geometrically with n. Counted over all equally likely sequences of draws, the same bounds hold for how many of n samples of an expression have a property and for the answers of bayesnet with n samples, to within the fineness of the draws.", "quantifier": "all programs and expressions of any depth, all properties, n, k and t, generators under the contract", "why_tests_cant": "an exponential bound with exact rational arithmetic where C191 and C193 have Chebyshev bounds; generating functions of the joint law of n samples", "anchors": ["squigglepy/bayes.py:bayesnet", "squigglepy/samplers.py:sample", "squigglepy/samplers.py:mixture_sample", "squigglepy/samplers.py:die_sample"]}
{"id": "C202", "title": "Estimates of positive quantities are accurate in double precision", "statement": "Sampling an expression built with +, * and / from any distributions and numbers applies the operators value by value, and computed in IEEE double precision every sample is off from the exact one by a relative error of at most (k + 1) 2^-53, where k counts the roundings that can add up (a sum is as good as its worse part, a product or quotient adds those of both parts), provided that the parts and all results on the way lie between 2^-1021 and 2^1022 and k is at most 1000. With - and numbers of any sign, but without /, the error is at most that share of the size, which is the same expression computed as if all numbers were positive and all differences sums; relative to the result all accuracy can be lost with -, and results on the way outside the range of doubles can make the result infinite.", "quantifier": "all expressions of any shape, all distributions as parts, all sample counts, all generator states", "why_tests_cant": "rounding error analysis of a whole class of user expressions against the exact sampler; the two negative parts show that the conditions are needed", "anchors": ["squigglepy/samplers.py:sample", "squigglepy/distributions.py:ComplexDistribution"]}
{"id": "C203", "title": "Expressions with larger parts have larger samples in double precision", "statement": "If two expressions have the same shape and the parts of the second are raised where they are added, multiplied or divided, and lowered where they are subtracted or divided by, products and quotients being of what is never negative, then no sample of the first is above that of the second when both are computed in IEEE double precision from the same state of the generator: there is no tolerance for rounding, and it holds with infinities, underflow and division by zero. Sums, products and quotients of what is never negative are never negative. Strictly larger parts need not give larger samples.", "quantifier": "all expressions of any shape with +, -, * and /, all distributions as parts, all sample counts and generator states", "why_tests_cant": "C185 for the numbers the machine computes; needs that rounding keeps the order over the whole range of doubles, which C163 does not give", "anchors": ["squigglepy/samplers.py:sample", "squigglepy/distributions.py:ComplexDistribution"]}
{"id": "C204", "title": "Percentiles and averages of estimates are accurate in double precision", "statement": "If every sample is off by at most a share t < 1 of it, then every percentile get_percentiles returns is off by at most the share t of the exact percentile, even where errors change the order of the samples, and so are the median and both ends of the intervals of get_median_and_ci and get_mean_and_ci; and the average of samples that are not negative, added up in double precision in any order, is off by at most t + 2 n 2^-53. So percentiles and averages of n samples of an expression built with +, * and / from positive quantities, sampled in double precision, are within (k + 1) 2^-53 and (k + 1 + 2 n) 2^-53 of those of the exact samples, where k counts roundings as in C202. If the percentile itself is computed in double precision as well, the bound of C157 for samples of that size is added.", "quantifier": "all lists of samples, all lists of percentiles, all sorting functions, all orders of addition, all expressions of any shape, all sample counts, all generator states", "why_tests_cant": "carries the rounding error from the single sample to the numbers a user reads, through sorting and interpolation", "anchors": ["squigglepy/utils.py:get_percentiles", "squigglepy/utils.py:get_median_and_ci", "squigglepy/utils.py:get_mean_and_ci", "squigglepy/samplers.py:sample"]}
{"id": "C205", "title": "Percentiles of samples far from those of the law are exponentially rare", "statement": "Counted over all equally likely sequences of draws, get_percentiles of n samples of an expression lies between a and b but for a share of at most (1 + P(X < a) (t - 1))^n / t^j + (1 + P(X <= b) (u - 1))^n / u^k plus the fineness of the draws, for every t >= 1, 0 < u <= 1 and ranks j <= n p/100 < k; the median and both ends of get_median_and_ci likewise with the sum of three such bounds. If P(X < a) < p/100 < P(X <= b), the probability that the percentile of independent samples is not between a and b falls at least geometrically with their number.", "quantifier": "all expressions of any depth, all n >= 1, percentiles, credibilities, enclosing numbers, ranks and bases, sorting functions, generators under the contract", "why_tests_cant": "replaces the Chebyshev bounds of C194 by exponential ones: the median of 400 samples of two dice is 7 in 99 of 100 cases, where C194 needs 10,000", "anchors": ["squigglepy/utils.py:get_percentiles", "squigglepy/utils.py:get_median_and_ci", "squigglepy/samplers.py:sample", "squigglepy/samplers.py:mixture_sample"]}
{"id": "C206", "title": "Conditional answers far off are exponentially rare", "statement": "In n independent runs of a user program, the probability that the share of find among the runs with conditional_on is at least x / y is at most (1 + P(both) (t^(y-x) - 1) + P(given but not find) (1 / t^x - 1))^n for every t >= 1; that it is at most x / y, the same for every 0 < t <= 1. For every x / y other than the conditional probability itself, one of these probabilities falls at least geometrically with n. Counted over all equally likely sequences of draws, the conditional answers of bayesnet with n samples are at least (at most) x / y for at most that share of the sequences plus the fineness of the draws. For the mammography example of the README (a net of two events), the share in 4000 k runs is outside 1/20 to 1/10 with a probability of at most 2 / 2^k.", "quantifier": "all user programs that fit in a bounded number of draws, all find and conditional_on, all x <= y, bases t and n >= 1, generators under the contract", "why_tests_cant": "C201 bounds exponentially only the unconditional answers and C191 bounds the conditional ones by Chebyshev; this is the exponential bound for the queries of the README, which are conditional", "anchors": ["squigglepy/bayes.py:bayesnet"]}
