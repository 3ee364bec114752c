# Formal model of squigglepy: design

The code under study is `rethinkpriorities/squigglepy` (Python) at the commit in
`/repo`.  It was read as text and never run.  Everything proved here is about the
Coq model in `rocq/theories`; the link to the code is the reading, so every model
definition carries a comment with the file and lines it mirrors and every
simplification it makes.

## How the model is organised

* Functions are shallow Gallina functions mirroring the Python branch by branch.
  Exceptions are values: `res A := Ok a | Err exn`, where `exn` records the
  Python exception class (and message where messages differ between branches).
  `Unmodelled` marks inputs on which the code does something the model does not
  describe; no theorem concludes anything from it.
* Model files (`M_*.v`) hold definitions only.  Proof files (`P_*.v`) hold lemmas.
  Property files (`Props_*.v`) hold only `Theorem ... exact lemma. Print Assumptions`
  plus the satisfiability `Example`s (`Cxx_sat`).  Small independent specifications are
  in `Spec*.v`.  `T_*.v` transcribe expectations of the project's own tests
  (`tests/test_utils.py`, `tests/test_samplers.py`, `tests/test_dice.py`,
  `tests/test_bayes.py`, `tests/test_numbers.py` and the constructors and texts of `tests/test_distributions.py`) as `Example`s about the model: a check that the model says what the code is known to do.
* Numbers.  Two representations are used.
  * `Q` (exact rationals, executable, axiom free) where Python floats are only
    added, subtracted, multiplied, divided, compared or rounded: weights, picking,
    samplers, percentiles, buckets, kelly, dice, caches, correlation.
  * `R` (Coq's classical reals) where the code uses `log`, `exp`, `sqrt`, real powers:
    geometric means, laplace, extremize, growth rates, (log)normal parameters,
    Bayesian updates, log-optimality of Kelly bets, logs of percentiles.
  In both cases **floating-point rounding is not modelled** outside C121, C122, C127-C134,
  C147-C149 and C157-C160, C162-C164, C170, C175 and C180-C184, which are about IEEE doubles (C163 says what leaving out the range of exponents changes); IEEE corner values
  (`nan`, `inf`) are modelled explicitly where a branch depends on them.
* Randomness.  `numpy.random.Generator` is an oracle: a state type `G` and a draw
  function.  Theorems either hold for every oracle, or for every oracle satisfying
  the documented numpy ranges (length `n`, uniform in `[0,1)`, ...).  Distributional
  claims ("probability w_i") are stated as: the set of uniform draws leading to the
  outcome is an interval of that length.
  From C189 on, probabilities of whole programs are shares: the generator reads numbers
  below N from a supply, and a claim about probability p counts for what share of all
  supplies of the needed length the program ends so.  Independence, means, variances,
  Chebyshev bounds and the equality of laws (C189-C201, C205, C206) are statements about such counts,
  with an explicit bound on the effect of the grid, which vanishes as N grows.
* Numbers inside samples.  Numpy scalars are treated like the Python scalars of the same
  value, and the behaviour of numpy arrays follows numpy 2.4.  Fractional powers of positive
  numbers are the oracle field `pow_`.
* State.  Module-level dictionaries (`_squigglepy_internal_sample_caches`,
  `_squigglepy_internal_bayesnet_caches`), the file system (names to contents), the RNG
  and correlation groups are explicit state threaded through the API functions.
* Concurrency.  M_SampleApi and M_Bayesnet model a multicore call as one step: the
  workers each write one file, in any order.  M_Steps models the same calls as
  interleaved steps of processes (compute, test, open, write, read, remove; a crash is
  a process that takes no more steps), and C143 proves that the one-step models give
  what every interleaving gives.  Pickling failures, full disks and the contents of
  partially written files (only: unreadable) are not modelled.

## What is modelled, file by file

| Code in `/repo/squigglepy` | Model | Specification | Property files |
|---|---|---|---|
| `utils.py` weights: `_process_weights_values`, `_process_discrete_weights_values`, `normalize` | `M_Weights` | `SpecWeights`, `SpecDiscrete` | `Props_Weights`, `Props_Discrete` |
| `samplers.py` mixture picks; `utils.py:_core_cuts` | `M_Pick` | `SpecMixture` | `Props_Pick` |
| values, numpy scalars and arrays | `M_Values` | | |
| `distributions.py` operators, `dist_fn`, `dist_max` ...; `utils.py:event_occurs`, `_round` | `M_Ops` | `SpecOps`, `SpecRound` | `Props_Ops` |
| `samplers.py` single core, no cache: `sample`, all `*_sample` functions | `M_Sampler` | `SpecSampler`, `SpecSampler2` | `Props_Sampler`, `Props_Discrete` |
| `samplers.py:sample` memory cache, files, multicore | `M_SampleApi`, `M_Alias` (array identity) | `SpecCache`, `SpecCacheText`, `SpecOpText` | `Props_Cache` |
| `distributions.py` `__str__`, `__repr__`, `__hash__` | `M_Str` | `SpecStr` | `Props_Cache` |
| `distributions.py:lclip`, `rclip`, `clip` on any argument | `M_ClipTop` | `SpecSampler`, `SpecSampler2` | `Props_ClipTop` |
| `distributions.py` operators on infinite values, powers | `M_Values` | `SpecLimits` | `Props_Limits` |
| `distributions.py` `__str__` read back as calls | `M_Str`, `M_Ctor` | `SpecCall`, `SpecStr` | `Props_Text` |
| lists of the caller kept by `CategoricalDistribution` and `Die`, copied by `MixtureDistribution` | `M_Shared` | `SpecShared` | `Props_Shared` |
| processes of multicore `sample` (samplers.py:1012-1054) and `bayesnet` (bayes.py:213-258), step by step | `M_Steps` | `SpecSteps` | `Props_Steps` |
| how many of equally likely draws give which result: mixtures, events, zero inflation, exploding dice | `M_Sampler`, `M_Pick` | `SpecShare`, `SpecDiceShare` | `Props_Share` |
| progress bars (utils.py:205-227 and their uses) | `M_Progress` | - | `Props_Progress` |
| `bayes.py:simple_bayes`, `bayesnet` | `M_Bayesnet` | `SpecBayes` | `Props_Bayes` |
| `bayes.py:update`; normal and lognormal constructors and their intervals | `M_Dists` | `SpecDists` | `Props_Dists`, `Props_Update` |
| `bayes.py:average` | `M_Average` | `SpecBayes` | `Props_Update` |
| the other constructors of `distributions.py`; `dice.py` | `M_Ctor` | `SpecCtor` | `Props_Ctor` |
| `correlation.py` | `M_Corr` | `SpecCorr` | `Props_Corr` |
| `correlation.py:induce_correlation`, linear algebra (Cholesky, inverse, corrcoef) over the reals | `M_Iman` | `SpecIman` | `Props_Iman` |
| `correlation.py:_check_empirical_correlation` (Spearman's coefficient), eigenvalue test of `CorrelationGroup` | `M_Spearman` | `SpecEigen` | `Props_Spearman` |
| `bayes.py:bayesnet` with an event function made of `event_occurs`, against `bayes.py:simple_bayes` | `M_Bayesnet`, `M_Sampler` | `SpecBayesRule` | `Props_BayesRule` |
| `utils.py` odds, geometric means, laplace, growth rates, extremize, Sharpe ratio | `M_Formulas` | `SpecFormulas` | `Props_Formulas` |
| `utils.py` kelly family | `M_Kelly` | `SpecKelly`, `SpecRound` | `Props_Kelly`, `Props_KellyGain` |
| `utils.py:kelly` resolve dates (`strptime`, `timedelta.days`) | `M_Date` | `SpecDate` | `Props_Date` |
| `utils.py` percentiles, credible intervals, log percentiles | `M_Percentiles`, `M_LogPercentiles` | `SpecPercentiles` | `Props_Percentiles` |
| what those percentiles mean: units and shares of the data | `M_Percentiles` | `SpecPctUnits` | `Props_PctUnits` |
| `utils.py:bucket_percentages`, `one_in` | `M_Buckets`, `M_OneIn` | `SpecBuckets`, `SpecOneIn` | `Props_Buckets` |
| `utils.py:is_dist`, `is_sampleable`, `is_continuous_dist`; `contains_correlated`; operators `@`, `~`; `rng.py`; `numbers.py` | `M_Kinds`, `M_IntText` | `SpecKinds`, `SpecT`, `SpecIntText` | `Props_Kinds`, `Props_TDist` |
| `utils.py:_process_weights_values`, `normalize` in rounded arithmetic | `M_Float` | `SpecFloat` | `Props_Float` |
| `samplers.py` mixture picks, `utils.py:_core_cuts`, `_process_weights_values` in IEEE double precision | `M_Double`, `M_Float` | `SpecDouble`, `SpecFloat` | `Props_Double` |
| `simple_bayes`, `p_to_odds`, `odds_to_p`, `laplace(s, n)`, `event_occurs(number)`, bucket percentages in IEEE double precision | `M_DoubleProb`, `M_Double` | `SpecDouble` | `Props_DoubleProb` |
| mean and sd of `norm(x, y)`, the normal `update` and the Kelly fraction in IEEE double precision | `M_DoubleParams`, `M_Double` | `SpecDouble`, `SpecDoubleParams`, `SpecKelly` | `Props_DoubleParams` |
| `utils.py` percentiles, with and without weights, in IEEE double precision | `M_DoublePct`, `M_Double` | `SpecDouble`, `SpecPercentiles` | `Props_DoublePct` |
| `utils.py:_round`, `one_in`; `correlation.py:has_sufficient_sample_diversity` in IEEE double precision | `M_DoubleRound`, `M_Double` | `SpecDouble`, `SpecCorr` | `Props_DoubleRound` |
| IEEE 754 binary64 arithmetic with its range, compared with `Coq.Floats.SpecFloat` | `M_Ieee`, `M_IeeePct`, `M_IeeeParams`, `M_Double`, `M_Values` | `SpecIeee`, `SpecIeeeParams` | `Props_Ieee`, `Props_IeeePct`, `Props_IeeeParams` |
| `distributions.py` norm, lognorm, invlognorm and `bayes.py` update: densities | `M_Dists` | `SpecNormal` | `Props_Normal` |
| `samplers.py` PERT: density | `M_Sampler` | `SpecNormal` | `Props_Pert` |
| `bayes.py` update: means and variances | `M_Dists` | `SpecMoments` | `Props_Moments` |
| `utils.py` laplace as a prediction; geomean_odds and `bayes.py` simple_bayes | `M_Formulas`, `M_Bayesnet` | `SpecPredict` | `Props_Predict` |
| `utils.py` percentiles of moving data | `M_Percentiles` | `SpecPctOrder` | `Props_PctOrder` |
| `utils.py` geomean and geomean_odds of changed values | `M_Formulas`, `M_Weights` | `SpecGeomean` | `Props_Geomean` |
| `utils.py` percentiles of changed data in doubles | `M_DoublePct` | `SpecPctOrder`, `SpecDouble` | `Props_DoublePctOrder` |
| `utils.py` bucket_percentages of changed data and ranges | `M_Buckets` | `SpecBucketMoves` | `Props_BucketMoves` |
| `utils.py` kelly of better bets | `M_Kelly` | `SpecKellyOrder` | `Props_KellyOrder` |
| `bayes.py` successive questions to bayesnet | `M_Bayesnet` | `SpecBayes`, `SpecConversation` | `Props_Conversation` |
| `samplers.py` discrete distributions compared | `M_Sampler` | `SpecDominance` | `Props_Dominance` |
| `bayes.py` np.mean of Booleans in double precision | `M_DoubleMean` | `SpecDoubleMean` | `Props_DoubleMean` |
| `bayes.py`, `utils.py` np.mean in double precision | `M_DoubleMean` | `SpecDoubleMean` | `Props_DoubleMean` |
| `bayes.py` beta and gamma updates in double precision | `M_DoubleConj` | `SpecDoubleConj` | `Props_DoubleConj` |
| `bayes.py` gamma updates in double precision | `M_DoubleConj` | `SpecDoubleConj` | `Props_DoubleConj` |
| `bayes.py` simple_bayes repeated in double precision | `M_DoubleProb` | `SpecDoubleLearn` | `Props_DoubleLearn` |
| `distributions.py` operators of rising parts | `M_Ops`, `M_Sampler` | `SpecRising` | `Props_Rising` |
| `samplers.py` mixtures of rising parts | `M_Sampler` | `SpecRising` | `Props_RisingMix` |
| `samplers.py` rescaled standard draws | `M_Sampler`, `M_Ops` | `SpecStandard` | `Props_Standard` |
| `distributions.py` constructors, `bayes.py` update in other units | `M_Dists` | `SpecDists` | `Props_NewUnits` |
| user programs over `event`, `bernoulli`, `coin`, `die`, `discrete` run by `bayesnet` | `M_Sampler`, `M_Ops`, `M_Bayesnet` | `SpecProgram` | `Props_Program` |
| worked examples of `README.md` | `M_Sampler`, `M_Ops`, `M_Bayesnet`, `M_Kelly`, `M_DoubleProb` | `SpecReadme`, `SpecProgram` | `Props_Readme` |
| how far sampled means and `bayesnet` answers are off after `n` samples | `M_Sampler`, `M_SampleApi`, `M_Bayesnet` | `SpecLarge`, `SpecProgram` | `Props_Large` |
| expressions over discrete distributions as independent choices | `M_Sampler`, `M_Ops` | `SpecIndep`, `SpecProgram` | `Props_Indep` |
| n samples of an expression as n independent copies | `M_Sampler`, `M_Ops` | `SpecColumns`, `SpecLarge` | `Props_Columns` |
| percentiles of samples against the law of the expression | `M_Sampler`, `M_Ops`, `M_Percentiles` | `SpecPctNear`, `SpecColumns` | `Props_PctNear` |
| user programs that sample expressions | `M_Sampler`, `M_Ops`, `M_Bayesnet` | `SpecScript`, `SpecProgram` | `Props_Script` |
| laws of arithmetic for expressions | `M_Sampler`, `M_Ops` | `SpecAlgebra`, `SpecColumns` | `Props_Algebra` |
| comparisons of expressions | `M_Sampler`, `M_Ops` | `SpecCompare`, `SpecColumns` | `Props_Compare` |
| samples drawn in batches | `M_Sampler` | `SpecBatches`, `SpecMixture`, `SpecColumns` | `Props_Batches` |
| stochastic order of expressions | `M_Sampler`, `M_Ops` | `SpecStochastic`, `SpecCompare`, `SpecColumns` | `Props_Stochastic` |
| averages of statistics of samples | `M_Sampler`, `M_Ops` | `SpecUnbiased`, `SpecColumns` | `Props_Unbiased` |
| exponential bounds on shares | `M_Sampler`, `M_Bayesnet` | `SpecChernoff`, `SpecColumns` | `Props_Chernoff` |
| accuracy of estimates | `M_DoubleExpr`, `M_Ieee`, `M_Sampler` | `SpecAccuracy`, `SpecRising` | `Props_Accuracy` |
| order of samples in double precision | `M_DoubleExpr`, `M_Ieee`, `M_Sampler` | `SpecRaised`, `SpecRising` | `Props_Raised` |
| accuracy of summaries | `M_Percentiles`, `M_DoublePct`, `M_DoubleMean`, `M_DoubleExpr` | `SpecSummary`, `SpecAccuracy`, `SpecDoubleMean` | `Props_Summary` |
| percentiles of samples, exponential bounds | `M_Percentiles`, `M_Sampler` | `SpecPctSharp`, `SpecPctNear`, `SpecChernoff` | `Props_PctSharp` |
| conditional answers, exponential bounds | `M_Bayesnet`, `M_Sampler` | `SpecTilt`, `SpecChernoff`, `SpecProgram` | `Props_Tilt` |
| `utils.py` growth rates of distributions; dict mixtures; `>>` | `M_Build` | `SpecBuild` | `Props_Build` |

Proof methods: induction over lists, expressions, histories and roll streams; loop
invariants for the picking loops; permutation invariance for multicore schedules;
double counting for buckets; field and real-analysis arguments over `R`.

## Trusted base

* Coq 8.16.1 kernel (and `vm_compute`'s evaluator where used).
* Standard-library axioms, only for theorems over `R`.  `Print Assumptions` names at most
  `ClassicalDedekindReals.sig_forall_dec`, `ClassicalDedekindReals.sig_not_dec`,
  `Classical_Prop.classic` and `FunctionalExtensionality.functional_extensionality_dep`; see
  the theorem-by-theorem list at the end.  Theorems over `Q`, `nat` and lists are closed.
  A whole-library scan of the loaded `.vo` files (as `coqchk` does) also lists the
  module-sealed constants of `Coq.Reals.Rdefinitions` (`RbaseSymbolsImpl.*`, `RinvImpl.*`) and
  `Coq.ssr.ssrunder.Under_rel.*`; no property theorem depends on the latter.
* No axioms of this development: oracles are section variables, so every theorem
  quantifies over them.
* The reading of the Python source, and of the documented behaviour of numpy, scipy,
  pathos and the standard library used by it.

### Contracts on external functions

Each is a hypothesis of the theorems that need it, and an `Example` or lemma shows
a concrete function meeting it.

| Contract | Says | Stands for |
|---|---|---|
| `right_length` | a draw of size n returns n numbers | numpy generators |
| `location_scale` | normal(m, sd) draws are m + sd * standard draws, from the same generator state to the same state | numpy generators (C113 only) |
| `standard_draws` | uniform, normal, exponential and gamma draws are shifted and scaled standard draws, from the same generator state to the same state | numpy generators, exact arithmetic (C187 only) |
| `exponential_draws` | lognormal(m, sd) draws are an increasing positive function of normal(m, sd) draws, from the same state to the same state | numpy generators (C187 only) |
| `reads` | with exact numbers: every uniform draw and every whole-number draw uses up the next number k < N of an infinite supply; the uniform draw is k/N, the draw from lo to hi-1 is lo + floor(k (hi-lo) / N) | an idealised numpy generator (C189, C191, C192, C195, C206).  numpy's uniform draws are multiples of 1/2^53, as here; its whole-number draws may use up half a word or reject one, so for those the contract keeps the probabilities but not the algorithm |
| `reads_all` | `reads`, and n uniform draws at once use up the next n numbers in order | an idealised numpy generator (C193, C194, C196-C201, C205) |
| `steady` | drawing n + m numbers in one request is drawing n and then m | numpy generators (C198 only) |
| `in_support` | draws lie in the documented ranges | numpy generators |
| `numpy_checks` | which parameters numpy rejects | numpy generators |
| `normal_quantile` | inverts an increasing, symmetric distribution function | `scipy.stats.norm.ppf`; C165 proves that the quantile function of the normal density exists, is unique and meets it |
| `true_quantile` | the area under the normal density left of ppf(p) is p | `scipy.stats.norm.ppf` (C165, C166 only) |
| `log_exp` | log and exp inverse, log(e) = 1 | `math.log`, `math.exp` (C117 only) |
| `rounds` | relative error of +, - and / at most u; literals 0.99 and 1.01 within u | IEEE double arithmetic without underflow (C121, C122 only) |
| `eigen_test` | the eigenvalue test decides semidefiniteness | `np.linalg.eigvals`; C52_eigenvalue_test proves that exact eigenvalues do |
| `is_spearman`, `rank_based` | the textbook formula without ties; depends on ranks only | `scipy.stats.spearmanr`; C153 proves both of the exact coefficient |
| `cholesky_test` | fails exactly on matrices that are not positive definite | `scipy.linalg.cholesky`; proved of the exact factorisation in C138 |
| `increasing_quantile` | increasing between 0 and 1 | `scipy.stats.norm.ppf` (C137, C138) |
| `sorts`, `sorts_numbers` | returns the indices in sorted order, ties in any order | `np.argsort` |
| `well_shaped`, `first_kept`, `keeps_shape`, `induces` | shape of the transformed scores; the first column keeps its order | the linear algebra of `induce_correlation`; `well_shaped` and `first_kept` are proved of the exact computation in C138 |
| `respects` | a function gives equal results on equal fractions | `math.exp`, `math.log` (C90 only) |
| `power` (Kelly), `pow_`, `round_real` (log percentiles), `fmt` (text) | arbitrary | float powers, rounding, number printing |

## Not modelled

Floating-point rounding (except for weights, picks, work splitting, simple probabilities, normal intervals, the normal update, the Kelly fraction, percentiles, means, rounding to digits and the diversity test in C121, C122, C127-C134, C147-C149, C157-C160, C162-C164, C170, C175 and C180-C184), plotting, verbose printing other than the counts of progress bars, pandas
internals, numpy's random algorithms, rounding in the linear algebra inside
`induce_correlation` (modelled in exact reals), worker processes that are killed while the pool waits for them (the call then never ends), wall-clock time (the current time is an argument in C141), the contents of partially written files, string arguments where numbers are expected.

## Seeded bugs

`seeded/LOG.jsonl` records edits of the model that imitate realistic bugs, the theorems that
stopped compiling, and the theorems tightened when an edit went unnoticed.

## Property by property: what is proved

The model files behind each property file are in the table above.  `refuted` theorems
give a witness that the natural statement fails of the faithful model.

| Property | Title | Status | Where | Theorems | Remarks |
|---|---|---|---|---|---|
| C01 | Accepted weights are usable | partial (refuted) | Props_Weights | `accepted_weights_usable`, `all_zero_relative_refuted` | only exception: relative weights without a non-zero entry |
| C02 | Weight rejection is exact | proved | Props_Weights | `acceptance_exact`, `rejection_is_value_error`, `not_numbers`, `no_values`, `empty_tuple` |  |
| C03 | Relative weights are scale-free | proved | Props_Weights | `relative_scale_free` |  |
| C04 | Negative relative weights are rejected | partial (refuted) | Props_Weights | `relative_acceptance_exact`, `negative_relative_rejected_refuted` | negative relative weights are checked after normalisation |
| C05 | Caller's weights list is not modified | partial (refuted) | Props_Weights | `caller_arguments_after`, `caller_list_unchanged_refuted` | a list passed as weights is extended in place when one weight is inferred |
| C06 | Processing weights is idempotent | proved | Props_Weights | `reprocessing_is_identity` |  |
| C07 | Equal weights by default | proved | Props_Weights | `equal_weights_by_default`, `no_na_left`, `na_next_to_weights_refused` |  |
| C08 | Compressing a long discrete list keeps probabilities | proved | Props_Weights | `compression_keeps_probabilities`, `compressed_values_distinct` |  |
| C09 | Mixture picks component i with probability weight_i | proved | Props_Pick, Props_Sampler, Props_Share | `pick_interval`, `interval_length`, `every_draw_picks`, `mixture_sampling_small`, `mixture_sampling_large`, `built_mixture_ready`, `share_of_draws`, `constants_share`, `share_of_sequences` |  |
| C10 | Small-n and large-n mixture sampling agree | proved | Props_Pick | `small_large_agree` |  |
| C11 | Mixture sampling never fails on accepted weights | partial (refuted) | Props_Pick | `large_pick_fails_iff`, `safe_when_total_ge_1`, `never_fails_refuted` | accepted totals below 1 let bisect run past the end for n > 100 |
| C12 | zero_inflated returns 0 with probability p_zero | proved | Props_Sampler, Props_Share | `zero_inflated_small`, `zero_inflated_large`, `rejects_outside`, `one_is_zero`, `zero_is_dist`, `share_of_draws` |  |
| C13 | sample(d, n) returns n samples | proved | Props_Sampler | `sample_count`, `zero_samples_raise` | log_tdist() without bounds and t distributions with equal bounds excluded, see C14 |
| C14 | Every distribution returns n samples | partial (refuted) | Props_Sampler | `every_leaf_n_refuted`, `log_t_unbounded_refuted`, `leaves_n_partial` | t distributions with equal bounds and log_tdist() return one value |
| C15 | Clipping bounds hold | proved | Props_Sampler | `clip_bounds`, `clip_is_clamp`, `clipping_needs_numbers` | all objects except members of a correlation group at top level |
| C16 | Crossed clip bounds | proved | Props_Sampler | `crossed_bounds_give_upper` |  |
| C17 | Arithmetic on distributions is pointwise | proved | Props_Ops | `binary_operator`, `arithmetic`, `comparison`, `forms`, `unary_minus`, `minus_is_minus`, `single_operand` |  |
| C18 | Constant expressions evaluate to their arithmetic value | proved | Props_Ops | `const_arithmetic`, `const_comparison` |  |
| C19 | == and != on distributions compare samples | partial (refuted) | Props_Ops | `equality_refuted`, `inequality_refuted`, `eq_ne_are_le` | both operators are built with operator.le |
| C20 | dist_fn composes in order | proved | Props_Ops | `pipeline`, `pipeline_two`, `forms`, `no_functions` |  |
| C21 | clip/lclip/rclip functions | partial (refuted) | Props_Ops | `clip_clamps`, `pipe_is_clip`, `no_bounds`, `clip_idempotent`, `mixed_kinds_refuted`, `int_bound` | false when float samples meet int bounds and n > 1 (np.vectorize takes the dtype of the first result) |
| C22 | Samples stay in the support | proved | Props_Sampler | `leaf_support`, `bernoulli_draws` | numpy's documented ranges are a hypothesis (in_support), met by a concrete generator |
| C23 | Sampling depends only on the RNG | proved | Props_Sampler | `only_rng_matters` | caches and files are covered by the cache model |
| C24 | Model functions are called once per sample | proved | Props_Sampler | `model_function`, `model_function_fails` |  |
| C25 | event(p) follows p | proved | Props_Sampler, Props_Share | `event_below_p`, `event_of_distribution`, `event_never`, `event_always`, `event_monotone`, `share_of_draws` |  |
| C26 | In-memory cache hit | proved | Props_Cache | `first_call_caches`, `cache_hit` |  |
| C27 | Cached sampling honours n | partial (refuted) | Props_Cache | `refuted`, `same_n_partial` | a hit ignores n; holds when every call under the key asks for the same n |
| C28 | Cache never confuses two distributions | partial (refuted) | Props_Cache | `refuted`, `rounding_collision`, `text_names_constructor`, `mixture_clip_collision`, `mixture_clip_matters`, `provenance_partial`, `exact_texts_partial`, `no_confusion_partial`, `operator_texts_partial`, `one_operation_partial`, `operator_provenance_partial`, `grouping_collision` | the cache key is the printed text: parentheses are lost (for all operands and operators), parameters are rounded, mixture clips are not printed. Simple distributions whose text tells everything are never confused, operator expressions over them differ at most in grouping, and expressions with one operator not at all |
| C29 | Cached sampling and clips | partial (refuted) | Props_Cache | `hit_respects_clips`, `refuted` | first half proved; second half false (clipped samples are cached) |
| C30 | Cache source selection | proved | Props_Cache | `file_source`, `memory_source`, `generated_otherwise`, `one_source` |  |
| C31 | An existing load_cache_file is used | partial (refuted) | Props_Cache | `refuted`, `used_partial`, `ignored` | an in-memory entry blocks the file even when memcache is off; in every other case the file or that entry is used |
| C32 | Dump then load round-trips | proved | Props_Cache | `dump_load` | values containing None excluded (np.load rejects object arrays) |
| C33 | reload_cache refreshes | proved | Props_Cache | `reload` | single core; multicore generation is C35 |
| C34 | Work split across cores | proved | Props_Pick | `core_cuts`, `core_cuts_total` | exact division; float division in n / cores not modelled |
| C35 | Multicore result is schedule-independent | proved | Props_Cache | `multicore_result`, `multicore_count`, `order_irrelevant` | stated for numeric samples; batches join into a float array |
| C36 | Any number of cores works | partial (refuted) | Props_Cache | `more_cores_than_samples_fail`, `refuted` | fails whenever cores > n and no stale file is present |
| C37 | Crash leftovers do not poison multicore sample | partial (refuted) | Props_Cache | `leftovers_ignored_partial`, `refuted` | holds if every worker succeeds; a failing worker's stale file is consumed |
| C38 | Crash leftovers do not poison multicore bayesnet | partial (refuted) | Props_Bayes | `refuted`, `without_leftovers_partial`, `event_count_partial` | partial: leftover files of an earlier failed run are mixed in |
| C39 | Cores draw different numbers | partial (refuted) | Props_Cache | `forked_batches_equal`, `refuted` | forked workers start from one generator state |
| C40 | simple_bayes is Bayes' rule | proved | Props_Bayes | `bayes_rule`, `raises_iff_evidence_impossible`, `complement`, `monotone_in_prior`, `strictly_monotone_in_prior`, `monotone_in_likelihoods`, `sequential_updates` |  |
| C41 | bayesnet is rejection sampling | proved | Props_Bayes | `rejection_sampling`, `mean_needs_numbers`, `exactly_n_calls`, `event_errors_propagate` |  |
| C42 | bayesnet caching is transparent | proved | Props_Bayes | `caching_transparent`, `entry_reused`, `entry_kept` |  |
| C43 | bayesnet honours n on a cache hit | partial (refuted) | Props_Bayes | `refuted`, `fresh_events_partial` | a hit is keyed on the event function only, so n is ignored |
| C44 | bayesnet sufficiency check is accurate | partial (refuted) | Props_Bayes | `refuted`, `recorded_number_partial`, `error_accurate_partial` | see refutation; partial versions state when the answer is right |
| C45 | Returned results do not alias the cache | partial (refuted) | Props_Bayes, Props_Cache | `bayesnet_refuted`, `bayesnet_handed_out_is_cached`, `refuted`, `uncached_results_private_partial`, `write_one_element`, `heap_ok_preserved`, `same_values` | the cached array itself is returned |
| C46 | Normal update is precision weighting | proved | Props_Update | `precision_weighting`, `sd_shrinks`, `mean_between`, `weight_zero`, `commutative`, `associative`, `weights_add` | real arithmetic |
| C47 | Lognormal update is normal update in log space | proved | Props_Update | `lognormal_is_normal_in_log_space` | real arithmetic |
| C48 | Beta update adds counts | proved | Props_Update | `adds_counts`, `commutative`, `associative`, `mean_between` |  |
| C49 | Gamma update | proved | Props_Update | `shapes_and_rates`, `commutative`, `associative`, `scale_between`, `weight_zero`, `weights_add`, `zero_scale` |  |
| C50 | update rejects other types | proved | Props_Update | `other_types_rejected`, `supported_types_accepted` | zero standard deviations divide by zero and are excluded from acceptance |
| C51 | average is a two-component mixture | proved | Props_Update | `is_mixture`, `default_in_every_history`, `single_weight`, `two_weights`, `weights_must_sum_to_one` |  |
| C52 | correlate validation | proved | Props_Corr, Props_Spearman | `accepts_exactly`, `accepted_is_proper`, `rejections`, `originals_unchanged`, `eigenvalue_test`, `accepts_by_eigenvalues` | the eigenvalue routine enters as a contract: no negative eigenvalue, proved equivalent to positive semidefinite (C52_eigenvalue_test); rounding of eigvals not modelled |
| C53 | Correlating preserves marginals when scores are tie-free | proved | Props_Corr | `permutation_in_score_order`, `ranks_of_scores`, `sampled` | argsort/normal scores/Cholesky are contracts (sorts, well_shaped, first_kept, keeps_shape) |
| C54 | Correlating preserves marginals | partial (refuted) | Props_Corr | `refuted`, `repeats_lose_the_largest`, `first_variable_partial`, `identity` | refuted in general: with repeated values the rank step loses the largest one; the first variable's multiset is kept |
| C55 | Diversity check | proved | Props_Corr | `diversity_check` |  |
| C56 | Correlated variables sampled together are one joint draw | proved | Props_Corr | `one_joint_draw`, `resampling_draws_again`, `clipped_member` | clip, cache and resampling behaviour follow the model of the pending-column store |
| C57 | Correlated sampling honours n | partial (refuted) | Props_Corr | `refuted`, `single_refuted`, `fresh_draw_partial` | refuted: repeated or direct sampling of one member breaks the joint draw; holds for fresh draws |
| C58 | odds and probability are inverse | proved | Props_Formulas | `odds_round_trip`, `prob_round_trip`, `values`, `rejects`, `increasing` | over real numbers; infinite odds give nan, not an error |
| C59 | Geometric mean | proved | Props_Formulas | `between`, `scaling`, `unweighted`, `weighted`, `relative_weights`, `permutation`, `ignores_na`, `unusual_values` | the bounds hold for every argument shape whenever geomean returns; weights are rational |
| C60 | Geometric mean of odds | proved | Props_Formulas | `between`, `complement`, `unweighted`, `weighted` | bounds and complement symmetry hold for every argument shape |
| C61 | geomean_odds of one probability | partial (refuted) | Props_Formulas | `single_probability_refuted`, `every_single_probability_fails` | refuted: geomean_odds of a single probability always raises ValueError, because p_to_odds turns a one-element array into a number |
| C62 | Laplace rule | proved | Props_Formulas | `trials`, `trials_increasing`, `too_many_successes`, `times`, `times_shape`, `failures`, `negative_successes`, `division_by_zero` | successes and trials are integers, times real and positive; other inputs can divide by zero |
| C63 | Growth rate and doubling time are inverse | proved | Props_Formulas | `doubling_time`, `growth_rate`, `inverse`, `arrays`, `outside` | for Python numbers and numpy arrays; distributions are C117 |
| C64 | Kelly values | proved | Props_Kelly | `accepts`, `rejects`, `values`, `fraction`, `full_deference`, `named_fractions` | exact arithmetic; the power in expected_arr is a parameter. The docstring example of kelly shows max_gain 62.5 and modeled_gain 23.13 where the code gives 37.5 and 9.38 (C64_sat) |
| C65 | Full Kelly maximises log growth | proved | Props_Kelly | `full_kelly_is_optimal`, `deferred_kelly_is_optimal` | about the unrounded fraction; strict, hence the optimum is unique |
| C66 | Kelly with error=False is symmetric | partial (refuted) | Props_Kelly | `symmetric_refuted`, `symmetric_only_at_half`, `against_the_market` | refuted: the stake can exceed the bankroll and is symmetric only for a market at 1/2 |
| C67 | extremize | proved | Props_Formulas | `range`, `value`, `identity`, `direction`, `symmetric`, `increasing`, `accepts`, `twice` |  |
| C68 | Sharpe ratio invariances | proved | Props_Formulas | `formula`, `shift`, `scale`, `negate` | population standard deviation; a zero deviation gives nan or an infinity as in numpy |
| C69 | Percentiles | proved | Props_Percentiles | `values`, `single`, `extremes`, `monotone`, `order_independent`, `reverse`, `rejects` | percentiles by linear interpolation between order statistics; argsort is an oracle only used with weights; no data is Unmodelled |
| C70 | Weighted percentiles | partial (refuted) | Props_Percentiles | `spec`, `extremes`, `scale`, `permute_partial`, `permute_refuted`, `mismatch` | permutation invariance holds for different data, is refuted for tied data; negative weights and zero total are Unmodelled |
| C71 | Equal weights reproduce unweighted percentiles | partial (refuted) | Props_Percentiles | `equal_weights_refuted`, `shifted_partial`, `median_partial` | false: equal weights use other plotting positions; the exact shift is proved, and that the medians agree |
| C72 | Mean/median and CI | proved | Props_Percentiles | `median_and_ci`, `mean_and_ci`, `nested` |  |
| C73 | Weighted mean in get_mean_and_ci | partial (refuted) | Props_Percentiles | `weighted_mean_refuted`, `mean_unweighted` | false: the mean is never weighted |
| C74 | Buckets partition the data | proved | Props_Buckets | `partition`, `edges`, `covered_total`, `bin_count`, `custom`, `custom_total`, `rejects`, `label_count` | data are finite, edges numbers or infinities; shares of no data (nan) are Unmodelled |
| C75 | Bucket labels describe their ranges | partial (refuted) | Props_Buckets | `contiguous_partial`, `gaps_refuted` | false for ranges with gaps: the label is made from the starts of neighbouring ranges; true for contiguous ranges |
| C76 | one_in is a rounded reciprocal | proved | Props_Buckets | `number`, `zero`, `falls`, `text`, `text_exists`, `determines`, `commas`, `shortest`, `text_range` | texts of floats with more than 15 significant digits or below 0.0001 are Unmodelled; digits=None is proved for the number only |
| C77 | Credible intervals of norm | proved | Props_Dists | `credible_interval`, `point_interval`, `accepted_combinations`, `rejection_is_ValueError`, `mean_and_sd`, `sd_only` |  |
| C78 | norm always ends up fully specified | partial (refuted) | Props_Dists, Props_Sampler | `refuted`, `incomplete_not_updatable`, `without_mean_and_interval_partial`, `incomplete_not_samplable` | norm(x, y, mean=m) is accepted and leaves sd unset |
| C79 | Credible intervals and moments of lognorm | proved | Props_Dists | `credible_interval`, `all_four_parameters`, `moment_equations`, `round_trip_from_norm`, `round_trip_from_lognorm`, `rejections`, `accepted_combinations` | normal quantile function is a hypothesis (normal_quantile), met by a concrete function |
| C80 | invlognorm interval | proved | Props_Dists | `credible_interval`, `clips_kept`, `rejections` | normal quantile function is a hypothesis (normal_quantile) |
| C81 | invlognorm mean parameter | partial (refuted) | Props_Dists | `reported_mean_refuted`, `sampled_mean_refuted`, `when_right`, `relative_sd_partial`, `sampled_partial` | the inverse lognormal mean formula has the wrong sign; right only when m = -s^2; given lognorm_mean and lognorm_sd, the draws have mean lognorm_mean + lognorm_sd^2/lognorm_mean and the wanted relative sd |
| C82 | to() chooses by sign | proved | Props_Dists | `positive_is_lognorm`, `otherwise_norm`, `result_kind`, `reversed_interval` |  |
| C83 | Constructors validate | proved | Props_Ctor | `accepts_exactly_documented`, `rejection`, `accepted_can_be_sampled` | numpy parameter checks are an oracle contract (numpy_checks); binomial additionally needs n >= 0, which the constructor does not check |
| C84 | Accepted distributions can be sampled | partial (refuted) | Props_Ctor | `refuted`, `all_unchecked_kinds`, `exactly_the_meaningful_partial`, `t_with_bounds`, `discrete_checked_late` | criterion proved for single-call kinds and t distributions with bounds; exploding dice are C86, discrete is tested late |
| C85 | PERT shape | proved | Props_Ctor | `beta_parameters`, `mean`, `mode`, `samples_are_scaled_beta_draws`, `no_width` | mean and mode of the beta distribution are taken from its definition |
| C86 | Dice | proved | Props_Ctor | `accepted`, `rejection_is_ValueError`, `some_face_never_explodes`, `samples_are_throws`, `plain_die_is_the_draw`, `single_value_never_shown`, `top_face_total_tells_the_rolls`, `continuous_sides_refused` | uniformity of integers(1, sides+1) is numpy's; at most die_fuel explosions per throw are modelled |
| C87 | Text form of repr/hash | proved | Props_Cache | `nested_text`, `equal_hash` | scalar printing is a parameter whose output contains no '<' |
| C88 | Single and multiple samples agree | partial (refuted) | Props_Ops | `scalar_and_array_agree_partial`, `scalar_and_array_agree_refuted`, `bool_arrays`, `single_bools`, `negative_powers` | false for bools, text times integer (C136) and division by zero; proved for finite non-bool numbers |
| C89 | dist_round rounds every sample | partial (refuted) | Props_Ops | `round_one`, `rounds_to_nearest_even`, `round_values`, `round_text`, `round_many_fails`, `round_many_refuted` | false for n > 1: np.round with an array of digits raises TypeError |
| C90 | dist_exp and dist_log work for every n | partial (refuted) | Props_Ops | `exp_many_fails`, `log_many_fails`, `exp_one`, `exp_infinities_and_texts`, `exp_array`, `log_one`, `log_errors`, `log_wrong_kind`, `exp_log_many_refuted` | false for n > 1: math.exp and math.log reject arrays; the one-sample behaviour is proved, without overflow of math.exp |
| C91 | dist_max and dist_min are pointwise | proved | Props_Ops | `max_pointwise`, `min_pointwise`, `max_min_numbers`, `only_numbers` |  |
| C92 | Saved bayesnet cases reload unchanged | proved | Props_Bayes | `dump_load_round_trip`, `memory_first`, `neither_used` |  |
| C93 | bayesnet without event function | proved | Props_Bayes | `no_event_fn` |  |
| C94 | update keeps the prior's clips | partial (refuted) | Props_Update | `refuted`, `clips_ignored` | update builds the posterior without clips and ignores the clips of its arguments |
| C95 | average accepts relative weights | partial (refuted) | Props_Update | `refuted`, `always_raises` | the default weights list makes relative_weights raise |
| C96 | Clip arguments of constructors are honoured | partial (refuted) | Props_Ctor | `refuted`, `clips_have_no_effect`, `other_clips_kept` | false of the code; refutation proved plus strongest true version. |
| C97 | Correlation tolerance is enforced | partial (refuted) | Props_Corr | `refuted`, `tolerance_partial` | refuted: the check is skipped for some inputs; the partial theorem states when it is applied |
| C98 | Every accepted correlation can be induced | partial (refuted) | Props_Corr, Props_Spearman | `refuted`, `singular_fails`, `scalar_partial`, `scalar_refuted` | refuted: semidefinite but singular matrices are accepted and Cholesky raises LinAlgError, among them the single number -1/(k-1) for k >= 3 variables; numbers above it are definite |
| C99 | discrete returns each value with its probability | proved | Props_Discrete, Props_Share | `discrete_values`, `single_value`, `weights_stay_with_values`, `plain_values`, `samples_have_one_type`, `same_value`, `share_of_draws` | numpy's uniform(0,1) is the source of randomness; the probability of an interval is its length only if the draw is uniform, which is numpy's |
| C100 | Logs of percentiles | partial (refuted) | Props_Percentiles | `log_refuted`, `unrounded_partial`, `list_partial` | false with digits: the percentile is rounded before the logarithm; true without digits |
| C101 | Log percentile of a single percentile | partial (refuted) | Props_Percentiles | `single_text_refuted` | false: the text is computed and dropped, None is returned |
| C102 | Data of weight zero do not matter | partial (refuted) | Props_Percentiles | `zero_weight_refuted`, `below_partial`, `above_partial` | false: a datum of weight 0 still is an interpolation point; it changes only percentiles strictly between its neighbours |
| C103 | Log percentiles accept digits=None | partial (refuted) | Props_Percentiles | `no_digits_refuted`, `digits_written` | false: the format specification becomes .Nonee, which raises |
| C104 | Label of the last bucket | partial (refuted) | Props_Buckets | `last_label_refuted`, `labels_partial` | false: the last bucket includes its right end; the other labels are right |
| C105 | Default bins | partial (refuted) | Props_Buckets | `default_bins_refuted` | false: np.histogram rejects None |
| C106 | Every custom range is reported | partial (refuted) | Props_Buckets | `entries_partial`, `entries_refuted` | false for ranges with the same start; true otherwise |
| C107 | What can be sampled | partial (refuted) | Props_Kinds | `sampleable`, `others_rejected`, `value_samples_to_itself`, `every_number_sampleable_refuted` | false for numpy integers, bools and non-64-bit floats, which are not subclasses of int or float and are rejected |
| C108 | Continuity test | partial (refuted) | Props_Kinds | `continuous`, `continuous_gives_floats`, `continuous_always_floats_refuted`, `negation_and_shift_excluded`, `float_distributions_refuted` | the class test is exact; the semantic reading is false both ways: comparisons count as continuous, negations and shifts by a number do not |
| C109 | Correlation flag of composites | proved | Props_Kinds | `flag_set`, `flag_unset` |  |
| C110 | Sampling operators | partial (refuted) | Props_Kinds | `matmul_count`, `matmul_is_sample`, `matmul_too_few`, `invert_is_one`, `fraction_cut`, `invert_is_one_sample`, `text_counts`, `bad_counts`, `bad_count_message_refuted` | int(text) is modelled for ASCII texts; only ValueError from int() is translated, so None raises TypeError |
| C111 | set_seed makes runs reproducible | partial (refuted) | Props_Kinds | `seed_reproducible`, `seed_generator`, `seed_same_pending`, `seed_correlated_refuted` | false: pending correlated samples survive set_seed; true for everything without correlation groups |
| C112 | Number names | proved | Props_Kinds | `named_numbers`, `letters` |  |
| C113 | tdist follows a change of units | partial (refuted) | Props_TDist | `scale_equivariant`, `effect_of_shift`, `shift_equivariant_refuted` | scaling proved; shifting refuted: the mean of the normal draw is divided by the chi-square factor too |
| C114 | discrete only returns listed values | partial (refuted) | Props_Discrete | `samples_are_listed`, `numbers_are_listed`, `mixed_types_refuted` | false for mixtures of texts and numbers with n > 1; true for one type, for n = 1, and up to int/float conversion for numbers |
| C115 | Constructors sample the distribution they name | proved | Props_Ctor | `float_distributions`, `integer_distributions`, `generator_errors` | constructors with a single generator call; tdist, discrete and dice have their own properties (C113, C114, C99, C86) |
| C116 | Piping into a composed distribution | partial (refuted) | Props_Build | `refuted`, `applies_function_to_left`, `negation_fails` | false: the right operand is dropped |
| C117 | Growth rates of distributions | partial (refuted) | Props_Build | `growth_one_partial`, `doubling_one_partial`, `round_trip_one_partial`, `many_fails`, `refuted` | false for n > 1 (math.log rejects arrays); true for n = 1 given log and exp inverse to each other |
| C118 | Dict mixtures keep every component | partial (refuted) | Props_Build | `refuted`, `different_texts_partial`, `dict_keys`, `dict_values` | false for distributions that print alike; true when hashes differ |
| C119 | Mixture notations agree | proved | Props_Build | `pairs`, `dict` | dict keys already collapsed by Python (see C118) |
| C120 | log_tdist is tdist in log space | partial (refuted) | Props_TDist | `log_space`, `no_bounds_refuted` | true with bounds; without bounds only for one sample, because log_t_sample then ignores the number of samples |
| C121 | Equal weights survive float rounding | proved | Props_Double, Props_Float | `nearest_double`, `binary64`, `equal_weights_accepted`, `double`, `exact_instance` | standard model of rounding (relative error, no underflow); a list of numbers, summed left to right |
| C122 | Rounding cannot flip the verdict on weights | proved | Props_Float | `near_one_accepted`, `far_from_one_rejected`, `inferred_last_weight`, `normalized` | standard model of rounding (relative error, no underflow); a list of numbers, summed left to right; sums between 0.98 and 0.995 or 1.005 and 1.02 may go either way |
| C123 | dist_ceil and dist_floor | proved | Props_Ops | `ceil`, `floor`, `texts_raise` | finite int or float samples; texts raise TypeError, bools are Unmodelled |
| C124 | The text of a distribution is code that builds it | partial (refuted) | Props_Text | `text_is_code_partial`, `pert_refuted`, `categorical_refuted`, `lognorm_refuted`, `norm_rounded_refuted`, `norm_rounded`, `operators_partial` | true of the kinds that print all their arguments unrounded; refuted for PERT and categorical (no such functions), lognorm/invlognorm (both parameter pairs printed, which the constructor rejects) and parameters with more than two decimals. t distributions without low but with high, and constants holding text, are left out |
| C125 | Infinities and nan in arithmetic | proved | Props_Limits | `sums`, `differences`, `products`, `quotients`, `zero_division`, `comparisons`, `floor_by_infinity` | exact numbers and infinities; the sign of zero is not represented, zero divisors in arrays count as +0 |
| C126 | Clipping numbers, arrays and pipes | partial (refuted) | Props_ClipTop | `number`, `array`, `distribution`, `pipes`, `only_right_refuted`, `mixed_kinds_refuted`, `bool_first`, `int_first`, `float_first` | arrays of the kind of the bounds; with mixed kinds refuted (elements are truncated); an upper bound alone on a number raises |
| C127 | Mixture picks in double precision | partial (refuted) | Props_Double | `cut_points`, `rarely_fails_partial`, `small_never_fails`, `picks_refuted` | binary64 with unbounded exponent. Small samples: proved for every arithmetic. Large samples: raises only for draws within the slack of the total; refuted in general by seven equal weights and the largest draw 1 - 2^-53 |
| C128 | Work split in double precision | proved | Props_Double | `split_exact`, `split_total` | binary64 with unbounded exponent; Python's int / int is correctly rounded |
| C129 | One value too many is noticed in double precision | partial (refuted) | Props_Double | `too_many_values_refuted`, `noticed_partial` | plain left-to-right sums, as in Python before 3.12 (later versions compensate); refuted by ten weights 0.1 and eleven values, true from total 1.002 on |
| C130 | Bayes' rule in double precision | proved | Props_DoubleProb | `probability`, `fails_iff`, `close` | binary64 with unbounded exponent (no overflow or underflow) |
| C131 | Odds and probabilities in double precision | partial (refuted) | Props_DoubleProb | `odds_positive`, `probability_partial`, `there_and_back`, `back_and_there_refuted` | binary64 with unbounded exponent; probability to odds and back proved, odds to probability and back refuted by odds 2^54, whose probability rounds to 1 |
| C132 | Laplace's rule in double precision | partial (refuted) | Props_DoubleProb | `never_certain_partial`, `never_certain_refuted`, `nearest` | only n given; true up to n + 2 = 2^53, refuted by s = n = 2^54 |
| C133 | event_occurs in double precision | proved | Props_DoubleProb | `draws`, `probability` | draws are the multiples k / 2^53 numpy's uniform(0, 1) returns |
| C134 | Bucket percentages in double precision | proved | Props_DoubleProb | `percentage`, `monotone`, `total` | counts and totals converted to doubles exactly |
| C135 | Powers of floats | proved | Props_Limits | `infinite_base`, `infinite_exponent`, `zero_to_minus_infinity`, `infinite_both`, `nan`, `zero_base`, `whole_exponent`, `fractional_exponent` | exact numbers and infinities; the real power of a positive number to a fraction is an oracle; fractional powers of a single negative number (complex in Python) are Unmodelled; zero has no sign |
| C136 | Operators on texts | proved | Props_Ops | `texts`, `total_order`, `repetition`, `text_and_number`, `text_and_float`, `negation`, `clips`, `clip_text_and_number`, `minus_bool` | characters are 8 bit codes |
| C137 | Re-correlated scores have exactly the requested correlation | partial (refuted) | Props_Iman | `exact_without_ties_partial`, `refuted`, `order_of_exact_scores` | exact real arithmetic; refuted for samples with ties, where the minimum ranks make the variances of the scores differ |
| C138 | Re-correlation succeeds exactly for definite matrices | proved | Props_Iman | `factor_iff_definite`, `succeeds_exactly`, `same_order_fails`, `one_sample_fails`, `too_few_samples_fail`, `contracts` | exact real arithmetic; nearly singular matrices may behave differently in doubles |
| C139 | Inducing correlation commutes with a change of units | proved | Props_Corr | `units`, `units_without_tolerance` | numbers are exact rationals; the coefficient used by the tolerance check is assumed to depend on ranks only |
| C140 | Resolve dates are calendar days | proved | Props_Date | `accepted_exactly`, `rejected`, `calendar` | characters are 8 bit codes |
| C141 | Annualised returns count the days until the resolve date | partial (refuted) | Props_Date | `refuted`, `one_day_less`, `at_midnight_partial`, `past_dates`, `tomorrow_fails` | false: the time since midnight is subtracted before rounding down, so n - 1 days are counted; tomorrow divides by zero and today counts as -1; right only exactly at midnight |
| C142 | Distributions do not follow later changes of the caller's lists | partial (refuted) | Props_Shared | `as_built`, `only_through_references`, `mixtures_partial`, `copies_partial`, `discrete_refuted`, `die_refuted`, `effect_of_the_call`, `empty_rejected` | proved for mixtures (component and weight lists), numpy items and single explode values; refuted for discrete with a list or dict and for die with an explode list, where a later append can even make rolling endless. Objects change only through the lists they refer to. Changes of attributes of the distributions themselves are not modelled. |
| C143 | Multicore results do not depend on scheduling | proved | Props_Steps | `schedule_independent`, `result`, `batches_in_order`, `no_deadlock`, `terminates`, `counts`, `sample_call`, `bayesnet_call` | small-step model of the processes, connected to the one-step models by C143_sample_call and C143_bayesnet_call; that a computed batch can be written is assumed |
| C144 | A crashed multicore call does not affect later calls | partial (refuted) | Props_Steps | `sample_ignores_leftovers_partial`, `bayesnet_stuck`, `bayesnet_takes_leftovers`, `crash_harmless_refuted` | proved for sample; refuted for bayesnet, which keeps any file it finds: an interrupted write makes all later calls fail, an interrupted collection hands the old events to the next call |
| C145 | Concurrent multicore calls do not affect each other | partial (refuted) | Props_Steps | `unshared_directories_partial`, `own_batches_partial`, `concurrent_calls_refuted` | proved for calls in different directories or of different kinds (one sample, one bayesnet); refuted for two calls of the same kind in one directory, whose files have the same names |
| C146 | Progress bars end full | partial (refuted) | Props_Progress | `single_core`, `several_cores_partial`, `several_cores_refuted` | proved on one core; on several cores the bars of samples and events overshoot exactly when the cores do not share the work evenly |
| C147 | Normal intervals in double precision | partial (refuted) | Props_DoubleParams | `mean`, `room_partial`, `room_refuted`, `interval`, `rejects` | neighbouring doubles can give sd 0 (witness); positive whenever a double lies strictly inside; exponent range not modelled |
| C148 | Normal update in double precision | partial (refuted) | Props_DoubleParams | `close_partial`, `positive_variance`, `agreeing_refuted` | agreeing evidence can move the mean by an ulp (witness); error bounds proved; squares and the square root of the variance are not part of it |
| C149 | Kelly fraction in double precision | partial (refuted) | Props_DoubleParams | `close_partial`, `roi_partial`, `close_refuted` | error at most 9 * 2^-53 / (1 - market_price); next to price 1 everything is bet on no edge (witness) |
| C150 | A mixture of mixtures multiplies weights | proved | Props_Share | `two_draws`, `weights_multiply` | draws are taken from the grid 0, 1/N, ..., (N-1)/N (numpy: N = 2^53) |
| C151 | Exploding dice probabilities | proved | Props_Share | `throws_counted`, `expected_total`, `sampled_throws` | at most die_fuel explosions per throw are modelled in the sampler (C86); the counts and the mean hold for any number |
| C152 | Samples of a mixture average to the weighted mean | proved | Props_Share | `mean_of_samples` | one sample at a time (n = 1), at least two components |
| C153 | The tolerance test measures rank correlation | proved | Props_Spearman | `textbook_formula`, `extremes`, `range`, `units` | spearmanr is modelled as Pearson's coefficient of average ranks in exact real arithmetic |
| C154 | Rejection sampling gives Bayes' rule | proved | Props_BayesRule | `rejection_is_bayes_rule`, `any_probabilities` | one call per pair of N equally likely uniform draws; exact for probabilities that are multiples of 1/N, otherwise for the shares of draws (see C25) |
| C155 | Percentiles follow a change of units | proved | Props_PctUnits | `units`, `sign` | unrounded percentiles; with weights for data that all differ |
| C156 | A percentile has its share of the data below it | proved | Props_PctUnits | `share_below`, `weight_below`, `interval_covers` | unrounded percentiles in exact arithmetic |
| C157 | Percentiles in double precision | partial (refuted) | Props_DoublePct | `between_partial`, `monotone_partial`, `rank_partial`, `close_partial`, `rank_refuted` | data are finite doubles, at most 2^53; exponent range not modelled; rank 7 of 0..100 is missed by percentile 7 (witness) |
| C158 | Weighted percentiles in double precision | partial (refuted) | Props_DoublePct | `ends_partial`, `left_partial`, `close_partial`, `located`, `monotone_refuted` | about the points as computed in doubles, which may differ from the exact ones; exponent range not modelled; weights 1, 9, 3 give a witness against monotonicity |
| C159 | Rounding to digits in double precision | partial (refuted) | Props_DoubleRound | `monotone`, `fixed_partial`, `error_partial`, `nearest_refuted`, `one_in` | finite doubles, exponent range not modelled, power of ten exact (at most 22 digits); staying and one_in proved up to 2^50; nearest multiple refuted by 2.675 |
| C160 | The diversity test in double precision | proved | Props_DoubleRound | `exact` | finite doubles; at most 2^49 samples |
| C161 | Gains reported by kelly are those of the bet | partial (refuted) | Props_KellyGain | `backed_partial`, `against`, `modeled_refuted`, `docs_refuted` | holds for a price not below the market's; below it the reported gains are those of the opposite side of the market (refuted, with what is reported instead proved); exact arithmetic |
| C162 | Floating point arithmetic is that of IEEE 754 | proved | Props_Ieee | `add`, `sub`, `mul`, `div`, `compare`, `exact` | against Coq.Floats.SpecFloat of the standard library; zero has no sign in the model, so a divisor of minus zero is left out; square roots, conversion of decimal literals and C library functions are not part of it |
| C163 | Leaving out the range of exponents does no harm | partial (refuted) | Props_Ieee | `sums`, `products_partial`, `underflow`, `products_refuted` | holds for sums and differences; products and quotients below 2^-1022 differ (witness), by at most 2^-1075 |
| C164 | Percentiles stay finite | partial (refuted) | Props_IeeePct | `between_partial`, `overflow`, `finite_refuted` | holds for data that span less than the largest double; further apart the difference overflows (witness) |
| C165 | Normal intervals hold what they promise | proved | Props_Normal | `density`, `interval`, `quantile_unique`, `contract` | areas by antiderivatives; the quantile function is proved to exist and to be unique |
| C166 | Lognormal parameters are those of the distribution | partial (refuted) | Props_Normal | `moments`, `interval`, `inverse_interval`, `inverse_moments`, `inverse_mean_refuted` | the reported moments of lognorm are right; the mean invlognorm reports is not (witness) |
| C167 | Updates follow Bayes' rule on densities | partial (refuted) | Props_Normal | `normal`, `lognormal`, `beta`, `gamma_refuted` | holds for normals, lognormals and betas (whose weight is ignored); fails for gammas (witness) |
| C168 | The mode of a PERT distribution is its most likely value | proved | Props_Pert | `moments`, `mode`, `flat` | improper areas by antiderivatives on the open interval; C85 ties samples to beta draws |
| C169 | Updating moves the mean towards the evidence | partial (refuted) | Props_Moments | `values`, `between_partial`, `lognormal_refuted`, `gamma_refuted`, `normal_narrows`, `beta_narrows_partial`, `beta_narrows_refuted` | holds for normals and betas; lognormal and gamma witnesses for all parameters; moments by (improper) integration |
| C170 | Normal intervals and updates at the ends of the range of doubles | partial (refuted) | Props_IeeeParams | `interval_partial`, `interval_overflow`, `interval_refuted`, `interval_rejects`, `update_partial`, `variance_partial`, `variance_refuted` | intervals characterised exactly; updates agree with the unbounded model of C148 for means and weights of 2^-100..2^100 and sds of 2^-50..2^50; witnesses outside; the square root of the variance is not taken |
| C171 | Laplace's rules are predictions | proved | Props_Predict | `trials`, `times`, `steps`, `units`, `order` | areas by antiderivatives, improper at 0 and infinity; exact real arithmetic |
| C172 | Pooling odds commutes with Bayes' rule | proved | Props_Predict | `pooling`, `bayes`, `forecasters` | exact real arithmetic; values that are not probabilities are left alone by the revision and raise either way |
| C173 | Percentiles follow the data | partial (refuted) | Props_PctOrder | `rise`, `robust`, `intervals`, `logs`, `weighted_refuted` | with weights it is false when data pass each other: the percentile points jump |
| C174 | Geometric means rise with their values and lie below arithmetic means | proved | Props_Geomean | `rise`, `rise_each`, `rise_odds`, `products`, `powers`, `means`, `plain_mean` | exact real arithmetic; the comparison of means is stated for lists |
| C175 | Percentiles follow the data in double precision | partial (refuted) | Props_DoublePctOrder | `reorder_partial`, `rise_partial`, `robust_partial`, `rank_partial`, `rise_refuted` | partial: raising a datum can lower a percentile by a rounding error; exponent unbounded; without weights and before rounding to digits |
| C176 | Buckets of reordered, pooled and rescaled data | proved | Props_BucketMoves | `reorder`, `pool`, `merge`, `units` | exact arithmetic; with a number of bins the change of units needs data that are not all equal |
| C177 | Better bets are larger | proved | Props_KellyOrder | `rise`, `annual`, `gains` | exact arithmetic; the annual rate needs a power that rises with its base |
| C178 | Answers about one Bayes net obey the laws of probability | proved | Props_Conversation | `one_sample`, `probabilities`, `chain`, `total`, `bayes` | exact arithmetic; find and conditional_on answer with booleans and raise nothing |
| C179 | Everywhere larger discrete distributions have larger samples | proved | Props_Dominance | `larger`, `raised`, `moved` | exact arithmetic; numbers listed in rising order |
| C180 | Shares of samples in double precision | proved | Props_DoubleMean | `nearest`, `certain`, `recovers`, `order`, `opposite`, `chain` | a sum is any binary tree of correctly rounded additions; unbounded exponent |
| C181 | Averages of samples in double precision | partial (refuted) | Props_DoubleMean | `close`, `monotone`, `between_refuted`, `order_refuted` | a sum is any binary tree of correctly rounded additions; unbounded exponent |
| C182 | Beta updates in double precision | partial (refuted) | Props_DoubleConj | `whole`, `close`, `commutes`, `grouping_refuted` | grouping of fractional counts is false (witness 0.1, 0.2, 0.3); exponent unbounded |
| C183 | Gamma updates in double precision | partial (refuted) | Props_DoubleConj | `close`, `commutes`, `between_refuted` | scale 93 updated on itself falls below 93 (witness); exponent unbounded |
| C184 | Repeated application of Bayes' rule in double precision | partial (refuted) | Props_DoubleLearn | `certain_stays`, `impossible_stays`, `possible_stays_partial`, `order_refuted` | order of evidence is false in doubles (witness likelihood 2^-60); exponent unbounded |
| C185 | Expressions with larger parts have larger samples | partial (refuted) | Props_Rising | `rises`, `discrete`, `product_refuted` | exact arithmetic; false for products of distributions of either sign (witness) |
| C186 | Mixtures of larger parts have larger samples | proved | Props_RisingMix | `mixture` | exact arithmetic; no clips |
| C187 | Distributions with parameters are rescaled standard ones | partial (refuted) | Props_Standard | `uniform`, `normal`, `exponential`, `gamma`, `uniform_rises`, `normal_rises`, `exponential_rises`, `gamma_rises`, `lognormal_rises`, `inverse_falls`, `normal_sd_refuted` | contract standard_draws of numpy, exact arithmetic; larger standard deviations refuted |
| C188 | Intervals and updates follow a change of units | proved | Props_NewUnits | `norm`, `norm_mirrored`, `lognorm`, `lognorm_powers`, `lognorm_logs`, `inverse_reciprocal`, `to`, `wider`, `more_credible`, `read_back`, `update_norm`, `update_lognorm`, `update_gamma`, `update_beta` | real arithmetic; normal quantile under the contract normal_quantile |
| C189 | Programs of random choices have their exact probabilities | proved | Props_Program | `share`, `bayesnet`, `average`, `mean_answer`, `model_function`, `total`, `laws`, `expectation` | generator contract `reads`: draws are multiples of 1/N, one number per draw; exact numbers |
| C190 | The README's worked examples | proved | Props_Readme | `mammography`, `mammography_net`, `simple_bayes`, `alarm_net`, `monty_hall`, `bags`, `kelly` | the README hedges its alarm net figures (~0.19, ~0.27) as sampled; the exact values round to 0.18 and 0.28 |
| C191 | With many samples, answers far off are rare | proved | Props_Large | `chebyshev`, `runs`, `model_function`, `bayesnet`, `conditional` | generator contract `reads` as in C189: draws are multiples of 1/N, one number per draw; exact numbers; one core |
| C192 | Operators on distributions combine independent draws | proved | Props_Indep | `run`, `share`, `combined`, `mixed`, `means`, `variances`, `constants`, `same_twice` | generator contract `reads` as in C189: draws are multiples of 1/N, one number per draw; exact numbers; one sample at a time |
| C193 | n samples of an expression are n independent copies | proved | Props_Columns | `law`, `share`, `mean` | generator contract `reads_all`: draws are multiples of 1/N, one number per draw also when many are drawn at once; exact numbers |
| C194 | Percentiles and credible intervals of many samples are near those of the exact law | proved | Props_PctNear | `percentile`, `interval`, `mean_and_interval` | generator contract `reads_all` as in C193; exact numbers; no weights, no rounding digits |
| C195 | User programs that sample expressions have their exact probabilities | proved | Props_Script | `run`, `share`, `bayesnet`, `answers` | generator contract `reads` as in C189; exact numbers; sampled numbers reach the user's code in lowest terms (as numbers they are the same) |
| C196 | Which laws of arithmetic hold for distributions | proved | Props_Algebra | `samples`, `congruence`, `reorder`, `numbers`, `mixtures`, `max_min`, `not_distributive`, `drawn_twice` | law of an expression as in C192; the false laws are refuted by witnesses |
| C197 | Comparisons of distributions hold as often as they should | proved | Props_Compare | `difference`, `law`, `share`, `opposite`, `mirrored`, `twice` | generator contract `reads_all` as in C193; exact numbers |
| C198 | Samples drawn in batches are samples drawn at once | proved | Props_Batches | `single`, `mixture`, `law`, `not_for_sums`, `not_beyond_100` | generator contract `steady`: drawing n + m numbers is drawing n and then m; the law of first samples under `reads_all` as in C193 |
| C199 | Stochastically larger parts make stochastically larger expressions | proved | Props_Stochastic | `samples`, `operators`, `differences`, `products`, `mixtures`, `leaves`, `rising`, `contests`, `not_from_means` | generator contract `reads_all` as in C193; exact numbers |
| C200 | The mean of samples is right on average, and how far off it is | proved | Props_Unbiased | `statistic`, `unbiased`, `error`, `product`, `mixture`, `mixture_or_average` | generator contract `reads_all` as in C193; exact numbers |
| C201 | Shares far from the probability are exponentially rare | proved | Props_Chernoff | `many`, `few`, `geometric`, `samples`, `bayesnet` | generator contracts `reads` and `reads_all` as in C189 and C193; exact numbers |
| C202 | Estimates of positive quantities are accurate in double precision | proved | Props_Accuracy | `accurate`, `signed`, `differences`, `range` | double precision with the range of exponents (M_Ieee, tied to the standard library's IEEE 754 by C162); whole numbers are turned into doubles first |
| C203 | Expressions with larger parts have larger samples in double precision | proved | Props_Raised | `raised`, `no_negatives`, `sums`, `rounding`, `not_strict` | double precision as in C202; samples that are NaN are not compared |
| C204 | Percentiles and averages of estimates are accurate in double precision | proved | Props_Summary | `percentiles`, `intervals`, `average`, `machine`, `summaries`, `signs` | get_percentiles is exact arithmetic on the samples in double precision, without rounding to digits; C204_machine and the last part of C204_summaries have np.percentile in double precision (without the range of exponents); averages are computed in double precision |
| C205 | Percentiles of samples far from those of the law are exponentially rare | proved | Props_PctSharp | `percentile`, `interval`, `geometric` | exact arithmetic; the generator contract of C193 |
| C206 | Conditional answers far off are exponentially rare | proved | Props_Tilt | `above`, `below`, `geometric`, `bayesnet`, `mammography` | exact arithmetic; the generator contract of C189 and C191; queries that are not cached, on one core |

## Print Assumptions, theorem by theorem

853 property theorems.

**Closed under the global context** (680): C01_accepted_weights_usable, C01_all_zero_relative_refuted, C02_acceptance_exact, C02_empty_tuple, C02_no_values, C02_not_numbers, C02_rejection_is_value_error, C03_relative_scale_free, C04_negative_relative_rejected_refuted, C04_relative_acceptance_exact, C05_caller_arguments_after, C05_caller_list_unchanged_refuted, C06_reprocessing_is_identity, C07_equal_weights_by_default, C07_na_next_to_weights_refused, C07_no_na_left, C08_compressed_values_distinct, C08_compression_keeps_probabilities, C09_built_mixture_ready, C09_constants_share, C09_every_draw_picks, C09_interval_length, C09_mixture_sampling_large, C09_mixture_sampling_small, C09_pick_interval, C09_share_of_draws, C09_share_of_sequences, C10_small_large_agree, C11_large_pick_fails_iff, C11_never_fails_refuted, C11_safe_when_total_ge_1, C12_one_is_zero, C12_rejects_outside, C12_share_of_draws, C12_zero_inflated_large, C12_zero_inflated_small, C12_zero_is_dist, C13_sample_count, C13_zero_samples_raise, C14_every_leaf_n_refuted, C14_leaves_n_partial, C14_log_t_unbounded_refuted, C15_clip_bounds, C15_clip_is_clamp, C15_clipping_needs_numbers, C16_crossed_bounds_give_upper, C17_arithmetic, C17_binary_operator, C17_comparison, C17_forms, C17_minus_is_minus, C17_single_operand, C17_unary_minus, C18_const_arithmetic, C18_const_comparison, C19_eq_ne_are_le, C19_equality_refuted, C19_inequality_refuted, C20_forms, C20_no_functions, C20_pipeline, C20_pipeline_two, C21_clip_clamps, C21_clip_idempotent, C21_int_bound, C21_mixed_kinds_refuted, C21_no_bounds, C21_pipe_is_clip, C22_bernoulli_draws, C22_leaf_support, C23_only_rng_matters, C24_model_function, C24_model_function_fails, C25_event_always, C25_event_below_p, C25_event_monotone, C25_event_never, C25_event_of_distribution, C25_share_of_draws, C26_cache_hit, C26_first_call_caches, C27_refuted, C27_same_n_partial, C28_exact_texts_partial, C28_grouping_collision, C28_mixture_clip_collision, C28_mixture_clip_matters, C28_no_confusion_partial, C28_one_operation_partial, C28_operator_provenance_partial, C28_operator_texts_partial, C28_provenance_partial, C28_refuted, C28_rounding_collision, C28_text_names_constructor, C29_hit_respects_clips, C29_refuted, C30_file_source, C30_generated_otherwise, C30_memory_source, C30_one_source, C31_ignored, C31_refuted, C31_used_partial, C32_dump_load, C33_reload, C34_core_cuts, C34_core_cuts_total, C35_multicore_count, C35_multicore_result, C35_order_irrelevant, C36_more_cores_than_samples_fail, C36_refuted, C37_leftovers_ignored_partial, C37_refuted, C38_event_count_partial, C38_refuted, C38_without_leftovers_partial, C39_forked_batches_equal, C39_refuted, C40_bayes_rule, C40_complement, C40_monotone_in_likelihoods, C40_monotone_in_prior, C40_raises_iff_evidence_impossible, C40_sequential_updates, C40_strictly_monotone_in_prior, C41_event_errors_propagate, C41_exactly_n_calls, C41_mean_needs_numbers, C41_rejection_sampling, C42_caching_transparent, C42_entry_kept, C42_entry_reused, C43_fresh_events_partial, C43_refuted, C44_error_accurate_partial, C44_recorded_number_partial, C44_refuted, C45_bayesnet_handed_out_is_cached, C45_bayesnet_refuted, C45_heap_ok_preserved, C45_refuted, C45_same_values, C45_uncached_results_private_partial, C45_write_one_element, C51_default_in_every_history, C51_is_mixture, C51_single_weight, C51_two_weights, C51_weights_must_sum_to_one, C52_accepted_is_proper, C52_accepts_exactly, C52_originals_unchanged, C52_rejections, C53_permutation_in_score_order, C53_ranks_of_scores, C53_sampled, C54_first_variable_partial, C54_identity, C54_refuted, C54_repeats_lose_the_largest, C55_diversity_check, C56_clipped_member, C56_one_joint_draw, C56_resampling_draws_again, C57_fresh_draw_partial, C57_refuted, C57_single_refuted, C64_accepts, C64_fraction, C64_full_deference, C64_named_fractions, C64_rejects, C64_values, C66_against_the_market, C66_symmetric_only_at_half, C66_symmetric_refuted, C69_extremes, C69_monotone, C69_order_independent, C69_rejects, C69_reverse, C69_single, C69_values, C70_extremes, C70_mismatch, C70_permute_partial, C70_permute_refuted, C70_scale, C70_spec, C71_equal_weights_refuted, C71_median_partial, C71_shifted_partial, C72_mean_and_ci, C72_median_and_ci, C72_nested, C73_mean_unweighted, C73_weighted_mean_refuted, C74_bin_count, C74_covered_total, C74_custom, C74_custom_total, C74_edges, C74_label_count, C74_partition, C74_rejects, C75_contiguous_partial, C75_gaps_refuted, C76_commas, C76_determines, C76_falls, C76_number, C76_shortest, C76_text, C76_text_exists, C76_text_range, C76_zero, C77_mean_and_sd, C78_incomplete_not_samplable, C83_accepted_can_be_sampled, C83_accepts_exactly_documented, C83_rejection, C84_all_unchecked_kinds, C84_discrete_checked_late, C84_exactly_the_meaningful_partial, C84_refuted, C84_t_with_bounds, C85_beta_parameters, C85_mean, C85_mode, C85_no_width, C85_samples_are_scaled_beta_draws, C86_accepted, C86_continuous_sides_refused, C86_plain_die_is_the_draw, C86_rejection_is_ValueError, C86_samples_are_throws, C86_single_value_never_shown, C86_some_face_never_explodes, C86_top_face_total_tells_the_rolls, C87_equal_hash, C87_nested_text, C88_bool_arrays, C88_negative_powers, C88_scalar_and_array_agree_partial, C88_scalar_and_array_agree_refuted, C88_single_bools, C89_round_many_fails, C89_round_many_refuted, C89_round_one, C89_round_text, C89_round_values, C89_rounds_to_nearest_even, C90_exp_array, C90_exp_infinities_and_texts, C90_exp_log_many_refuted, C90_exp_many_fails, C90_exp_one, C90_log_errors, C90_log_many_fails, C90_log_one, C90_log_wrong_kind, C91_max_min_numbers, C91_max_pointwise, C91_min_pointwise, C91_only_numbers, C92_dump_load_round_trip, C92_memory_first, C92_neither_used, C93_no_event_fn, C95_always_raises, C95_refuted, C96_clips_have_no_effect, C96_other_clips_kept, C96_refuted, C97_refuted, C97_tolerance_partial, C98_refuted, C98_singular_fails, C99_discrete_values, C99_plain_values, C99_same_value, C99_samples_have_one_type, C99_share_of_draws, C99_single_value, C99_weights_stay_with_values, C102_above_partial, C102_below_partial, C102_zero_weight_refuted, C104_labels_partial, C104_last_label_refuted, C105_default_bins_refuted, C106_entries_partial, C106_entries_refuted, C107_every_number_sampleable_refuted, C107_others_rejected, C107_sampleable, C107_value_samples_to_itself, C108_continuous, C108_continuous_always_floats_refuted, C108_continuous_gives_floats, C108_float_distributions_refuted, C108_negation_and_shift_excluded, C109_flag_set, C109_flag_unset, C110_bad_count_message_refuted, C110_bad_counts, C110_fraction_cut, C110_invert_is_one, C110_invert_is_one_sample, C110_matmul_count, C110_matmul_is_sample, C110_matmul_too_few, C110_text_counts, C111_seed_correlated_refuted, C111_seed_generator, C111_seed_reproducible, C111_seed_same_pending, C112_letters, C112_named_numbers, C113_effect_of_shift, C113_scale_equivariant, C113_shift_equivariant_refuted, C114_mixed_types_refuted, C114_numbers_are_listed, C114_samples_are_listed, C115_float_distributions, C115_generator_errors, C115_integer_distributions, C116_applies_function_to_left, C116_negation_fails, C116_refuted, C117_doubling_one_partial, C117_growth_one_partial, C117_many_fails, C117_refuted, C117_round_trip_one_partial, C118_dict_keys, C118_dict_values, C118_different_texts_partial, C118_refuted, C119_dict, C119_pairs, C120_log_space, C120_no_bounds_refuted, C121_binary64, C121_double, C121_equal_weights_accepted, C121_exact_instance, C121_nearest_double, C122_far_from_one_rejected, C122_inferred_last_weight, C122_near_one_accepted, C122_normalized, C123_ceil, C123_floor, C123_texts_raise, C124_categorical_refuted, C124_norm_rounded, C124_norm_rounded_refuted, C124_operators_partial, C124_pert_refuted, C124_text_is_code_partial, C125_comparisons, C125_differences, C125_floor_by_infinity, C125_products, C125_quotients, C125_sums, C125_zero_division, C126_array, C126_bool_first, C126_distribution, C126_float_first, C126_int_first, C126_mixed_kinds_refuted, C126_number, C126_only_right_refuted, C126_pipes, C127_cut_points, C127_picks_refuted, C127_rarely_fails_partial, C127_small_never_fails, C128_split_exact, C128_split_total, C129_noticed_partial, C129_too_many_values_refuted, C130_close, C130_fails_iff, C130_probability, C131_back_and_there_refuted, C131_odds_positive, C131_probability_partial, C131_there_and_back, C132_nearest, C132_never_certain_partial, C132_never_certain_refuted, C133_draws, C133_probability, C134_monotone, C134_percentage, C134_total, C135_fractional_exponent, C135_infinite_base, C135_infinite_both, C135_infinite_exponent, C135_nan, C135_whole_exponent, C135_zero_base, C135_zero_to_minus_infinity, C136_clip_text_and_number, C136_clips, C136_minus_bool, C136_negation, C136_repetition, C136_text_and_float, C136_text_and_number, C136_texts, C136_total_order, C139_units, C139_units_without_tolerance, C140_accepted_exactly, C140_calendar, C140_rejected, C141_at_midnight_partial, C141_one_day_less, C141_past_dates, C141_refuted, C141_tomorrow_fails, C142_as_built, C142_copies_partial, C142_die_refuted, C142_discrete_refuted, C142_effect_of_the_call, C142_empty_rejected, C142_mixtures_partial, C142_only_through_references, C143_batches_in_order, C143_bayesnet_call, C143_counts, C143_no_deadlock, C143_result, C143_sample_call, C143_schedule_independent, C143_terminates, C144_bayesnet_stuck, C144_bayesnet_takes_leftovers, C144_crash_harmless_refuted, C144_sample_ignores_leftovers_partial, C145_concurrent_calls_refuted, C145_own_batches_partial, C145_unshared_directories_partial, C146_several_cores_partial, C146_several_cores_refuted, C146_single_core, C147_interval, C147_mean, C147_rejects, C147_room_partial, C147_room_refuted, C148_agreeing_refuted, C148_close_partial, C148_positive_variance, C149_close_partial, C149_close_refuted, C149_roi_partial, C150_two_draws, C150_weights_multiply, C151_expected_total, C151_sampled_throws, C151_throws_counted, C152_mean_of_samples, C154_any_probabilities, C154_rejection_is_bayes_rule, C155_sign, C155_units, C156_interval_covers, C156_share_below, C156_weight_below, C157_between_partial, C157_close_partial, C157_monotone_partial, C157_rank_partial, C157_rank_refuted, C158_close_partial, C158_ends_partial, C158_left_partial, C158_located, C158_monotone_refuted, C159_error_partial, C159_fixed_partial, C159_monotone, C159_nearest_refuted, C159_one_in, C160_exact, C161_against, C161_backed_partial, C161_docs_refuted, C161_modeled_refuted, C162_add, C162_compare, C162_div, C162_exact, C162_mul, C162_sub, C163_products_partial, C163_products_refuted, C163_sums, C163_underflow, C164_between_partial, C164_finite_refuted, C164_overflow, C170_interval_overflow, C170_interval_partial, C170_interval_refuted, C170_interval_rejects, C170_update_partial, C170_variance_partial, C170_variance_refuted, C173_intervals, C173_rise, C173_robust, C173_weighted_refuted, C175_rank_partial, C175_reorder_partial, C175_rise_partial, C175_rise_refuted, C175_robust_partial, C176_merge, C176_pool, C176_reorder, C176_units, C177_annual, C177_gains, C177_rise, C178_bayes, C178_chain, C178_one_sample, C178_probabilities, C178_total, C179_larger, C179_moved, C179_raised, C180_certain, C180_chain, C180_nearest, C180_opposite, C180_order, C180_recovers, C181_between_refuted, C181_close, C181_monotone, C181_order_refuted, C182_close, C182_commutes, C182_grouping_refuted, C182_whole, C183_between_refuted, C183_close, C183_commutes, C184_certain_stays, C184_impossible_stays, C184_order_refuted, C184_possible_stays_partial, C185_discrete, C185_product_refuted, C185_rises, C186_mixture, C187_exponential, C187_exponential_rises, C187_gamma, C187_gamma_rises, C187_inverse_falls, C187_lognormal_rises, C187_normal, C187_normal_rises, C187_normal_sd_refuted, C187_uniform, C187_uniform_rises, C189_average, C189_bayesnet, C189_expectation, C189_laws, C189_mean_answer, C189_model_function, C189_share, C189_total, C190_alarm_net, C190_bags, C190_kelly, C190_mammography, C190_mammography_net, C190_monty_hall, C190_simple_bayes, C191_bayesnet, C191_chebyshev, C191_conditional, C191_model_function, C191_runs, C192_combined, C192_constants, C192_means, C192_mixed, C192_run, C192_same_twice, C192_share, C192_variances, C193_law, C193_mean, C193_share, C194_interval, C194_mean_and_interval, C194_percentile, C195_answers, C195_bayesnet, C195_run, C195_share, C196_congruence, C196_drawn_twice, C196_max_min, C196_mixtures, C196_not_distributive, C196_numbers, C196_reorder, C196_samples, C197_difference, C197_law, C197_mirrored, C197_opposite, C197_share, C197_twice, C198_law, C198_mixture, C198_not_beyond_100, C198_not_for_sums, C198_single, C199_contests, C199_differences, C199_leaves, C199_mixtures, C199_not_from_means, C199_operators, C199_products, C199_rising, C199_samples, C200_error, C200_mixture, C200_mixture_or_average, C200_product, C200_statistic, C200_unbiased, C201_bayesnet, C201_few, C201_geometric, C201_many, C201_samples, C202_accurate, C202_differences, C202_range, C202_signed, C203_no_negatives, C203_not_strict, C203_raised, C203_rounding, C203_sums, C204_average, C204_intervals, C204_machine, C204_percentiles, C204_signs, C204_summaries, C205_geometric, C205_interval, C205_percentile, C206_above, C206_bayesnet, C206_below, C206_geometric, C206_mammography.

**`ClassicalDedekindReals.sig_forall_dec`** (2): C48_adds_counts, C77_sd_only.

**`ClassicalDedekindReals.sig_forall_dec`, `FunctionalExtensionality.functional_extensionality_dep`** (28): C58_increasing, C58_odds_round_trip, C58_prob_round_trip, C58_rejects, C58_values, C62_division_by_zero, C62_failures, C62_negative_successes, C62_times, C62_times_shape, C62_too_many_successes, C62_trials, C62_trials_increasing, C77_accepted_combinations, C77_credible_interval, C77_point_interval, C77_rejection_is_ValueError, C78_refuted, C78_without_mean_and_interval_partial, C171_order, C171_steps, C171_units, C172_bayes, C188_more_credible, C188_norm, C188_norm_mirrored, C188_read_back, C188_wider.

**`ClassicalDedekindReals.sig_forall_dec`, `ClassicalDedekindReals.sig_not_dec`, `FunctionalExtensionality.functional_extensionality_dep`** (19): C68_formula, C68_negate, C68_scale, C68_shift, C98_scalar_partial, C98_scalar_refuted, C137_exact_without_ties_partial, C137_order_of_exact_scores, C137_refuted, C138_contracts, C138_factor_iff_definite, C138_one_sample_fails, C138_same_order_fails, C138_succeeds_exactly, C138_too_few_samples_fail, C153_extremes, C153_range, C153_textbook_formula, C153_units.

**`ClassicalDedekindReals.sig_forall_dec`, `ClassicalDedekindReals.sig_not_dec`, `Classical_Prop.classic`, `FunctionalExtensionality.functional_extensionality_dep`** (124): C46_associative, C46_commutative, C46_mean_between, C46_precision_weighting, C46_sd_shrinks, C46_weight_zero, C46_weights_add, C47_lognormal_is_normal_in_log_space, C48_associative, C48_commutative, C48_mean_between, C49_associative, C49_commutative, C49_scale_between, C49_shapes_and_rates, C49_weight_zero, C49_weights_add, C49_zero_scale, C50_other_types_rejected, C50_supported_types_accepted, C52_accepts_by_eigenvalues, C52_eigenvalue_test, C59_between, C59_ignores_na, C59_permutation, C59_relative_weights, C59_scaling, C59_unusual_values, C59_unweighted, C59_weighted, C60_between, C60_complement, C60_unweighted, C60_weighted, C61_every_single_probability_fails, C61_single_probability_refuted, C63_arrays, C63_doubling_time, C63_growth_rate, C63_inverse, C63_outside, C65_deferred_kelly_is_optimal, C65_full_kelly_is_optimal, C67_accepts, C67_direction, C67_identity, C67_increasing, C67_range, C67_symmetric, C67_twice, C67_value, C78_incomplete_not_updatable, C79_accepted_combinations, C79_all_four_parameters, C79_credible_interval, C79_moment_equations, C79_rejections, C79_round_trip_from_lognorm, C79_round_trip_from_norm, C80_clips_kept, C80_credible_interval, C80_rejections, C81_relative_sd_partial, C81_reported_mean_refuted, C81_sampled_mean_refuted, C81_sampled_partial, C81_when_right, C82_otherwise_norm, C82_positive_is_lognorm, C82_result_kind, C82_reversed_interval, C94_clips_ignored, C94_refuted, C100_list_partial, C100_log_refuted, C100_unrounded_partial, C101_single_text_refuted, C103_digits_written, C103_no_digits_refuted, C124_lognorm_refuted, C165_contract, C165_density, C165_interval, C165_quantile_unique, C166_interval, C166_inverse_interval, C166_inverse_mean_refuted, C166_inverse_moments, C166_moments, C167_beta, C167_gamma_refuted, C167_lognormal, C167_normal, C168_flat, C168_mode, C168_moments, C169_beta_narrows_partial, C169_beta_narrows_refuted, C169_between_partial, C169_gamma_refuted, C169_lognormal_refuted, C169_normal_narrows, C169_values, C171_times, C171_trials, C172_forecasters, C172_pooling, C173_logs, C174_means, C174_plain_mean, C174_powers, C174_products, C174_rise, C174_rise_each, C174_rise_odds, C188_inverse_reciprocal, C188_lognorm, C188_lognorm_logs, C188_lognorm_powers, C188_to, C188_update_beta, C188_update_gamma, C188_update_lognorm, C188_update_norm.

