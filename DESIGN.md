# Formal model of pysad in Rocq (Coq 8.16.1)

Subject: `/repo` = selimfirat/pysad 0.5.0 at the pinned commit, read as text only.
Deliverable: `rocq/theories/*.v`. Properties: `properties.jsonl`. Status: `MANIFEST.json`
(both generated from `tools/props_data.py` by `tools/props.py`). Mutation log: `seeded/LOG.jsonl`.

## 1. Shape of the model

* **Shallow embedding, function by function.** Every Python method becomes a total Gallina
  function over an explicit record of the object's attributes, with a comment citing file and lines.
  Methods that may raise live in a state/exception monad `M S A = S -> res A * S` (`Base.v`):
  the state component is the object *as mutated up to the raise*, so exception-path properties
  ("what is left after a failure") are expressible.
* **Exceptions are values**: `exn` lists the Python classes that the modelled code can raise.
* **Numbers.** Arithmetic code is written once over a record of operations `Num A`
  (`Num.v`) and instantiated with
  - `R` (stdlib reals) - the *exact arithmetic* reading used by "proved" numeric laws;
  - `PrimFloat.float` (kernel binary64) - used to refute laws which rounding breaks, bit for bit.
  Order-only code (heaps, max, min, median, sorting) is proved for every total order.
  No theorem over `R` is claimed for binary64; each such property says "exact arithmetic".
* **Division.** Python scalar division by zero raises `ZeroDivisionError`; numpy division yields
  nan/inf with a warning. The model never uses Coq's totalised `x/0`: scalar division is the
  monadic `pydiv` (raises), numpy division returns `npres` = `Fin a | NonFin`.
* **External code is an oracle**: random generators, hash functions, PyOD/sklearn estimators, STL,
  t-quantiles, erfc, linkage/dendrogram, matrix inverse, rrcf's cut geometry. Each is a universally
  quantified argument of the definitions (never a global Variable/Axiom). What is assumed about an
  oracle is a visible hypothesis of the theorem that needs it.
* Refuted expectations are theorems `..._refuted` exhibiting a concrete reachable counterexample,
  in most cases together with the exact law the code does satisfy.

## 2. Files

| file | content |
|---|---|
| `Base.v` | exceptions, state/exception monad, `iterM` (Python for loop), list helpers |
| `Num.v` | numeric operation record, instances for R, binary64 (and Q for executable examples) |
| `Spec.v` | independent specification vocabulary: `lastn`, sums, mean, variance, order statistics, multiset replay |
| `Model_*.v` | the model proper, one file per pysad package / detector |
| `P_*.v` | lemmas |
| `Prop_*.v` | the property theorems: statement, `Print Assumptions`, and a concrete `Example` meeting the hypotheses |

## 3. Plan per property

See `properties.jsonl` for the statements.

| ids | modelled as | proof |
|---|---|---|
| C01-C02 | `Window` as a record size/list, integer size | induction over updates, against `lastn` |
| C03 | object heap: list objects with identity, in-place append versus slice-copy | simulation with C01 + frame property |
| C04-C06 | streamer as a generator: list of yields + final result; Fisher-Yates with drawn indices | permutation lemmas; surjectivity by induction |
| C07 | `loadtxt` squeezing rules on tables | case analysis on shapes |
| C08 | column-wise numpy min/max | order lemmas |
| C09-C12 | methods of an arbitrary model record in the monad; `iterM` | induction over the batch |
| C13-C14 | Python argument as a sum type (array / tuple with None) | per-transformer lemma + witness |
| C15-C23, C27 | each meter a record; operations update/remove/get; `RunningStatistic` generic over any meter | representation relation "state represents multiset l"; general theorem for any meter with such a relation |
| C24-C25 | same model at binary64 | `vm_compute` witness |
| C26, C31, C32 | constructor/kwargs/exception paths | case analysis; witness |
| C28-C30 | metric as history + function; window roll-over | invariant over updates against `chunks` |
| C33-C35 | compositions of the meters | from C15-C22 |
| C36-C39 | calibrators over windows and meters, erfc oracle | counting lemmas, monotonicity |
| C40-C41 | PyOD combination functions (modelled from their documented formula; trusted) | order/average inequalities |
| C42-C43 | hash oracle; RNG as stream of draws | linear algebra on lists |
| C44-C45 | vectors as lists of R; powers with `Rpower` | algebra |
| C46-C47 | decomposer state machine | invariant; periodic sums |
| C48, C78, C79 | STL/t-quantile oracles | state comparison, loop invariants |
| C49-C52 | direct | induction |
| C53-C56 | binary trees with masses, random dimensions as oracle list | structural induction + history invariant |
| C57-C60 | base detector oracle `fit : list X -> option (list Y) -> D` | schedule invariant modulo sliding size |
| C61-C65 | phases; dendrogram trees; dA state machine over R; binary64 NaN propagation | induction; inequality (Cauchy-Schwarz) |
| C66-C67 | list state machine with distance oracle | size/range invariants |
| C68-C69 | projections as masked vectors with drawn indices | invariants |
| C70-C71 | compositions of the meters | from C15-C22 |
| C72 | multinomial hypotheses with entropy oracle | invariant |
| C73 | index-set machine | invariant |
| C74 | sketches as association maps | closed form by induction |
| C75-C77 | chains, counts as finite maps | invariant; witness |
| C80, C88 | density matrix algebra, compile cache of jax.jit by argument shape | induction over fits and batches |
| C81 | invariants of the detectors above | history invariants; growth witnesses |
| C82-C85 | as C52, C74, C68, C66 | history invariants |
| C86-C87 | as C61 | induction over the training history |
| C89 | tied-weight autoencoder; specification of loss by its formula, derivative by `derivable_pt_lim` | chain rule, sums |
| C90–C91 | relations between two runs: histories with and without score requests, with and without labels | bisimulation per detector |
| C92 | pairs of histories that agree on a suffix | from the closed forms of C51, C53, C57, C75, C79 |
| C93 | all tables of 32 bit hash values, uniform average | moments of sums of independent coefficients, counting hash values below a bound |
| C94 | all histories, scales and shifts | median and deviation of an affine image, routes of two trees built from the same draws |
| C95 | all histories of doubles | Flocq rounding lemmas on the kernel floats, induction on the history |
| C96 | all histories of doubles | monotone rounding of k/n, counts stay apart |
| C97 | all histories, rejected calls, continuations | the failing call leaves the state (or every later answer) unchanged; witnesses for the others |
| C98 | all interleavings of writes and calls | memory model in `Model_Alias`, simulation by the copying detector |
| C99 | all components and batches | exchange of the three loops by induction on the batch |
| C100 | all training histories, masks, parameters | `Model_DA`; directional derivative of the denoising loss |
| C101 | all arguments and histories | closed forms; rotation invariant of the circular buffer |
| C102 | all label and score sequences | curve = counts at the distinct scores; dropping collinear points keeps the area; sum over thresholds = sum over pairs |
| C103 | all labelled streams; average over all draws | loop = metric of the batch scores; induction over the labels, beats a b + beats b a = 1 |
| C104 | all histories, instances and laws of the matrix entries | moments 1, 2 and 4 of a sum of independent entries by induction over the features; independence of two draws by induction over the sequence; Chebyshev |
| C105 | all lists of scores and levels; cyclic orders of arrival | closed form of the history law; ranks in the descending order (at most the position, equal without ties); pigeonhole for the corrected value |
| C106 | all interleavings of array overwrites and calls of SeasonalTrendDecomposer | simulation: the kept addresses are the last trend_window arrays handed over, and their contents are the copying window; zero residuals because a window of copies of one row has that row as its mean |
| C107 | all feature maps given to the KitNET constructor | object under construction with missing attributes; induction over the groups |
| C108 | all histories that fitted one instance only, any second instance, all parameters; all lengths of a stream with one spike | closed forms of C51, C54, C70, C71, C74, C75 evaluated on constant histories; pairs counted by C102 |
| C109 | all histories of fit and transform calls, all scores, all window sizes | Samuelson inequality by induction; closed forms of C34, C35, C38, C71 |
| C110 | all streams of pairs, all window sizes | C30 and C32 instantiated with the AUROC of C102; minimal one-class window by well-founded induction |
| C111 | all detectors, streams, calibration windows, thresholds | induction on the stream over the conformal closed form; first-window score of xStream from C75 |
| C112 | all calibration histories, labelled test sets, window sizes | closed forms of C33-C38 composed with the pair-counting form of AUROC (C102); a stream for every window against smoothing |
| C113 | all streams of doubles of any length, all window sizes | induction on the stream with the standard model of rounding (Flocq); a stream for every window against recovery |
| C114 | every history of calls, every stream of doubles, every window size | finiteness of a binary64 result implies finiteness of its operands; an absorbing predicate on states |
| C115 | every data set, detector and draw, for the shipped programs | run of the loop by induction on the data; AUROC laws of C102; LODA constant of C84; refutation from C112 |
| C116 | every table of scores, every number of detectors and weights | strict monotonicity from monotonicity plus shift equivariance; explicit families for the refutations; AUROC depends on pairwise comparisons only |
| C117 | every permutation of the features, every history | a relation between the states of the two objects kept by every call; for the sums, permutation of the terms |
| C118 | all histories up to rearrangement inside the windows | the characterisations of C51, C53, C71, C75, C36 and C102 are invariant under permutation; witnesses for the refutations |
| C119 | all histories, numbers of features and surplus values | simulation with equal states; exact rejection conditions by invariants on the stored dimension |
| C120 | all lists of doubles; all histories of integers | Flocq rounding lemmas for products, induction on the history, Cauchy-Schwarz for the sign, witnesses for the refutations |
| C121 | all histories, all constants added to the features, all draws | LODA: closed form of C68. KitNet: the correlation statistics are shift-free by induction on the stream, then a simulation of the autoencoders whose norms differ by the shift. RSHash: closed form of C74; witnesses for the refutation |
| C122 | all streams of doubles with a nan at any place | invariant: an autoencoder trained on a nan has only nan in its visible bias; a nan in the running sums makes a distance nan; comparisons with nan and minus infinity agree |
| C123 | all programs: interleavings of any number of detectors, seeding, shuffling; all generators | simulation between process and lone detector; induction on the program with a log of the draws |
| C124 | all seasons, windows, widths, histories around one malformed instance | invariant: malformed row at a known place of the window; periodic case by row invariant weight times estimate |
| C125 | all ranges, bins, windows, streams of single values | the ceiling by its defining inequalities, then C72 |
| C126 | all matrices, components, draws, hash functions, norms, user transformers | row-by-row equations of the batch loop (pure and counting mapM lemmas), induction over the rows for the inherited method |
| C127 | every history, instance, parameter and sequence of draws | exact difference of the scores before and after one more fit, from the closed forms of C71, C81 and C36; counterexamples by computation |
| C128 | every program, generator and number of detectors | induction over the program with an invariant relating every object to its kind; exact counting of the draws of every constructor and method |
| C129 | every constant stream, of every length, per detector | instances of the closed forms of C36, C51, C54, C70-C72, C74, C75, C84, C125 on `repeat x n` |
| C130 | every history no longer than the window, per windowed component | comparison of the closed forms of C22, C30, C33-C36, C38, C51, C54, C57, C60, C75; counterexamples for every window size |
| C131 | every history and every pair of values of one parameter, per detector | monotonicity of the closed forms of C54, C70, C71, C74, C75, C125; for SeasonalESD induction on the removal loop (same candidates, lower critical values) |
| C132 | window sizes, probationary periods, layer sizes, ratios and hash values up to the stated powers of two | rounding-error bounds with Flocq; doubles within a factor two differ by a relative 2^-54; refutations by computation |
| C133 | all histories of acceptable calls | composition of the exact score theorems of each detector with a generic lemma on default fit_score_partial; induction on the stream for BaseModel.fit_score |
| C134 | all streams of n copies of one instance and k of another | closed forms of C51, C54, C70, C71, C72, C74, C84 evaluated on two-valued streams; median, deviation and prefixes of such lists |
| C135 | all histories, instances of doubles, draws, parameters with W T (2^(D+1)-1) <= 2^53; all boxes | C53 for doubles, then integers up to 2^53 add exactly; rounding is monotone, so a rounded middle stays between the bounds; induction on the tree |
| C136 | all histories, all instances, all draws, all results of an impossible conversion | the closed forms of C74 and C75 for the composed floor; bounds on quotients; case analysis on the sign |
| C137 | all instances of doubles in a range | error analysis of sum, square root and quotient with Flocq; monotonicity of rounding; computation for the refutations |
| C138 | all histories, tolerances and parameter values | geometric series on the closed forms of C74/C129; bounds of mean, median and the standard deviation; C54, C76, C129 |
| C139 | integer types of any width and signedness, histories of updates, removals, fits and scores | simulation between the models run with wrapping integers and with exact numbers, under the invariant that the values fit; symbolic runs for the refutations |
| C140 | integer and float bounds, draws, depths, histories | invariant on trees (all cuts are half numbers within the bounds), two runs in lockstep; bisection for float bounds |
| C141 | all histories, draws and parameters, 0 included; all decays, integer and float | runs of the divided and the plain model coincide; invariants of C75 with no chains or no depths; parity of wrapped powers of two; sampling as in C83 with an infinite sample |
| C142 | all integer window sizes, states, calls and histories | equality of the call functions by divisibility of absolute values; induction over histories |
| C143 | every history of array contents between calls of next() | induction on the calls, with the generator state as the indices left |
| C144 | every history of doubles, any projections | induction on the calls; finiteness of sums and products from Flocq |
| C145 | every integer period, every history | invariant on the lengths of the lists the object keeps |
| C146 | window sizes, streams of doubles with nan and infinities | induction over the stream; doubles that are numbers ordered like reals |

## 4. Trusted base

* Coq 8.16.1 kernel (including `vm_compute` and the primitive binary64 floats where a theorem lists them).
* Per-theorem output of `Print Assumptions`: see section 6, filled from the build.
* The translation from Python to Gallina: by hand, with line citations in comments.
* Proofs about the rounding of doubles (C95, C96, C113, C120) use Flocq's theorems, which add no axiom of their own; their
  statements do not mention Flocq.
* Behaviour assumed of external code, listed next to each oracle in the model comments.

## 5. What is modelled, file by file

"all" means every method that a user can call, including the exceptions it raises on the modelled argument types.

| /repo file | model | modelled | left out |
|---|---|---|---|
| `core/base_metric.py`, `base_statistic.py`, `base_streamer.py` | `Model_Eval`, `Model_Stats`, `Model_Utils` | the interfaces, as records | abstract-method machinery of `ABC` |
| `core/base_model.py` | `Model_Core` | all (`fit`, `score`, `fit_score` and partials) over any subclass | `np.empty` contents (every cell is overwritten) |
| `core/base_transformer.py`, `base_postprocessor.py` | `Model_Core` | all | - |
| `evaluation/metrics.py`, `windowed_metric.py` | `Model_Eval`, `Model_Metrics` | all; the sklearn scorer is an oracle in `Model_Eval`; `Model_Metrics` gives the four sklearn functions for binary labels (after the sklearn sources: distinct thresholds, dropped collinear points, trapezoids, step-wise average precision, zero division) | sklearn's warnings, label encodings other than 0/1, the order in which the average precision adds its terms |
| `statistics/*.py` | `Model_Stats`, `Model_Int` (the arithmetic of integer-typed instances), `Model_NanMax` (maxima and minima with missing values) | all | `sorted` on lists with nan in MedianMeter; which of several nan objects list.remove takes |
| `utils/window.py`, `array_streamer.py`, `pandas_streamer.py`, `data.py` | `Model_Utils`, `Model_Lazy` (arrays changed while the stream is read) | all | file parsing (the table read is an input); `.mat` contents |
| `utils/__init__.py` | `Model_Utils`, `Model_Seed` | all; `Model_Seed` is a process with numpy's global generator as an unknown state machine shared by `fix_seed`, seeded iterators, `RandomModel`, `LODA` and the constructors of `HalfSpaceTrees`, `xStream` and `RSHash` | Python's own generator, which nothing reads |
| `transform/preprocessing/*` | `Model_Trans` | all; STL/seasonal decomposition of statsmodels is an oracle where it is called | numerical values of the oracles |
| `examples/*.py` | `Model_Examples` | all seven programs: the loop and what is printed, with data, detectors, window sizes and threshold as arguments | reading the data file, shuffling, the progress bar |
| `transform/projection/*` | `Model_Trans` | all; hash function and random matrices are oracles | the matrices are oracles; C104 averages over independent entries of a rational law (SparseRandomProjection), the normal law itself is not modelled |
| `transform/postprocessing/*`, `probability_calibration/*` | `Model_Post` | all; `erfc` is an oracle | - |
| `transform/ensemble/ensemblers.py` | `Model_Post` | all; PyOD's `average/maximization/median/aom/moa` from their documented formula | PyOD argument checking other than the modelled shape checks |
| `models/null_model.py`, `random_model.py`, `perfect_model.py`, `exact_storm.py`, `median_absolute_deviation.py`, `standard_absolute_deviation.py`, `loop.py` | `Model_Simple`, `Model_Int` (the two deviations on integer-typed instances) | all; PyNomaly's stream method is an oracle | - |
| `models/half_space_trees.py` | `Model_HST`, `Model_Window` (any integer window size) | all | - |
| `models/integrations/*`, `iforest_asd.py` | `Model_Integrations`, `Model_Window` (any integer window and sliding size) | all; PyOD detectors are oracles | - |
| `models/relative_entropy.py`, `robust_random_cut_forest.py`, `rs_hash.py` | `Model_Sketch`, `Model_Cast` (32-bit cell numbers), `Model_Zero` (decay 0 and integer decays), `Model_Period` (any integer window size of RelativeEntropy) | all; `rrcf` trees by their set of leaves, codisp an oracle | geometry of rrcf trees |
| `models/loda.py` | `Model_Loda`, `Model_Seed`, `Model_Zero` (no cuts), `Model_Finite` (values that are not finite) | all | the refusal of bins without width by recent numpy releases |
| `models/knn_cad.py` | `Model_KNN`, `Model_Params` (the quotients in binary64), `Model_Period` (any integer period) | all; `np.linalg.inv` an oracle | - |
| `models/xstream.py` | `Model_XStream`, `Model_Cast` (32-bit cell numbers), `Model_Zero` (no chains), `Model_Window` (any integer window size) | all | - |
| `models/seasonal_esd.py` | `Model_SESD`, `Model_Params` (the limit in binary64) | all; STL and Student quantiles are oracles | - |
| `models/kitnet.py`, `kitnet_model/KitNET.py`, `corClust.py`, `dA.py` | `Model_KitNET` | all of what `KitNet` reaches; scipy `linkage` is an oracle giving a dendrogram | - |
| `kitnet_model/dA.py` | `Model_DA`, `Model_Params` (the number of hidden units in binary64) | the class used on its own, with corruption level and grace period; the binomial masks are an oracle | vectors with another number of components than n_visible |
| `kitnet_model/utils.py` | `Model_KitNET` (`sigmoid`), `Model_DA` | all; exp, tanh and norm.logcdf are arguments | - |
| `models/inqmad.py` | `Model_Inqmad` | all with JAX installed; `jax.jit` as a cache by argument shape, weights and cosine as oracles | the ImportError path without JAX |
| `models/exact_storm.py`, `relative_entropy.py`, `integrations/reference_window_model.py`, `transform/preprocessing/seasonal_trend_decomposer.py` | `Model_Alias` | the same methods with arrays passed by reference | views (two arrays sharing memory) |
| `__init__.py` files, `version.py` | - | - | re-exports, warning filters, version string |

Nowhere modelled: plotting, documentation, logging and warnings, numpy dtype coercions other than those
named in the properties, distributions of random draws (draws are arbitrary within their range), concurrency (pysad
has none), and memory behaviour of CPython beyond aliasing of the window list (C03) and of stored instances (C98).

## 6. Print Assumptions

Every property theorem is followed by `Print Assumptions` in its file. The table below is generated by
`tools/assumptions.py` from a build. Letters stand for axioms of the standard library:

* S = `ClassicalDedekindReals.sig_forall_dec`
* N = `ClassicalDedekindReals.sig_not_dec`
* F = `FunctionalExtensionality.functional_extensionality_dep`
* C = `Classical_Prop.classic`

S, N and F come with the reals of the standard library; C with its square root, logarithm and power.
The "primitives" are the kernel's binary64 and 63-bit integers, which `Print Assumptions` lists too; the
`FloatAxioms` state that these primitives compute IEEE 754 operations.

<!-- assumptions -->
709 property theorems.

* **none (closed under the global context)** (199): `C01_window_keeps_last`, `C02_unlimited_window_keeps_all`, `C03_get_is_a_snapshot_refuted`, `C03_get_is_live_until_overflow`, `C04_iterate`, `C04_stream_in_order`, `C04_stream_in_order_labelled`, `C05_every_order_reachable`, `C05_shuffled_is_permutation`, `C05_shuffled_keeps_labels`, `C05_shuffled_mismatch`, `C06_pandas_is_array_streamer`, `C07_degenerate_table_rejected`, `C07_get_iterator`, `C07_get_iterator_shuffled`, `C07_mat_anywhere_in_the_name`, `C07_text_table_split`, `C08_minmax_array`, `C08_minmax_array_empty`, `C08_minmax_scalar`, `C09_failure_fits_exactly_the_prefix`, `C09_fit_in_order`, `C09_fit_in_order_labelled`, `C09_fit_label_mismatch`, `C09_two_batches`, `C09_two_batches_labelled`, `C100_without_corruption`, `C101_softmax_empty`, `C106_seasonal_trend_decomposer`, `C107_feature_map_refuted`, `C107_repaired_constructor`, `C10_causal`, `C10_default_scores_after_fitting`, `C10_fit_score_in_order`, `C10_fit_score_in_order_labelled`, `C10_one_score_per_instance`, `C10_two_futures_same_past`, `C117_half_space_trees`, `C117_knncad`, `C117_rshash`, `C118_exact_storm`, `C118_half_space_trees`, `C119_exact_storm`, `C119_half_space_trees`, `C119_kitnet`, `C119_kitnet_early`, `C119_knncad`, `C119_loda`, `C119_rshash`, `C119_rshash_rejects`, `C11_one_row`, `C11_pure_scoring`, `C11_rows_in_order`, `C11_stops_at_first_bad_score`, `C123_fix_seed`, `C123_fix_seed_rejects`, `C123_loda`, `C123_no_interference`, `C123_random`, `C123_random_repeats`, `C123_seeded_order`, `C126_identity`, `C126_inherited`, `C128_generator`, `C128_half_space_trees`, `C128_loda_alone`, `C128_next_score`, `C128_rshash`, `C128_seeded_order`, `C128_xstream`, `C12_causal`, `C12_fit`, `C12_fit_transform`, `C12_one_output_per_score`, `C12_transform`, `C130_before_retraining`, `C130_reference_window`, `C133_iforest_asd`, `C133_iforest_asd_any_labels_refuted`, `C133_inqmad`, `C133_inqmad_no_batch_size`, `C133_inqmad_no_rows`, `C133_kitnet`, `C133_null_and_random`, `C133_one_fit`, `C133_perfect_model`, `C133_reference_window`, `C133_reference_window_warm`, `C133_rrcf`, `C133_whole_stream`, `C13_fit_is_fit_partial_in_order_refuted`, `C13_fit_passes_pairs`, `C13_harmless_when_pairs_are_unwrapped`, `C142_half_space_trees`, `C142_half_space_trees_zero`, `C142_reference_window`, `C142_reference_window_never_scores`, `C142_relative_entropy_natural`, `C142_windowed_metric`, `C142_xstream`, `C142_xstream_zero`, `C143_changing_delivered_rows_is_safe`, `C143_labels_are_checked_at_the_first_call`, `C143_pandas_copy`, `C143_row_gone`, `C143_rows_are_read_when_asked_for`, `C143_stream_is_a_snapshot_refuted`, `C144_finite_values`, `C145_natural`, `C145_short_period_fit`, `C145_short_period_score`, `C14_bad_dims`, `C14_shape`, `C14_wrong_inner_length`, `C15_count_any_history`, `C15_count_meter`, `C18_max_meter`, `C18_min_meter`, `C20_abs_statistic`, `C21_remove_absent_max`, `C21_remove_absent_min`, `C26_running_abs_statistic_impossible_refuted`, `C26_running_kwargs_rejected`, `C27_heap_while_growing`, `C27_internal_list_is_current_multiset`, `C28_metric_evaluates_whole_history`, `C28_shipped_metrics`, `C29_auroc_needs_two_classes`, `C31_shipped_metrics_reject_kwargs`, `C40_ensembler_stateless`, `C42_feature_names_distinct`, `C46_constructor`, `C46_default_window`, `C48_constructor`, `C49_fifo`, `C49_fit_score_returns_labels`, `C49_unlabelled_fit_rejected`, `C50_inputs_ignored`, `C50_null_constant`, `C50_random_draws_in_order`, `C53_inner_node_mass`, `C53_masses`, `C53_zero_window_fails`, `C56_array_is_accepted_refuted`, `C56_list_is_fitted`, `C57_cold_start_schedule`, `C57_fit_outcome`, `C57_iforest_asd`, `C57_warm_start_schedule`, `C57_zero_sliding_size_fails`, `C58_labels_belong_to_instances`, `C59_labels_stay_aligned_refuted`, `C59_stale_labels`, `C59_unit_window_never_trains`, `C59_unlabelled_start_never_retrains`, `C60_constructor_raises_with_the_detector`, `C60_fit_always_accepted`, `C60_one_fit_scores_frozen`, `C61_before_the_map`, `C61_feature_map`, `C61_fit_never_fails`, `C61_only_the_first_instances_matter`, `C61_score`, `C62_break`, `C72_score_is_0_or_minus_1`, `C73_failed_score_leaves_test_point`, `C73_leaves`, `C73_most_recent_only_refuted`, `C73_zero_tree_size_fails`, `C81_cold_window_one_bounded_refuted`, `C81_knncad_bounded_refuted`, `C81_reference_window_bounded_refuted`, `C81_reference_window_cold`, `C81_reference_window_warm`, `C81_relative_entropy_bounded_refuted`, `C81_rrcf`, `C82_loop_ignores_fits`, `C82_pure_stream_constant_scores`, `C85_only_first_feature_matters`, `C85_score_ignores_its_argument`, `C86_single_feature_refuted`, `C87_units_learn_their_own_bias_refuted`, `C90_perfect_model_refuted`, `C90_random_model_refuted`, `C91_iforest_asd_refuted`, `C91_labels_are_ignored`, `C91_perfect_model_refuted`, `C92_half_space_trees`, `C92_reference_window_cold`, `C92_reference_window_warm`, `C97_exact_storm_blocked`, `C97_reference_window_refuted`, `C97_relative_entropy_blocked`, `C98_exact_storm`, `C98_reference_window`, `C98_reference_window_refuted`, `C98_relative_entropy`, `C99_side_by_side`, `C99_stage_by_stage`
* **S** (3): `C103_loop_is_metric_of_batch`, `C50_random_in_range`, `C69_single_feature_kept`
* **S, F** (12): `C113_growth_of_the_bound`, `C130_max_postprocessor`, `C19_median_well_defined`, `C33_max_postprocessor`, `C34_running_max`, `C54_denser_cells_score_lower`, `C55_cells_tile_the_box`, `C68_weights`, `C70_spread_is_the_MAD_refuted`, `C75_bin_width`, `C76_ranges_positive`, `C85_no_alarm_before_2P`
* **S, N, F** (320): `C100_corruption_of_one`, `C100_grace_period`, `C101_derivative_of_argument_refuted`, `C101_derivatives`, `C101_rollmean`, `C101_rollmean_bad_size`, `C101_rollmean_warm_up_refuted`, `C101_softmax_no_overflow`, `C102_arrival_order`, `C102_aupr`, `C102_aupr_averages_precisions`, `C102_aupr_order_only`, `C102_aupr_range`, `C102_aupr_without_positives`, `C102_auroc`, `C102_auroc_classes_swapped`, `C102_auroc_order_only`, `C102_auroc_range`, `C102_auroc_reversed`, `C102_auroc_undefined`, `C102_constant_scores`, `C102_precision`, `C102_precision_monotone_refuted`, `C102_recall`, `C102_recall_antitone`, `C102_scores_are_not_decisions`, `C103_null_model`, `C103_perfect_model`, `C103_random_model`, `C104_components_are_centred`, `C104_concentration`, `C104_distances_are_forgotten`, `C104_lengths_are_kept`, `C104_sparse_law`, `C104_spread`, `C105_constant_scores`, `C105_corrected_guarantee`, `C105_p_value_guarantee_refuted`, `C105_small_values_distinct`, `C105_small_values_too_frequent`, `C105_uniform`, `C105_uniform_fresh`, `C106_reuse_is_harmless_refuted`, `C106_reused_array`, `C108_exact_storm_auroc`, `C108_exact_storm_refuted`, `C108_half_space_trees`, `C108_median_deviation`, `C108_standard_deviation`, `C109_any_spike_gets_the_cap`, `C109_gaussian_tail`, `C109_running_zscore`, `C109_standard_deviation`, `C109_three_sigma_silent`, `C109_three_sigma_silent_window`, `C109_zscore`, `C110_mean_of_windows`, `C110_one_class_window`, `C110_perfect_overall`, `C110_updates_succeed_iff`, `C110_windowed_perfect_refuted`, `C110_windows_of_one`, `C111_alert_iff`, `C111_alerts_on_anomalies_refuted`, `C111_first_twenty`, `C111_highest_score_is_silent`, `C111_scalar_scores_raise`, `C112_averages_erase`, `C112_conformal_reverses`, `C112_scaling_preserves`, `C112_smoothing_keeps_the_ranking_refuted`, `C115_ensemble_program`, `C115_integration_program`, `C115_short_program`, `C115_statistics_program`, `C115_usage_keeps_the_ranking_refuted`, `C115_usage_program`, `C116_averaging_helps_refuted`, `C116_fixed_buckets`, `C116_fresh_buckets_refuted`, `C116_loudest_detector_decides`, `C116_negative_weight_refuted`, `C116_unanimous_detectors`, `C117_exact_storm`, `C117_inqmad`, `C117_loda`, `C117_random_projector`, `C117_streamhash`, `C117_streamhash_same_hash_refuted`, `C118_conformal`, `C118_exact_storm_all_refuted`, `C118_median_absolute_deviation_refuted`, `C118_metrics`, `C118_standard_absolute_deviation`, `C119_deviations`, `C119_too_few_accepted`, `C119_xstream`, `C121_kitnet`, `C121_rshash_bounds_unused`, `C124_periodic_again`, `C124_poisoned`, `C124_recovers`, `C124_rejected`, `C124_retry_refuted`, `C124_transform`, `C125_no_bins`, `C126_instance_scalers`, `C126_random`, `C126_streamhash`, `C127_conformal`, `C127_exact_storm`, `C127_exact_storm_refuted`, `C127_half_space_trees`, `C127_half_space_trees_refuted`, `C127_median_center_refuted`, `C127_median_deviation_refuted`, `C127_standard_deviation`, `C128_xstream_draws`, `C129_conformal`, `C129_exact_storm`, `C129_half_space_trees`, `C129_median_deviation`, `C129_standard_deviation`, `C129_zscore`, `C130_calibrators`, `C130_exact_storm`, `C130_half_space_trees`, `C130_postprocessors`, `C130_running_statistics`, `C130_shorter_refuted`, `C130_windowed_metric`, `C131_half_space_trees`, `C131_median_deviation`, `C131_seasonal_esd`, `C131_standard_deviation`, `C133_exact_storm`, `C133_half_space_trees`, `C133_knncad`, `C133_median_absolute_deviation`, `C133_seasonal_esd`, `C133_standard_absolute_deviation`, `C134_exact_storm`, `C134_half_space_trees`, `C134_mad`, `C134_mean`, `C134_median`, `C138_deviation_bounds_are_reached`, `C138_deviation_of_any_value_refuted`, `C138_half_space_trees`, `C138_median_deviation`, `C138_standard_deviation`, `C139_knncad_distance_refuted`, `C139_median_deviation`, `C139_median_deviation_unsigned_refuted`, `C139_median_refuted`, `C139_standard_deviation`, `C139_standard_deviation_median`, `C139_sums`, `C139_variance`, `C139_variance_refuted`, `C13_shipped_transformers_unwrap`, `C140_float_bounds`, `C140_integer_bounds`, `C140_middle_is_cut`, `C140_unit_range_refuted`, `C141_loda_cuts`, `C141_loda_no_cuts`, `C142_exact_storm`, `C142_relative_entropy_negative`, `C142_windowed_metric_zero`, `C145_works_from_48`, `C15_sum_meter`, `C15_sum_squares_meter`, `C15_sums_any_history`, `C16_average_between_extremes`, `C16_average_meter`, `C17_variance_meter`, `C17_variance_sign`, `C19_median_meter`, `C21_remove_absent_median`, `C21_remove_undoes_update`, `C22_running_average`, `C22_running_statistic`, `C23_order_independent`, `C27_median_internal_list`, `C30_windowed_metric`, `C30_windowed_sklearn_metric`, `C30_zero_window`, `C31_kwargs_reach_every_window_refuted`, `C31_only_first_window_gets_kwargs`, `C32_failure_effect`, `C32_get_after_failed_first_window`, `C32_next_window_contains_two_refuted`, `C33_average_postprocessor`, `C33_median_postprocessor`, `C34_running_average`, `C34_running_median`, `C34_running_zscore`, `C35_zscore_affine_invariant`, `C35_zscore_closed_form`, `C36_conformal_fit_transform_below_one`, `C36_conformal_fraction_above`, `C36_conformal_range`, `C37_conformal_antitone`, `C37_conformal_maximum_gets_zero`, `C37_conformal_order_preserving_refuted`, `C38_gaussian_tail_closed_form`, `C38_gaussian_tail_probability`, `C39_mean_of_all_variance_of_window`, `C39_window_size_ignored_refuted`, `C40_average_ensembler`, `C40_maximum_ensembler`, `C40_median_ensembler`, `C40_weighted_average`, `C40_weighted_average_wrong_length`, `C41_aom_moa_between_mean_and_max`, `C41_bad_bucket_count`, `C41_values`, `C42_bounded`, `C42_linear`, `C42_num_components`, `C42_streamhash_fixed_linear_map`, `C42_zero_density_rejected`, `C42_zero_features_are_invisible`, `C43_auto_always_fails`, `C43_equal_rows_stay_equal_refuted`, `C43_fresh_matrix_at_every_call`, `C43_same_instance_same_image_refuted`, `C44_affine_invariant`, `C44_constant_instance_not_finite`, `C44_idempotent`, `C44_standardises`, `C46_fit_succeeds`, `C46_fit_transform_closed_form`, `C46_fit_transform_trains_like_fit`, `C46_transform_closed_form`, `C46_transform_never_changes_later_results`, `C47_periodic_signal_removed_by_transform`, `C47_periodic_signal_removed_while_training`, `C47_transform_before_first_estimate`, `C48_batch_residuals`, `C48_rejects_exactly_non_values`, `C48_residual`, `C48_transform_previews_fit_transform`, `C48_without_window_partial_calls_fail`, `C51_fit_score_excludes_itself`, `C51_monotone_in_radius`, `C51_near_fraction`, `C51_range`, `C51_scoring_changes_nothing`, `C52_farther_never_scores_higher`, `C52_isolated_zero_central_one`, `C52_more_anomalous_scores_higher_refuted`, `C54_score`, `C54_score_range`, `C55_integer_bounds_refuted`, `C55_trees_halve_the_box`, `C56_zero_or_empty_is_ignored`, `C63_distance`, `C63_linkage_input`, `C63_well_formed`, `C64_execute_range`, `C64_kitnet_limits`, `C64_kitnet_score_nonneg`, `C64_normalisation_limits`, `C64_normalised`, `C64_reconstruction`, `C64_training_error`, `C66_reference_sets`, `C66_refractory`, `C66_score`, `C67_works_for_every_period_refuted`, `C67_zero_period`, `C70_finite_and_absolute_nonneg`, `C70_no_value_no_score`, `C70_score`, `C70_vectors_rejected`, `C71_no_value_no_score`, `C71_score`, `C71_unknown_statistic_rejected`, `C71_vectors_rejected`, `C72_agreement_is_first_least`, `C73_score`, `C74_degenerate_parameters`, `C78_anomalies_bound`, `C78_constructor`, `C78_degrees_of_freedom`, `C78_esd`, `C78_hybrid_esd`, `C79_preview`, `C79_score`, `C80_accumulates_refuted`, `C80_frozen_after_first_score`, `C80_nan_for_ever`, `C80_only_last_batch`, `C80_only_last_instance`, `C80_scores_do_not_matter_refuted`, `C81_exact_storm`, `C81_median_absolute_deviation_bounded_refuted`, `C81_seasonal_esd`, `C88_features`, `C88_highest_for_learned_instance`, `C89_initial`, `C89_score`, `C89_training_error`, `C90_scoring_is_silent`, `C92_exact_storm`, `C92_seasonal_esd`, `C93_any_density_refuted`, `C93_components_are_centred`, `C93_distances_are_kept`, `C93_lengths_are_kept`, `C94_exact_storm`, `C94_half_space_trees`, `C94_median_absolute_deviation`, `C94_rescaling_multiplies_distances`, `C94_standard_absolute_deviation`, `C94_unit_free_refuted`, `C97_rejected_calls_leave_no_trace`, `C98_exact_storm_reused_array`
* **S, N, F, C** (96): `C100_denoising_step`, `C101_invLogCDF`, `C101_pdf`, `C101_softmax`, `C101_softmax_rows`, `C108_rshash_auroc`, `C108_rshash_refuted`, `C108_xstream`, `C111_constant_stream_raises_alerts`, `C115_ensemble_with_LODA`, `C115_short_program_measures_nothing`, `C117_scalers`, `C118_xstream`, `C121_loda`, `C121_rshash_one_cell`, `C121_rshash_shift_refuted`, `C121_rshash_unit_refuted`, `C123_loda_own_instance`, `C125_empty_range`, `C125_out_of_range`, `C125_score`, `C125_two_bins_are_blind`, `C125_units`, `C127_rshash`, `C128_rshash_created`, `C129_loda`, `C129_relative_entropy`, `C129_rshash`, `C129_xstream`, `C130_xstream`, `C130_xstream_boundary_refuted`, `C131_relative_entropy`, `C131_rshash`, `C131_xstream`, `C133_loda`, `C133_relative_entropy`, `C133_rshash`, `C133_xstream`, `C134_loda`, `C134_relative_entropy`, `C134_rshash`, `C136_rshash_distant_newcomer_refuted`, `C136_rshash_far_values_are_alike`, `C136_rshash_in_range`, `C136_xstream_far_values_are_familiar`, `C136_xstream_in_range`, `C138_rshash`, `C138_rshash_limit_is_approached`, `C138_rshash_without_decay_refuted`, `C138_xstream`, `C141_rshash_components`, `C141_rshash_integer_decay_refuted`, `C141_rshash_sample_size`, `C141_rshash_zero_cell_refuted`, `C141_rshash_zero_decay`, `C141_rshash_zero_decay_score`, `C141_xstream_chains`, `C141_xstream_no_chains`, `C141_xstream_no_depth`, `C142_relative_entropy_zero`, `C45_empty_instance_max_norm_fails`, `C45_pow_zero_law`, `C45_pow_zero_unit_refuted`, `C45_scale_invariant`, `C45_unit_max_norm`, `C45_unit_min_norm`, `C45_unit_p_norm`, `C45_zero_instance_not_finite`, `C68_failures`, `C68_only_last_instance_matters`, `C68_score`, `C68_score_range`, `C69_projections_stay_informative_refuted`, `C72_anomalous_window_scores_higher_refuted`, `C72_compares_with_first_window`, `C72_depends_on_first_and_last_window`, `C72_same_distribution_0_new_bin_minus_1`, `C72_window_size_zero`, `C74_new_instance_scores_higher_refuted`, `C74_score`, `C74_score_range`, `C75_score`, `C75_zero_window_fails`, `C76_first_window_member`, `C76_score_range`, `C77_seen_instances_are_recognised_refuted`, `C81_rshash_bounded_refuted`, `C81_xstream`, `C83_constructor_sampling`, `C83_list_bounds_select_constant_features_refuted`, `C84_even_bins`, `C84_odd_bins_refuted`, `C89_biases_descend_the_mean_gradient`, `C89_downhill`, `C89_weights_descend_the_gradient`, `C92_xstream`
* **primitives: `PrimFloat.eqb`, `PrimFloat.float`, `PrimFloat.leb`, `PrimFloat.ltb`** (1): `C146_same_rule_always_refuted`
* **primitives: `PrimFloat.abs`, `PrimFloat.add`, `PrimFloat.div`, `PrimFloat.eqb`, `PrimFloat.float`, `PrimFloat.leb`, `PrimFloat.ltb`, `PrimFloat.mul`, `PrimFloat.of_uint63`, `PrimFloat.opp`, `PrimFloat.sqrt`, `PrimFloat.sub`, `PrimInt63.int`, `PrimInt63.lor`, `PrimInt63.lsl`, `PrimInt63.sub`** (24): `C114_conformal_recovers`, `C122_kitnet_afterwards`, `C123_no_interference_refuted`, `C123_seed_too_late_refuted`, `C123_seeded_order_refuted`, `C137_constant_instance_refuted`, `C137_scale_invariance_refuted`, `C137_standard_overflow_refuted`, `C137_unit_norm_overflow_refuted`, `C24_order_matters_refuted`, `C24_remove_does_not_undo_update_refuted`, `C24_running_average_absorption_refuted`, `C24_running_sum_absorption_refuted`, `C25_negative_variance_refuted`, `C25_negative_variance_std_is_nan_refuted`, `C90_knncad_refuted`, `C97_half_space_trees_refuted`, `C97_kitnet_refuted`, `C97_knncad_refuted`, `C97_loda_refuted`, `C97_rshash_refuted`, `C98_exact_storm_refuted`, `C98_relative_entropy_refuted`, `C99_fit_then_score_refuted`
* **primitives: `PrimFloat.abs`, `PrimFloat.div`, `PrimFloat.eqb`, `PrimFloat.float`, `PrimFloat.frshiftexp`, `PrimFloat.ltb`, `PrimFloat.mul`, `PrimFloat.normfr_mantissa`, `PrimFloat.of_uint63`, `PrimFloat.opp`, `PrimInt63.eqb`, `PrimInt63.int`, `PrimInt63.land`, `PrimInt63.lor`, `PrimInt63.lsl`, `PrimInt63.lsr`, `PrimInt63.sub`** (1): `C132_sesd_limit_refuted`
* **primitives: `FloatAxioms.SF2Prim_Prim2SF`, `FloatAxioms.eqb_spec`, `PrimFloat.abs`, `PrimFloat.div`, `PrimFloat.eqb`, `PrimFloat.float`, `PrimFloat.frshiftexp`, `PrimFloat.ldshiftexp`, `PrimFloat.leb`, `PrimFloat.ltb`, `PrimFloat.normfr_mantissa`, `PrimFloat.of_uint63`, `PrimFloat.opp`, `PrimInt63.eqb`, `PrimInt63.int`, `PrimInt63.land`, `PrimInt63.lor`, `PrimInt63.lsl`, `PrimInt63.lsr`, `PrimInt63.sub`** (1): `C146_agrees`
* **primitives: `FloatAxioms.ltb_spec`, `PrimFloat.abs`, `PrimFloat.add`, `PrimFloat.div`, `PrimFloat.eqb`, `PrimFloat.float`, `PrimFloat.frshiftexp`, `PrimFloat.leb`, `PrimFloat.ltb`, `PrimFloat.mul`, `PrimFloat.normfr_mantissa`, `PrimFloat.of_uint63`, `PrimFloat.opp`, `PrimFloat.sqrt`, `PrimFloat.sub`, `PrimInt63.eqb`, `PrimInt63.int`, `PrimInt63.land`, `PrimInt63.lor`, `PrimInt63.lsl`, `PrimInt63.lsr`, `PrimInt63.sub`** (1): `C135_large_bounds_refuted`
* **S, F, primitives: `PrimFloat.abs`, `PrimFloat.add`, `PrimFloat.div`, `PrimFloat.eqb`, `PrimFloat.float`, `PrimFloat.frshiftexp`, `PrimFloat.leb`, `PrimFloat.ltb`, `PrimFloat.mul`, `PrimFloat.normfr_mantissa`, `PrimFloat.of_uint63`, `PrimFloat.opp`, `PrimFloat.sqrt`, `PrimFloat.sub`, `PrimInt63.eqb`, `PrimInt63.int`, `PrimInt63.land`, `PrimInt63.lor`, `PrimInt63.lsl`, `PrimInt63.lsr`, `PrimInt63.sub`** (1): `C95_running_sum_unbounded_refuted`
* **primitives: `FloatAxioms.SF2Prim_Prim2SF`, `FloatAxioms.eqb_spec`, `FloatAxioms.ltb_spec`, `PrimFloat.abs`, `PrimFloat.add`, `PrimFloat.div`, `PrimFloat.eqb`, `PrimFloat.float`, `PrimFloat.frshiftexp`, `PrimFloat.ldshiftexp`, `PrimFloat.leb`, `PrimFloat.ltb`, `PrimFloat.mul`, `PrimFloat.normfr_mantissa`, `PrimFloat.of_uint63`, `PrimFloat.opp`, `PrimFloat.sqrt`, `PrimFloat.sub`, `PrimInt63.eqb`, `PrimInt63.int`, `PrimInt63.land`, `PrimInt63.lor`, `PrimInt63.lsl`, `PrimInt63.lsr`, `PrimInt63.sub`** (1): `C122_trees`
* **S, N, F, C, primitives: `FloatAxioms.Prim2SF_SF2Prim`, `FloatAxioms.Prim2SF_valid`, `FloatAxioms.SF2Prim_Prim2SF`, `FloatAxioms.abs_spec`, `FloatAxioms.eqb_spec`, `FloatAxioms.ltb_spec`, `PrimFloat.abs`, `PrimFloat.div`, `PrimFloat.eqb`, `PrimFloat.float`, `PrimFloat.frshiftexp`, `PrimFloat.ldshiftexp`, `PrimFloat.ltb`, `PrimFloat.normfr_mantissa`, `PrimFloat.of_uint63`, `PrimFloat.opp`, `PrimInt63.eqb`, `PrimInt63.int`, `PrimInt63.land`, `PrimInt63.lor`, `PrimInt63.lsl`, `PrimInt63.lsr`, `PrimInt63.sub`** (1): `C135_instances_stay_in_their_cells`
* **primitives: `FloatAxioms.SF2Prim_Prim2SF`, `FloatAxioms.add_spec`, `FloatAxioms.div_spec`, `FloatAxioms.mul_spec`, `FloatAxioms.sub_spec`, `PrimFloat.abs`, `PrimFloat.add`, `PrimFloat.div`, `PrimFloat.eqb`, `PrimFloat.float`, `PrimFloat.frshiftexp`, `PrimFloat.ldshiftexp`, `PrimFloat.leb`, `PrimFloat.ltb`, `PrimFloat.mul`, `PrimFloat.normfr_mantissa`, `PrimFloat.of_uint63`, `PrimFloat.opp`, `PrimFloat.sqrt`, `PrimFloat.sub`, `PrimInt63.eqb`, `PrimInt63.int`, `PrimInt63.land`, `PrimInt63.lor`, `PrimInt63.lsl`, `PrimInt63.lsr`, `PrimInt63.sub`** (2): `C122_kitnet_mapping`, `C122_kitnet_training`
* **primitives: `FloatAxioms.SF2Prim_Prim2SF`, `FloatAxioms.abs_spec`, `FloatAxioms.add_spec`, `FloatAxioms.div_spec`, `FloatAxioms.eqb_spec`, `FloatAxioms.sub_spec`, `PrimFloat.abs`, `PrimFloat.add`, `PrimFloat.div`, `PrimFloat.eqb`, `PrimFloat.float`, `PrimFloat.frshiftexp`, `PrimFloat.ldshiftexp`, `PrimFloat.leb`, `PrimFloat.ltb`, `PrimFloat.mul`, `PrimFloat.normfr_mantissa`, `PrimFloat.of_uint63`, `PrimFloat.opp`, `PrimFloat.sqrt`, `PrimFloat.sub`, `PrimInt63.eqb`, `PrimInt63.int`, `PrimInt63.land`, `PrimInt63.lor`, `PrimInt63.lsl`, `PrimInt63.lsr`, `PrimInt63.sub`** (1): `C65_scores_are_numbers_refuted`
* **S, N, F, C, primitives: `FloatAxioms.Prim2SF_SF2Prim`, `FloatAxioms.Prim2SF_valid`, `FloatAxioms.SF2Prim_Prim2SF`, `FloatAxioms.abs_spec`, `FloatAxioms.eqb_spec`, `FloatAxioms.leb_spec`, `FloatAxioms.ltb_spec`, `PrimFloat.abs`, `PrimFloat.div`, `PrimFloat.eqb`, `PrimFloat.float`, `PrimFloat.frshiftexp`, `PrimFloat.ldshiftexp`, `PrimFloat.leb`, `PrimFloat.ltb`, `PrimFloat.normfr_mantissa`, `PrimFloat.of_uint63`, `PrimFloat.opp`, `PrimInt63.eqb`, `PrimInt63.int`, `PrimInt63.land`, `PrimInt63.lor`, `PrimInt63.lsl`, `PrimInt63.lsr`, `PrimInt63.sub`** (4): `C146_maximum`, `C146_minimum`, `C146_running_maximum`, `C146_running_minimum`
* **S, F, primitives: `FloatAxioms.Prim2SF_SF2Prim`, `FloatAxioms.Prim2SF_valid`, `FloatAxioms.SF2Prim_Prim2SF`, `FloatAxioms.abs_spec`, `FloatAxioms.eqb_spec`, `PrimFloat.abs`, `PrimFloat.add`, `PrimFloat.div`, `PrimFloat.eqb`, `PrimFloat.float`, `PrimFloat.frshiftexp`, `PrimFloat.ldshiftexp`, `PrimFloat.leb`, `PrimFloat.ltb`, `PrimFloat.mul`, `PrimFloat.normfr_mantissa`, `PrimFloat.of_uint63`, `PrimFloat.opp`, `PrimFloat.sqrt`, `PrimFloat.sub`, `PrimInt63.eqb`, `PrimInt63.int`, `PrimInt63.land`, `PrimInt63.lor`, `PrimInt63.lsl`, `PrimInt63.lsr`, `PrimInt63.sub`** (1): `C120_relative_error_refuted`
* **S, N, F, C, primitives: `FloatAxioms.Prim2SF_SF2Prim`, `FloatAxioms.Prim2SF_valid`, `FloatAxioms.SF2Prim_Prim2SF`, `FloatAxioms.abs_spec`, `FloatAxioms.add_spec`, `FloatAxioms.eqb_spec`, `PrimFloat.abs`, `PrimFloat.add`, `PrimFloat.div`, `PrimFloat.eqb`, `PrimFloat.float`, `PrimFloat.frshiftexp`, `PrimFloat.ldshiftexp`, `PrimFloat.leb`, `PrimFloat.ltb`, `PrimFloat.mul`, `PrimFloat.normfr_mantissa`, `PrimFloat.of_uint63`, `PrimFloat.opp`, `PrimFloat.sqrt`, `PrimFloat.sub`, `PrimInt63.eqb`, `PrimInt63.int`, `PrimInt63.land`, `PrimInt63.lor`, `PrimInt63.lsl`, `PrimInt63.lsr`, `PrimInt63.sub`** (1): `C95_sum_error`
* **S, N, F, C, primitives: `FloatAxioms.Prim2SF_SF2Prim`, `FloatAxioms.Prim2SF_valid`, `FloatAxioms.SF2Prim_Prim2SF`, `FloatAxioms.abs_spec`, `FloatAxioms.eqb_spec`, `FloatAxioms.ltb_spec`, `PrimFloat.abs`, `PrimFloat.add`, `PrimFloat.div`, `PrimFloat.eqb`, `PrimFloat.float`, `PrimFloat.frshiftexp`, `PrimFloat.ldshiftexp`, `PrimFloat.leb`, `PrimFloat.ltb`, `PrimFloat.mul`, `PrimFloat.normfr_mantissa`, `PrimFloat.of_uint63`, `PrimFloat.opp`, `PrimFloat.sqrt`, `PrimFloat.sub`, `PrimInt63.eqb`, `PrimInt63.int`, `PrimInt63.land`, `PrimInt63.lor`, `PrimInt63.lsl`, `PrimInt63.lsr`, `PrimInt63.sub`** (1): `C95_average_between_extremes_refuted`
* **S, N, F, C, primitives: `FloatAxioms.Prim2SF_SF2Prim`, `FloatAxioms.Prim2SF_valid`, `FloatAxioms.SF2Prim_Prim2SF`, `FloatAxioms.abs_spec`, `FloatAxioms.add_spec`, `FloatAxioms.eqb_spec`, `FloatAxioms.mul_spec`, `PrimFloat.abs`, `PrimFloat.add`, `PrimFloat.div`, `PrimFloat.eqb`, `PrimFloat.float`, `PrimFloat.frshiftexp`, `PrimFloat.ldshiftexp`, `PrimFloat.leb`, `PrimFloat.ltb`, `PrimFloat.mul`, `PrimFloat.normfr_mantissa`, `PrimFloat.of_uint63`, `PrimFloat.opp`, `PrimFloat.sqrt`, `PrimFloat.sub`, `PrimInt63.eqb`, `PrimInt63.int`, `PrimInt63.land`, `PrimInt63.lor`, `PrimInt63.lsl`, `PrimInt63.lsr`, `PrimInt63.sub`** (2): `C144_nan_scores_as_the_last_bin`, `C144_refused`
* **S, N, F, C, primitives: `FloatAxioms.Prim2SF_SF2Prim`, `FloatAxioms.Prim2SF_valid`, `FloatAxioms.SF2Prim_Prim2SF`, `FloatAxioms.abs_spec`, `FloatAxioms.add_spec`, `FloatAxioms.eqb_spec`, `FloatAxioms.sub_spec`, `PrimFloat.abs`, `PrimFloat.add`, `PrimFloat.div`, `PrimFloat.eqb`, `PrimFloat.float`, `PrimFloat.frshiftexp`, `PrimFloat.ldshiftexp`, `PrimFloat.leb`, `PrimFloat.ltb`, `PrimFloat.mul`, `PrimFloat.normfr_mantissa`, `PrimFloat.of_uint63`, `PrimFloat.opp`, `PrimFloat.sqrt`, `PrimFloat.sub`, `PrimInt63.eqb`, `PrimInt63.int`, `PrimInt63.land`, `PrimInt63.lor`, `PrimInt63.lsl`, `PrimInt63.lsr`, `PrimInt63.sub`** (3): `C113_running_sum_drift`, `C95_running_sum_exact_on_integers`, `C95_sum_exact_on_integers`
* **S, N, F, C, primitives: `FloatAxioms.Prim2SF_SF2Prim`, `FloatAxioms.Prim2SF_valid`, `FloatAxioms.SF2Prim_Prim2SF`, `FloatAxioms.abs_spec`, `FloatAxioms.div_spec`, `FloatAxioms.eqb_spec`, `FloatAxioms.ltb_spec`, `PrimFloat.abs`, `PrimFloat.add`, `PrimFloat.div`, `PrimFloat.eqb`, `PrimFloat.float`, `PrimFloat.frshiftexp`, `PrimFloat.ldshiftexp`, `PrimFloat.leb`, `PrimFloat.ltb`, `PrimFloat.mul`, `PrimFloat.normfr_mantissa`, `PrimFloat.of_uint63`, `PrimFloat.opp`, `PrimFloat.sqrt`, `PrimFloat.sub`, `PrimInt63.eqb`, `PrimInt63.int`, `PrimInt63.land`, `PrimInt63.lor`, `PrimInt63.lsl`, `PrimInt63.lsr`, `PrimInt63.sub`** (1): `C137_max_norm_is_exact`
* **S, N, F, C, primitives: `FloatAxioms.Prim2SF_SF2Prim`, `FloatAxioms.Prim2SF_valid`, `FloatAxioms.SF2Prim_Prim2SF`, `FloatAxioms.abs_spec`, `FloatAxioms.add_spec`, `FloatAxioms.div_spec`, `FloatAxioms.eqb_spec`, `FloatAxioms.sub_spec`, `PrimFloat.abs`, `PrimFloat.add`, `PrimFloat.div`, `PrimFloat.eqb`, `PrimFloat.float`, `PrimFloat.frshiftexp`, `PrimFloat.ldshiftexp`, `PrimFloat.leb`, `PrimFloat.ltb`, `PrimFloat.mul`, `PrimFloat.normfr_mantissa`, `PrimFloat.of_uint63`, `PrimFloat.opp`, `PrimFloat.sqrt`, `PrimFloat.sub`, `PrimInt63.eqb`, `PrimInt63.int`, `PrimInt63.land`, `PrimInt63.lor`, `PrimInt63.lsl`, `PrimInt63.lsr`, `PrimInt63.sub`** (2): `C114_postprocessors_never_recover`, `C114_standard_deviation_scores_never_recover`
* **S, N, F, C, primitives: `FloatAxioms.Prim2SF_SF2Prim`, `FloatAxioms.Prim2SF_valid`, `FloatAxioms.SF2Prim_Prim2SF`, `FloatAxioms.abs_spec`, `FloatAxioms.add_spec`, `FloatAxioms.div_spec`, `FloatAxioms.eqb_spec`, `FloatAxioms.mul_spec`, `FloatAxioms.sqrt_spec`, `PrimFloat.abs`, `PrimFloat.add`, `PrimFloat.div`, `PrimFloat.eqb`, `PrimFloat.float`, `PrimFloat.frshiftexp`, `PrimFloat.ldshiftexp`, `PrimFloat.leb`, `PrimFloat.ltb`, `PrimFloat.mul`, `PrimFloat.normfr_mantissa`, `PrimFloat.of_uint63`, `PrimFloat.opp`, `PrimFloat.sqrt`, `PrimFloat.sub`, `PrimInt63.eqb`, `PrimInt63.int`, `PrimInt63.land`, `PrimInt63.lor`, `PrimInt63.lsl`, `PrimInt63.lsr`, `PrimInt63.sub`** (1): `C137_unit_norm_is_accurate`
* **S, N, F, C, primitives: `FloatAxioms.Prim2SF_SF2Prim`, `FloatAxioms.Prim2SF_valid`, `FloatAxioms.SF2Prim_Prim2SF`, `FloatAxioms.abs_spec`, `FloatAxioms.add_spec`, `FloatAxioms.div_spec`, `FloatAxioms.eqb_spec`, `FloatAxioms.mul_spec`, `FloatAxioms.sub_spec`, `PrimFloat.abs`, `PrimFloat.add`, `PrimFloat.div`, `PrimFloat.eqb`, `PrimFloat.float`, `PrimFloat.frshiftexp`, `PrimFloat.ldshiftexp`, `PrimFloat.leb`, `PrimFloat.ltb`, `PrimFloat.mul`, `PrimFloat.normfr_mantissa`, `PrimFloat.of_uint63`, `PrimFloat.opp`, `PrimFloat.sqrt`, `PrimFloat.sub`, `PrimInt63.eqb`, `PrimInt63.int`, `PrimInt63.land`, `PrimInt63.lor`, `PrimInt63.lsl`, `PrimInt63.lsr`, `PrimInt63.sub`** (2): `C114_running_statistics_never_recover`, `C114_statistics_never_recover`
* **S, N, F, C, primitives: `FloatAxioms.Prim2SF_SF2Prim`, `FloatAxioms.Prim2SF_valid`, `FloatAxioms.SF2Prim_Prim2SF`, `FloatAxioms.abs_spec`, `FloatAxioms.div_spec`, `FloatAxioms.eqb_spec`, `FloatAxioms.of_uint63_spec`, `FloatAxioms.opp_spec`, `PrimFloat.abs`, `PrimFloat.div`, `PrimFloat.eqb`, `PrimFloat.float`, `PrimFloat.frshiftexp`, `PrimFloat.ldshiftexp`, `PrimFloat.ltb`, `PrimFloat.normfr_mantissa`, `PrimFloat.of_uint63`, `PrimFloat.opp`, `PrimInt63.add`, `PrimInt63.eqb`, `PrimInt63.int`, `PrimInt63.land`, `PrimInt63.leb`, `PrimInt63.lor`, `PrimInt63.lsl`, `PrimInt63.lsr`, `PrimInt63.ltb`, `PrimInt63.sub`, `Uint63.add_spec`, `Uint63.eqb_correct`, `Uint63.eqb_refl`, `Uint63.leb_spec`, `Uint63.lor_spec`, `Uint63.lsl_spec`, `Uint63.lsr_spec`, `Uint63.ltb_spec`, `Uint63.of_to_Z`, `Uint63.sub_spec`** (1): `C132_knncad`
* **S, N, F, C, primitives: `FloatAxioms.Prim2SF_SF2Prim`, `FloatAxioms.Prim2SF_valid`, `FloatAxioms.SF2Prim_Prim2SF`, `FloatAxioms.abs_spec`, `FloatAxioms.eqb_spec`, `FloatAxioms.of_uint63_spec`, `FloatAxioms.opp_spec`, `PrimFloat.abs`, `PrimFloat.add`, `PrimFloat.div`, `PrimFloat.eqb`, `PrimFloat.float`, `PrimFloat.frshiftexp`, `PrimFloat.ldshiftexp`, `PrimFloat.ltb`, `PrimFloat.normfr_mantissa`, `PrimFloat.of_uint63`, `PrimFloat.opp`, `PrimInt63.add`, `PrimInt63.eqb`, `PrimInt63.int`, `PrimInt63.land`, `PrimInt63.leb`, `PrimInt63.lor`, `PrimInt63.lsl`, `PrimInt63.lsr`, `PrimInt63.ltb`, `PrimInt63.sub`, `Uint63.add_spec`, `Uint63.eqb_correct`, `Uint63.eqb_refl`, `Uint63.leb_spec`, `Uint63.lor_spec`, `Uint63.lsl_spec`, `Uint63.lsr_spec`, `Uint63.ltb_spec`, `Uint63.of_to_Z`, `Uint63.sub_spec`** (1): `C135_progress_refuted`
* **S, N, F, C, primitives: `FloatAxioms.Prim2SF_SF2Prim`, `FloatAxioms.Prim2SF_valid`, `FloatAxioms.SF2Prim_Prim2SF`, `FloatAxioms.abs_spec`, `FloatAxioms.div_spec`, `FloatAxioms.eqb_spec`, `FloatAxioms.of_uint63_spec`, `FloatAxioms.opp_spec`, `PrimFloat.abs`, `PrimFloat.div`, `PrimFloat.eqb`, `PrimFloat.float`, `PrimFloat.frshiftexp`, `PrimFloat.ldshiftexp`, `PrimFloat.ltb`, `PrimFloat.mul`, `PrimFloat.normfr_mantissa`, `PrimFloat.of_uint63`, `PrimFloat.opp`, `PrimInt63.add`, `PrimInt63.eqb`, `PrimInt63.int`, `PrimInt63.land`, `PrimInt63.leb`, `PrimInt63.lor`, `PrimInt63.lsl`, `PrimInt63.lsr`, `PrimInt63.ltb`, `PrimInt63.sub`, `Uint63.add_spec`, `Uint63.eqb_correct`, `Uint63.eqb_refl`, `Uint63.leb_spec`, `Uint63.lor_spec`, `Uint63.lsl_spec`, `Uint63.lsr_spec`, `Uint63.ltb_spec`, `Uint63.of_to_Z`, `Uint63.sub_spec`** (1): `C132_hidden_share_refuted`
* **S, N, F, C, primitives: `FloatAxioms.Prim2SF_SF2Prim`, `FloatAxioms.Prim2SF_valid`, `FloatAxioms.SF2Prim_Prim2SF`, `FloatAxioms.abs_spec`, `FloatAxioms.eqb_spec`, `FloatAxioms.mul_spec`, `FloatAxioms.of_uint63_spec`, `FloatAxioms.opp_spec`, `PrimFloat.abs`, `PrimFloat.div`, `PrimFloat.eqb`, `PrimFloat.float`, `PrimFloat.frshiftexp`, `PrimFloat.ldshiftexp`, `PrimFloat.ltb`, `PrimFloat.mul`, `PrimFloat.normfr_mantissa`, `PrimFloat.of_uint63`, `PrimFloat.opp`, `PrimInt63.add`, `PrimInt63.eqb`, `PrimInt63.int`, `PrimInt63.land`, `PrimInt63.leb`, `PrimInt63.lor`, `PrimInt63.lsl`, `PrimInt63.lsr`, `PrimInt63.ltb`, `PrimInt63.sub`, `Uint63.add_spec`, `Uint63.eqb_correct`, `Uint63.eqb_refl`, `Uint63.leb_spec`, `Uint63.lor_spec`, `Uint63.lsl_spec`, `Uint63.lsr_spec`, `Uint63.ltb_spec`, `Uint63.of_to_Z`, `Uint63.sub_spec`** (3): `C132_hidden_default`, `C132_hidden_range`, `C132_sesd_limit`
* **S, N, F, C, primitives: `FloatAxioms.Prim2SF_SF2Prim`, `FloatAxioms.Prim2SF_valid`, `FloatAxioms.SF2Prim_Prim2SF`, `FloatAxioms.abs_spec`, `FloatAxioms.eqb_spec`, `FloatAxioms.of_uint63_spec`, `FloatAxioms.opp_spec`, `PrimFloat.abs`, `PrimFloat.add`, `PrimFloat.div`, `PrimFloat.eqb`, `PrimFloat.float`, `PrimFloat.frshiftexp`, `PrimFloat.ldshiftexp`, `PrimFloat.leb`, `PrimFloat.ltb`, `PrimFloat.mul`, `PrimFloat.normfr_mantissa`, `PrimFloat.of_uint63`, `PrimFloat.opp`, `PrimFloat.sqrt`, `PrimFloat.sub`, `PrimInt63.add`, `PrimInt63.eqb`, `PrimInt63.int`, `PrimInt63.land`, `PrimInt63.leb`, `PrimInt63.lor`, `PrimInt63.lsl`, `PrimInt63.lsr`, `PrimInt63.ltb`, `PrimInt63.sub`, `Uint63.add_spec`, `Uint63.eqb_correct`, `Uint63.eqb_refl`, `Uint63.leb_spec`, `Uint63.lor_spec`, `Uint63.lsl_spec`, `Uint63.lsr_spec`, `Uint63.ltb_spec`, `Uint63.of_to_Z`, `Uint63.sub_spec`** (2): `C120_never_negative_refuted`, `C120_zscore_shift_refuted`
* **S, N, F, C, primitives: `FloatAxioms.Prim2SF_SF2Prim`, `FloatAxioms.Prim2SF_valid`, `FloatAxioms.SF2Prim_Prim2SF`, `FloatAxioms.abs_spec`, `FloatAxioms.add_spec`, `FloatAxioms.eqb_spec`, `FloatAxioms.of_uint63_spec`, `FloatAxioms.opp_spec`, `PrimFloat.abs`, `PrimFloat.add`, `PrimFloat.div`, `PrimFloat.eqb`, `PrimFloat.float`, `PrimFloat.frshiftexp`, `PrimFloat.ldshiftexp`, `PrimFloat.leb`, `PrimFloat.ltb`, `PrimFloat.mul`, `PrimFloat.normfr_mantissa`, `PrimFloat.of_uint63`, `PrimFloat.opp`, `PrimFloat.sqrt`, `PrimFloat.sub`, `PrimInt63.add`, `PrimInt63.eqb`, `PrimInt63.int`, `PrimInt63.land`, `PrimInt63.leb`, `PrimInt63.lor`, `PrimInt63.lsl`, `PrimInt63.lsr`, `PrimInt63.ltb`, `PrimInt63.sub`, `Uint63.add_spec`, `Uint63.eqb_correct`, `Uint63.eqb_refl`, `Uint63.leb_spec`, `Uint63.lor_spec`, `Uint63.lsl_spec`, `Uint63.lsr_spec`, `Uint63.ltb_spec`, `Uint63.of_to_Z`, `Uint63.sub_spec`** (1): `C135_scores_are_exact`
* **S, N, F, C, primitives: `FloatAxioms.Prim2SF_SF2Prim`, `FloatAxioms.Prim2SF_valid`, `FloatAxioms.SF2Prim_Prim2SF`, `FloatAxioms.abs_spec`, `FloatAxioms.div_spec`, `FloatAxioms.eqb_spec`, `FloatAxioms.of_uint63_spec`, `FloatAxioms.opp_spec`, `PrimFloat.abs`, `PrimFloat.add`, `PrimFloat.div`, `PrimFloat.eqb`, `PrimFloat.float`, `PrimFloat.frshiftexp`, `PrimFloat.ldshiftexp`, `PrimFloat.leb`, `PrimFloat.ltb`, `PrimFloat.mul`, `PrimFloat.normfr_mantissa`, `PrimFloat.of_uint63`, `PrimFloat.opp`, `PrimFloat.sqrt`, `PrimFloat.sub`, `PrimInt63.add`, `PrimInt63.eqb`, `PrimInt63.int`, `PrimInt63.land`, `PrimInt63.leb`, `PrimInt63.lor`, `PrimInt63.lsl`, `PrimInt63.lsr`, `PrimInt63.ltb`, `PrimInt63.sub`, `Uint63.add_spec`, `Uint63.eqb_correct`, `Uint63.eqb_refl`, `Uint63.leb_spec`, `Uint63.lor_spec`, `Uint63.lsl_spec`, `Uint63.lsr_spec`, `Uint63.ltb_spec`, `Uint63.of_to_Z`, `Uint63.sub_spec`** (4): `C113_errors_leave_the_window_refuted`, `C96_conformal_correctly_rounded`, `C96_conformal_order_faithful`, `C96_exact_storm_correctly_rounded`
* **S, N, F, C, primitives: `FloatAxioms.Prim2SF_SF2Prim`, `FloatAxioms.Prim2SF_valid`, `FloatAxioms.SF2Prim_Prim2SF`, `FloatAxioms.abs_spec`, `FloatAxioms.eqb_spec`, `FloatAxioms.mul_spec`, `FloatAxioms.of_uint63_spec`, `FloatAxioms.opp_spec`, `PrimFloat.abs`, `PrimFloat.add`, `PrimFloat.div`, `PrimFloat.eqb`, `PrimFloat.float`, `PrimFloat.frshiftexp`, `PrimFloat.ldshiftexp`, `PrimFloat.leb`, `PrimFloat.ltb`, `PrimFloat.mul`, `PrimFloat.normfr_mantissa`, `PrimFloat.of_uint63`, `PrimFloat.opp`, `PrimFloat.sqrt`, `PrimFloat.sub`, `PrimInt63.add`, `PrimInt63.eqb`, `PrimInt63.int`, `PrimInt63.land`, `PrimInt63.leb`, `PrimInt63.lor`, `PrimInt63.lsl`, `PrimInt63.lsr`, `PrimInt63.ltb`, `PrimInt63.sub`, `Uint63.add_spec`, `Uint63.eqb_correct`, `Uint63.eqb_refl`, `Uint63.leb_spec`, `Uint63.lor_spec`, `Uint63.lsl_spec`, `Uint63.lsr_spec`, `Uint63.ltb_spec`, `Uint63.of_to_Z`, `Uint63.sub_spec`** (1): `C132_sesd_constructor`
* **S, N, F, C, primitives: `FloatAxioms.Prim2SF_SF2Prim`, `FloatAxioms.Prim2SF_valid`, `FloatAxioms.SF2Prim_Prim2SF`, `FloatAxioms.abs_spec`, `FloatAxioms.add_spec`, `FloatAxioms.div_spec`, `FloatAxioms.eqb_spec`, `FloatAxioms.of_uint63_spec`, `FloatAxioms.opp_spec`, `PrimFloat.abs`, `PrimFloat.add`, `PrimFloat.div`, `PrimFloat.eqb`, `PrimFloat.float`, `PrimFloat.frshiftexp`, `PrimFloat.ldshiftexp`, `PrimFloat.leb`, `PrimFloat.ltb`, `PrimFloat.mul`, `PrimFloat.normfr_mantissa`, `PrimFloat.of_uint63`, `PrimFloat.opp`, `PrimFloat.sqrt`, `PrimFloat.sub`, `PrimInt63.add`, `PrimInt63.eqb`, `PrimInt63.int`, `PrimInt63.land`, `PrimInt63.leb`, `PrimInt63.lor`, `PrimInt63.lsl`, `PrimInt63.lsr`, `PrimInt63.ltb`, `PrimInt63.sub`, `Uint63.add_spec`, `Uint63.eqb_correct`, `Uint63.eqb_refl`, `Uint63.leb_spec`, `Uint63.lor_spec`, `Uint63.lsl_spec`, `Uint63.lsr_spec`, `Uint63.ltb_spec`, `Uint63.of_to_Z`, `Uint63.sub_spec`** (2): `C135_cuts_stay_inside`, `C95_average_error`
* **S, N, F, C, primitives: `FloatAxioms.Prim2SF_SF2Prim`, `FloatAxioms.Prim2SF_valid`, `FloatAxioms.SF2Prim_Prim2SF`, `FloatAxioms.abs_spec`, `FloatAxioms.div_spec`, `FloatAxioms.eqb_spec`, `FloatAxioms.leb_spec`, `FloatAxioms.of_uint63_spec`, `FloatAxioms.opp_spec`, `PrimFloat.abs`, `PrimFloat.add`, `PrimFloat.div`, `PrimFloat.eqb`, `PrimFloat.float`, `PrimFloat.frshiftexp`, `PrimFloat.ldshiftexp`, `PrimFloat.leb`, `PrimFloat.ltb`, `PrimFloat.mul`, `PrimFloat.normfr_mantissa`, `PrimFloat.of_uint63`, `PrimFloat.opp`, `PrimFloat.sqrt`, `PrimFloat.sub`, `PrimInt63.add`, `PrimInt63.eqb`, `PrimInt63.int`, `PrimInt63.land`, `PrimInt63.leb`, `PrimInt63.lor`, `PrimInt63.lsl`, `PrimInt63.lsr`, `PrimInt63.ltb`, `PrimInt63.sub`, `Uint63.add_spec`, `Uint63.eqb_correct`, `Uint63.eqb_refl`, `Uint63.leb_spec`, `Uint63.lor_spec`, `Uint63.lsl_spec`, `Uint63.lsr_spec`, `Uint63.ltb_spec`, `Uint63.of_to_Z`, `Uint63.sub_spec`** (1): `C132_streamhash`
* **S, N, F, C, primitives: `FloatAxioms.Prim2SF_SF2Prim`, `FloatAxioms.Prim2SF_valid`, `FloatAxioms.SF2Prim_Prim2SF`, `FloatAxioms.abs_spec`, `FloatAxioms.div_spec`, `FloatAxioms.eqb_spec`, `FloatAxioms.ltb_spec`, `FloatAxioms.of_uint63_spec`, `FloatAxioms.opp_spec`, `PrimFloat.abs`, `PrimFloat.add`, `PrimFloat.div`, `PrimFloat.eqb`, `PrimFloat.float`, `PrimFloat.frshiftexp`, `PrimFloat.ldshiftexp`, `PrimFloat.leb`, `PrimFloat.ltb`, `PrimFloat.mul`, `PrimFloat.normfr_mantissa`, `PrimFloat.of_uint63`, `PrimFloat.opp`, `PrimFloat.sqrt`, `PrimFloat.sub`, `PrimInt63.add`, `PrimInt63.eqb`, `PrimInt63.int`, `PrimInt63.land`, `PrimInt63.leb`, `PrimInt63.lor`, `PrimInt63.lsl`, `PrimInt63.lsr`, `PrimInt63.ltb`, `PrimInt63.sub`, `Uint63.add_spec`, `Uint63.eqb_correct`, `Uint63.eqb_refl`, `Uint63.leb_spec`, `Uint63.lor_spec`, `Uint63.lsl_spec`, `Uint63.lsr_spec`, `Uint63.ltb_spec`, `Uint63.of_to_Z`, `Uint63.sub_spec`** (1): `C96_conformal_antitone`
* **S, N, F, C, primitives: `FloatAxioms.Prim2SF_SF2Prim`, `FloatAxioms.Prim2SF_valid`, `FloatAxioms.SF2Prim_Prim2SF`, `FloatAxioms.abs_spec`, `FloatAxioms.add_spec`, `FloatAxioms.div_spec`, `FloatAxioms.eqb_spec`, `FloatAxioms.mul_spec`, `FloatAxioms.of_uint63_spec`, `FloatAxioms.opp_spec`, `PrimFloat.abs`, `PrimFloat.add`, `PrimFloat.div`, `PrimFloat.eqb`, `PrimFloat.float`, `PrimFloat.frshiftexp`, `PrimFloat.ldshiftexp`, `PrimFloat.leb`, `PrimFloat.ltb`, `PrimFloat.mul`, `PrimFloat.normfr_mantissa`, `PrimFloat.of_uint63`, `PrimFloat.opp`, `PrimFloat.sqrt`, `PrimFloat.sub`, `PrimInt63.add`, `PrimInt63.eqb`, `PrimInt63.int`, `PrimInt63.land`, `PrimInt63.leb`, `PrimInt63.lor`, `PrimInt63.lsl`, `PrimInt63.lsr`, `PrimInt63.ltb`, `PrimInt63.sub`, `Uint63.add_spec`, `Uint63.eqb_correct`, `Uint63.eqb_refl`, `Uint63.leb_spec`, `Uint63.lor_spec`, `Uint63.lsl_spec`, `Uint63.lsr_spec`, `Uint63.ltb_spec`, `Uint63.of_to_Z`, `Uint63.sub_spec`** (1): `C144_only_refused`
* **S, N, F, C, primitives: `FloatAxioms.Prim2SF_SF2Prim`, `FloatAxioms.Prim2SF_valid`, `FloatAxioms.SF2Prim_Prim2SF`, `FloatAxioms.abs_spec`, `FloatAxioms.add_spec`, `FloatAxioms.div_spec`, `FloatAxioms.eqb_spec`, `FloatAxioms.of_uint63_spec`, `FloatAxioms.opp_spec`, `FloatAxioms.sub_spec`, `PrimFloat.abs`, `PrimFloat.add`, `PrimFloat.div`, `PrimFloat.eqb`, `PrimFloat.float`, `PrimFloat.frshiftexp`, `PrimFloat.ldshiftexp`, `PrimFloat.leb`, `PrimFloat.ltb`, `PrimFloat.mul`, `PrimFloat.normfr_mantissa`, `PrimFloat.of_uint63`, `PrimFloat.opp`, `PrimFloat.sqrt`, `PrimFloat.sub`, `PrimInt63.add`, `PrimInt63.eqb`, `PrimInt63.int`, `PrimInt63.land`, `PrimInt63.leb`, `PrimInt63.lor`, `PrimInt63.lsl`, `PrimInt63.lsr`, `PrimInt63.ltb`, `PrimInt63.sub`, `Uint63.add_spec`, `Uint63.eqb_correct`, `Uint63.eqb_refl`, `Uint63.leb_spec`, `Uint63.lor_spec`, `Uint63.lsl_spec`, `Uint63.lsr_spec`, `Uint63.ltb_spec`, `Uint63.of_to_Z`, `Uint63.sub_spec`** (3): `C113_running_average_drift`, `C95_average_exact_on_integers`, `C95_running_average_exact_on_integers`
* **S, N, F, C, primitives: `FloatAxioms.Prim2SF_SF2Prim`, `FloatAxioms.Prim2SF_valid`, `FloatAxioms.SF2Prim_Prim2SF`, `FloatAxioms.abs_spec`, `FloatAxioms.add_spec`, `FloatAxioms.div_spec`, `FloatAxioms.eqb_spec`, `FloatAxioms.mul_spec`, `FloatAxioms.of_uint63_spec`, `FloatAxioms.opp_spec`, `FloatAxioms.sub_spec`, `PrimFloat.abs`, `PrimFloat.add`, `PrimFloat.div`, `PrimFloat.eqb`, `PrimFloat.float`, `PrimFloat.frshiftexp`, `PrimFloat.ldshiftexp`, `PrimFloat.leb`, `PrimFloat.ltb`, `PrimFloat.mul`, `PrimFloat.normfr_mantissa`, `PrimFloat.of_uint63`, `PrimFloat.opp`, `PrimFloat.sqrt`, `PrimFloat.sub`, `PrimInt63.add`, `PrimInt63.eqb`, `PrimInt63.int`, `PrimInt63.land`, `PrimInt63.leb`, `PrimInt63.lor`, `PrimInt63.lsl`, `PrimInt63.lsr`, `PrimInt63.ltb`, `PrimInt63.sub`, `Uint63.add_spec`, `Uint63.eqb_correct`, `Uint63.eqb_refl`, `Uint63.leb_spec`, `Uint63.lor_spec`, `Uint63.lsl_spec`, `Uint63.lsr_spec`, `Uint63.ltb_spec`, `Uint63.of_to_Z`, `Uint63.sub_spec`** (3): `C120_integers`, `C120_running_variance`, `C120_variance_error`
* **S, N, F, C, primitives: `FloatAxioms.Prim2SF_SF2Prim`, `FloatAxioms.Prim2SF_valid`, `FloatAxioms.SF2Prim_Prim2SF`, `FloatAxioms.abs_spec`, `FloatAxioms.add_spec`, `FloatAxioms.div_spec`, `FloatAxioms.eqb_spec`, `FloatAxioms.ltb_spec`, `FloatAxioms.mul_spec`, `FloatAxioms.of_uint63_spec`, `FloatAxioms.opp_spec`, `FloatAxioms.sub_spec`, `PrimFloat.abs`, `PrimFloat.add`, `PrimFloat.div`, `PrimFloat.eqb`, `PrimFloat.float`, `PrimFloat.frshiftexp`, `PrimFloat.ldshiftexp`, `PrimFloat.leb`, `PrimFloat.ltb`, `PrimFloat.mul`, `PrimFloat.normfr_mantissa`, `PrimFloat.of_uint63`, `PrimFloat.opp`, `PrimFloat.sqrt`, `PrimFloat.sub`, `PrimInt63.add`, `PrimInt63.eqb`, `PrimInt63.int`, `PrimInt63.land`, `PrimInt63.leb`, `PrimInt63.lor`, `PrimInt63.lsl`, `PrimInt63.lsr`, `PrimInt63.ltb`, `PrimInt63.sub`, `Uint63.add_spec`, `Uint63.eqb_correct`, `Uint63.eqb_refl`, `Uint63.leb_spec`, `Uint63.lor_spec`, `Uint63.lsl_spec`, `Uint63.lsr_spec`, `Uint63.ltb_spec`, `Uint63.of_to_Z`, `Uint63.sub_spec`** (1): `C122_storm`
* **S, N, F, C, primitives: `FloatAxioms.Prim2SF_SF2Prim`, `FloatAxioms.Prim2SF_valid`, `FloatAxioms.SF2Prim_Prim2SF`, `FloatAxioms.abs_spec`, `FloatAxioms.add_spec`, `FloatAxioms.div_spec`, `FloatAxioms.eqb_spec`, `FloatAxioms.mul_spec`, `FloatAxioms.of_uint63_spec`, `FloatAxioms.opp_spec`, `FloatAxioms.sqrt_spec`, `FloatAxioms.sub_spec`, `PrimFloat.abs`, `PrimFloat.add`, `PrimFloat.div`, `PrimFloat.eqb`, `PrimFloat.float`, `PrimFloat.frshiftexp`, `PrimFloat.ldshiftexp`, `PrimFloat.leb`, `PrimFloat.ltb`, `PrimFloat.mul`, `PrimFloat.normfr_mantissa`, `PrimFloat.of_uint63`, `PrimFloat.opp`, `PrimFloat.sqrt`, `PrimFloat.sub`, `PrimInt63.add`, `PrimInt63.eqb`, `PrimInt63.int`, `PrimInt63.land`, `PrimInt63.leb`, `PrimInt63.lor`, `PrimInt63.lsl`, `PrimInt63.lsr`, `PrimInt63.ltb`, `PrimInt63.sub`, `Uint63.add_spec`, `Uint63.eqb_correct`, `Uint63.eqb_refl`, `Uint63.leb_spec`, `Uint63.lor_spec`, `Uint63.lsl_spec`, `Uint63.lsr_spec`, `Uint63.ltb_spec`, `Uint63.of_to_Z`, `Uint63.sub_spec`** (1): `C137_constant_whole_numbers`
