# ---------------------------------------------------------------- utils
prop("C01", "Window keeps exactly the most recent items",
 "After any sequence of update(x) calls on Window(w), get() is the list of the last w pushed items in arrival order (all of them if fewer than w were pushed, none if w <= 0).",
 "every window size (any integer) and every finite sequence of updates of any items",
 "A test fixes one w and one stream; the boundary between 'not yet full' and 'full' and the eviction order must be right for every length and every w.",
 ["pysad/utils/window.py:Window.update", "pysad/utils/window.py:Window.get"])
prop("C02", "UnlimitedWindow never forgets",
 "After any sequence of updates, UnlimitedWindow.get() is exactly the pushed items in arrival order.",
 "every finite sequence of updates", "Needs induction over the history length.",
 ["pysad/utils/window.py:UnlimitedWindow.update"])
prop("C03", "A list obtained from Window.get() is live until the next overflow and frozen afterwards",
 "get() returns the window's own list object, not a copy: later updates are appended to that very list up to and including the first update that overflows the window, and no update after that one changes it. In particular the list returned by get() is not a snapshot.",
 "every window size, every history before get() and every history after it",
 "An aliasing statement about all future operations; tests compare values at one instant.",
 ["pysad/utils/window.py:Window.update", "pysad/utils/window.py:Window.get"])
prop("C04", "ArrayStreamer (shuffle=False) yields every instance once, in order, with its own label",
 "iter(X) yields X[0..n-1] in order; iter(X, y) yields (X[i], y[i]) in order; if len(X) != len(y) an AssertionError is raised before anything is yielded.",
 "all arrays and label arrays of any lengths", "Lengths are unbounded.",
 ["pysad/utils/array_streamer.py:ArrayStreamer.iter", "pysad/utils/__init__.py:_iterate"])
prop("C05", "ArrayStreamer (shuffle=True) yields a permutation of the (instance, label) pairs",
 "Whatever the random generator draws, the shuffled stream is a permutation of the instances in which each instance keeps its own label, and every permutation is produced by some sequence of draws.",
 "all arrays, all random draws", "The space of draws is factorial in the array length.",
 ["pysad/utils/array_streamer.py:ArrayStreamer.iter"])
prop("C06", "PandasStreamer streams exactly what ArrayStreamer streams for the frame's rows",
 "For data frames X, y, PandasStreamer.iter yields the same sequence (or the same AssertionError) as ArrayStreamer.iter on their rows.",
 "all frames, with and without labels, all random draws", "Unbounded inputs and all draws.",
 ["pysad/utils/pandas_streamer.py:PandasStreamer.iter"])
prop("C07", "Data.get_data splits a text file into features and last-column labels",
 "For a comma-separated file with at least two rows and at least two columns, X is every row without its last column and y is the last column, so no value is lost, duplicated or moved; a file with a single row or a single column is rejected with IndexError. get_iterator streams these labelled rows in file order without shuffling, and with shuffling in an order that can be any permutation of the rows and loses none.",
 "every numeric table and every outcome of the shuffle", "All table shapes, including the degenerate ones where numpy.loadtxt squeezes a dimension.",
 ["pysad/utils/data.py:Data.get_data", "pysad/utils/data.py:Data._load_via_txt", "pysad/utils/data.py:Data.get_iterator"])
prop("C08", "get_minmax_array / get_minmax_scalar return tight bounds",
 "For a non-empty array the returned minimum and maximum bound every element of the column (of the array) and are themselves elements of it; an empty array raises ValueError.",
 "all arrays of any shape", "Universal over sizes and values.",
 ["pysad/utils/__init__.py:get_minmax_array", "pysad/utils/__init__.py:get_minmax_scalar"])
# ---------------------------------------------------------------- core
prop("C09", "BaseModel.fit is fit_partial on each instance in order",
 "fit(X, y) leaves the model in the state reached by calling fit_partial on each instance in order; fitting in two batches equals fitting once; when some fit_partial raises, the exception propagates and exactly the earlier instances have been fitted.",
 "every model class, every state, every batch, every split, every failure position",
 "Quantifies over all user-defined models, batch splits and failure points.",
 ["pysad/core/base_model.py:BaseModel.fit"])
prop("C10", "fit_score is causal: score i depends only on the first i instances",
 "fit_score returns one score per instance; score i is what fit_score_partial returns after the first i-1 instances; appending instances never changes earlier scores.",
 "every model class, every stream and every extension of it", "Prefix-closure over all streams.",
 ["pysad/core/base_model.py:BaseModel.fit_score", "pysad/core/base_model.py:BaseModel.fit_score_partial"])
prop("C11", "score unwraps one-element scores and rejects longer ones",
 "score(X) calls score_partial once per row in order; a scalar or a one-element array result is stored as that number; a result with zero or several elements raises ValueError; a model whose score_partial does not mutate is left unchanged and each score depends only on its own row.",
 "every model class, every batch", "All models and all batches.",
 ["pysad/core/base_model.py:BaseModel.score"])
prop("C12", "BasePostprocessor.fit / transform / fit_transform are in-order lifts of the partial methods",
 "fit folds fit_partial, transform maps transform_partial, fit_transform performs fit_partial then transform_partial per score in order, one output per input, causal.",
 "every postprocessor class, every score stream", "All classes and streams.",
 ["pysad/core/base_postprocessor.py:BasePostprocessor"])
prop("C13", "BaseTransformer.fit hands (x, None) tuples to fit_partial",
 "fit(X) does not call fit_partial with the instances but with the pair (instance, None). For every shipped transformer the effect is nevertheless the same as fitting each instance in order; for a transformer whose fit_partial uses its argument as an array it is not.",
 "every shipped transformer class and every batch; existence of a failing user-defined transformer",
 "Shipped tests only call fit on the classes that happen to cope.",
 ["pysad/core/base_transformer.py:BaseTransformer.fit"])
prop("C14", "BaseTransformer.transform output shape",
 "transform / fit_transform return one row per input row with output_dims columns (the input width when output_dims <= 0); output_dims='auto' raises TypeError; a 1-D input with output_dims <= 0 raises IndexError; an inner result whose length is neither 1 nor the output width raises ValueError.",
 "every transformer, every input shape", "All shapes.",
 ["pysad/core/base_transformer.py:BaseTransformer.transform", "pysad/core/base_transformer.py:BaseTransformer.fit_transform"])
# ---------------------------------------------------------------- statistics
prop("C15", "CountMeter, SumMeter and SumSquaresMeter equal their definition over the current multiset",
 "After any interleaving of update and remove where each removed value is currently present, get() is the number / the sum / the sum of squares of the values updated and not removed.",
 "every valid interleaving of updates and removes (exact arithmetic)", "All interleavings.",
 ["pysad/statistics/count_meter.py:CountMeter", "pysad/statistics/sum_meter.py:SumMeter", "pysad/statistics/sum_squares_meter.py:SumSquaresMeter"])
prop("C16", "AverageMeter.get() is the mean of the current multiset",
 "After any valid interleaving leaving at least one value, get() is their arithmetic mean (between their minimum and maximum); with none left it raises ZeroDivisionError.",
 "every valid interleaving of updates and removes (exact arithmetic)", "All interleavings.",
 ["pysad/statistics/average_meter.py:AverageMeter"])
prop("C17", "VarianceMeter.get() is the population variance of the current multiset",
 "After any valid interleaving leaving at least one value, get() is the mean of the squared deviations from the mean; hence it is >= 0, and 0 exactly when all current values are equal; with none left it raises ZeroDivisionError.",
 "every valid interleaving of updates and removes (exact arithmetic)", "All interleavings; the code uses the shortcut formula, not the definition.",
 ["pysad/statistics/variance_meter.py:VarianceMeter"])
prop("C18", "MaxMeter and MinMeter track the extreme of the current multiset",
 "After any valid interleaving leaving at least one value, get() is an element of the current multiset that bounds all of it; with none left it is -inf / +inf.",
 "every valid interleaving over any totally ordered values", "All interleavings; the tracked value, the heap list and the removals interact.",
 ["pysad/statistics/max_meter.py:MaxMeter", "pysad/statistics/min_meter.py:MinMeter"])
prop("C19", "MedianMeter.get() is the median of the current multiset",
 "After any valid interleaving, with get() calls interspersed anywhere, get() returns the middle element of the sorted current values (mean of the two middle ones for an even count); with none left it raises IndexError.",
 "every valid interleaving of update, remove and get", "All interleavings; get() re-sorts the internal list in place.",
 ["pysad/statistics/median_meter.py:MedianMeter"])
prop("C20", "AbsStatistic is the absolute value of the wrapped statistic on every history",
 "For every wrapped statistic and every history, AbsStatistic.get() is abs of what the wrapped statistic would return, and raises whenever it would raise.",
 "every statistic class and every history", "All wrapped classes.",
 ["pysad/statistics/abs_statistic.py:AbsStatistic"])
prop("C21", "remove undoes update",
 "For every meter, update(x) immediately or later followed by remove(x) leaves a meter that answers every future history exactly like one that never saw x; removing a value that is not present raises ValueError in MaxMeter, MinMeter and MedianMeter and changes nothing.",
 "every meter, every history, every value and every continuation", "Observational equivalence over all continuations.",
 ["pysad/statistics"])
prop("C22", "RunningStatistic equals a fresh statistic fed only the last window_size values",
 "For every shipped meter and every window size >= 1, after any stream the windowed statistic's get() is what a fresh meter returns when updated with only the last window_size values.",
 "every shipped meter, every window size, every stream (exact arithmetic)", "All streams and sizes.",
 ["pysad/statistics/running_statistic.py:RunningStatistic"])
prop("C23", "Meters do not depend on arrival order",
 "For every meter, feeding a permutation of the same values gives the same get().",
 "all value lists and all their permutations (exact arithmetic)", "Factorially many orders.",
 ["pysad/statistics"])
prop("C24", "Exactness of the running sums does not survive binary64 rounding",
 "On IEEE-754 doubles the property C22 fails for AverageMeter and SumMeter: there is a stream for which RunningStatistic(AverageMeter, 1) differs from the value just pushed by 100%.",
 "existence, on binary64", "An exact-arithmetic proof could hide this; a random test will not hit catastrophic absorption.",
 ["pysad/statistics/running_statistic.py:RunningStatistic.update", "pysad/statistics/average_meter.py:AverageMeter.remove"])
prop("C25", "VarianceMeter can return a negative number on binary64",
 "On IEEE-754 doubles there are streams of finite equal values for which VarianceMeter.get() < 0, so ZScorePostprocessor returns NaN on them.",
 "existence, on binary64", "Depends on rounding of specific inputs.",
 ["pysad/statistics/variance_meter.py:VarianceMeter.get"])
prop("C26", "RunningStatistic forwards its keyword arguments to the wrapped class (refuted)",
 "The documentation says **kwargs are input to statistic_cls; in fact any keyword argument makes the constructor raise TypeError, so AbsStatistic (whose own class argument is mandatory) can never be windowed.",
 "every keyword list", "A constructor-level contract for all arguments.",
 ["pysad/statistics/running_statistic.py:RunningStatistic.__init__"])
prop("C27", "The internal list of MaxMeter / MinMeter / MedianMeter is a permutation of the current multiset and a heap while nothing was removed",
 "heappush keeps the binary heap order; after list.remove or sorting the list is still a permutation of the current values, which is all get() needs.",
 "every history", "All histories and list lengths.",
 ["pysad/statistics/max_meter.py:MaxMeter.update", "pysad/statistics/median_meter.py:MedianMeter.get"])
# ---------------------------------------------------------------- evaluation
prop("C28", "sklearn-backed metrics evaluate the complete history in order",
 "After any updates, get() is the sklearn function applied to exactly the labels and predictions given so far, in order; get() does not change the metric.",
 "every metric function and every history", "All histories.",
 ["pysad/evaluation/metrics.py:BaseSKLearnMetric"])
prop("C29", "AUROCMetric raises exactly when fewer than two classes were seen",
 "get() raises ValueError iff all labels seen so far are equal (or none were seen); otherwise it is the sklearn score of the history.",
 "every history", "All histories.",
 ["pysad/evaluation/metrics.py:AUROCMetric._evaluate"])
prop("C30", "WindowedMetric averages the metric over consecutive windows",
 "After n updates with window size w (no metric failure): get() is the metric of the whole history if n < w; otherwise the mean of the metric over the floor(n/w) complete consecutive blocks, or, with ignore_nonempty_last=False and a non-empty last block, the mean including that block.",
 "every metric, every w >= 1, every history, both flags", "All n modulo w, all histories.",
 ["pysad/evaluation/windowed_metric.py:WindowedMetric"])
prop("C31", "WindowedMetric forwards metric_cls keyword arguments to every window (refuted) ",
 "The keyword arguments reach only the first window's metric; every later window is created without them.",
 "every metric class and kwargs", "Only visible after a roll-over with non-default arguments.",
 ["pysad/evaluation/windowed_metric.py:WindowedMetric._init_metric", "pysad/evaluation/windowed_metric.py:WindowedMetric.update"])
prop("C32", "A metric failure inside WindowedMetric.update corrupts the window structure (refuted robustness)",
 "If the inner metric raises at a window boundary (AUROC with one class), the step and window counters have already advanced and the metric is not reset: the next window contains two windows' data, and get() then raises ZeroDivisionError or averages over wrong blocks.",
 "every history with a failing boundary", "Exception-path state.",
 ["pysad/evaluation/windowed_metric.py:WindowedMetric.update"])
# ---------------------------------------------------------------- postprocessing
prop("C33", "Average/Max/Median postprocessors return the statistic of all scores so far",
 "fit_transform on a stream returns at position i the mean / maximum / median of the first i scores.",
 "every score stream (exact arithmetic)", "All prefixes of all streams.",
 ["pysad/transform/postprocessing/postprocessors.py"])
prop("C34", "Running postprocessors return the statistic of the last window_size scores",
 "fit_transform on a stream returns at position i the mean / maximum / median / z-score with respect to the last min(i, window_size) scores.",
 "every window size >= 1, every score stream (exact arithmetic)", "All prefixes, sizes.",
 ["pysad/transform/postprocessing/running_postprocessors.py"])
prop("C35", "ZScorePostprocessor standardises and is affine invariant",
 "transform_partial(s) is (s - mean)/std of the fitted scores when they are not all equal (and a division by zero, NaN or infinity, when they are); replacing every score by a*score+b with a>0 does not change any output.",
 "every history, every score, every a > 0 and b (exact arithmetic)", "Invariance over all affine maps.",
 ["pysad/transform/postprocessing/postprocessors.py:ZScorePostprocessor"])
# ---------------------------------------------------------------- calibration
prop("C36", "ConformalProbabilityCalibrator returns the fraction of windowed scores above the input",
 "transform_partial(s) is the number of scores among the last window_size fitted ones (all, if not windowed) that are strictly greater than s, divided by their number; it lies in [0,1], and after fit_transform_partial it is at most (n-1)/n < 1. With nothing fitted the result is not a number.",
 "every window size, history and score", "All histories.",
 ["pysad/transform/probability_calibration/conformal_prediction.py:ConformalProbabilityCalibrator"])
prop("C37", "Conformal calibration preserves the anomaly order (refuted: it reverses it)",
 "A higher score never gets a higher output and the largest score ever seen gets 0, although scores are documented as 'higher is more anomalous' and the shipped example alerts when the calibrated value exceeds 0.95.",
 "every history and every pair of scores", "Order statement over all pairs.",
 ["pysad/transform/probability_calibration/conformal_prediction.py:ConformalProbabilityCalibrator.transform_partial", "examples/example_probability_calibration.py"])
prop("C38", "GaussianTailProbabilityCalibrator is a monotone probability",
 "transform_partial is non-decreasing in the score, lies in [0,1], and is 1/2 at the mean; it never divides by zero (std falls back to 1 when the variance is not positive).",
 "every history and score, for any erfc with erfc(0)=1, decreasing, range [0,2]", "All histories.",
 ["pysad/transform/probability_calibration/gaussian_tail.py:GaussianTailProbabilityCalibrator"])
prop("C39", "GaussianTail with running_statistics=False ignores window_size (refuted)",
 "The documentation says window_size is ignored when running_statistics is False; the mean is then over all scores but the variance is still over the last window_size scores.",
 "existence of a history; exact law for every history", "Needs a stream longer than the default window of 6400.",
 ["pysad/transform/probability_calibration/gaussian_tail.py:GaussianTailProbabilityCalibrator.__init__"])
# ---------------------------------------------------------------- ensembles
prop("C40", "Score ensemblers are order-independent aggregates inside the score range",
 "Maximum, average and median ensemblers return a value between the smallest and the largest detector score, do not depend on detector order (with uniform weights), are monotone in every score, and fitting never changes the result.",
 "every non-empty score vector and permutation (exact arithmetic)", "All vectors.",
 ["pysad/transform/ensemble/ensemblers.py"])
prop("C41", "Average-of-maximum and maximum-of-average stay between mean and maximum",
 "For every way the detectors are split into equally sized buckets, mean <= MOA <= max and mean <= AOM <= max.",
 "every score vector and every bucket assignment", "All assignments.",
 ["pysad/transform/ensemble/ensemblers.py:AverageOfMaximumScoreEnsembler", "pysad/transform/ensemble/ensemblers.py:MaximumOfAverageScoreEnsembler"])
# ---------------------------------------------------------------- projection
prop("C42", "StreamhashProjector is one fixed linear map, stable under feature extension",
 "transform_partial is linear, stateless, has num_components outputs, uses only coefficients in {-c, 0, c}, and appending zero-valued features does not change the projection of an instance (a feature's coefficients depend only on its index).",
 "every hash function, every input of any width", "All widths and vectors.",
 ["pysad/transform/projection/streamhash_projector.py:StreamhashProjector"])
prop("C43", "Random projectors apply one fixed projection to the whole stream (refuted)",
 "Every transform_partial call draws a fresh random matrix, so the same instance is mapped differently on two calls and pairwise geometry is not preserved.",
 "existence of draws; exact law for all draws", "Needs quantification over generator outputs.",
 ["pysad/transform/projection/random_projector.py:BaseSKLearnProjector.transform_partial"])
# ---------------------------------------------------------------- preprocessing
prop("C44", "InstanceStandardScaler gives mean 0 and standard deviation 1",
 "For every non-constant instance the scaled vector has the same length, mean 0 and population standard deviation 1, and is unchanged by a positive affine change of the instance; a constant instance divides by zero.",
 "every instance of any width (exact arithmetic)", "All vectors.",
 ["pysad/transform/preprocessing/instance_standard_scaler.py:InstanceStandardScaler"])
prop("C45", "InstanceUnitNormScaler gives unit norm",
 "For pow = p > 0 or infinity and every non-zero instance the scaled vector has p-norm 1 and positive rescaling of the instance does not change it; the zero instance divides by zero. For pow = 0 the result does not have norm 1 in general (refuted).",
 "every p, every instance (exact arithmetic)", "All vectors and powers.",
 ["pysad/transform/preprocessing/instance_unit_norm_scaler.py:InstanceUnitNormScaler"])
prop("C46", "SeasonalTrendDecomposer subtracts the rolling mean and the per-phase mean residual",
 "After any history, the trend is the mean of the last trend_window values and the seasonal term of phase p is the mean of (value - trend) over all past instants with that phase at which the window was full (0 if none); transform_partial does not change later results; fit_transform_partial has the same effect on the state as fit_partial.",
 "every season length, trend window and stream (exact arithmetic)", "All histories.",
 ["pysad/transform/preprocessing/seasonal_trend_decomposer.py:SeasonalTrendDecomposer"])
prop("C47", "SeasonalTrendDecomposer removes a periodic signal exactly",
 "If the stream is periodic with the season length and trend_window is a multiple of it, then from the first full window on every residual is exactly 0.",
 "every period, every periodic stream, every position after warm-up (exact arithmetic)", "All periodic streams.",
 ["pysad/transform/preprocessing/seasonal_trend_decomposer.py:SeasonalTrendDecomposer.fit_transform_partial"])
prop("C48", "ModifiedSTLResidualTransformer.transform_partial previews fit_transform_partial",
 "On every state, transform_partial(x) returns exactly what fit_transform_partial(x) would return and changes nothing; the residual is 0 until 2*period values are available; constructor and calls reject exactly the documented invalid inputs.",
 "every period, window size, history and any STL implementation", "All histories and any STL.",
 ["pysad/transform/preprocessing/modified_stl_residual.py:ModifiedSTLResidualTransformer"])
# ---------------------------------------------------------------- models
prop("C49", "PerfectModel is a FIFO of labels",
 "In any interleaving of fit_partial and score_partial calls, the k-th successful score is the k-th fitted label; scoring with no pending label raises IndexError, fitting without a label raises ValueError; fit_score returns the labels.",
 "every interleaving", "All interleavings.", ["pysad/models/perfect_model.py:PerfectModel"])
prop("C50", "NullModel and RandomModel ignore their input and training",
 "NullModel scores 0.5 whatever was fitted; RandomModel's scores are the generator's draws in order, in [0,1) if the draws are.",
 "every history and instance", "All histories.", ["pysad/models/null_model.py:NullModel", "pysad/models/random_model.py:RandomModel"])
prop("C51", "ExactStorm scores the fraction of near instances in the window",
 "score_partial(x) is the fraction of the window's instances, not counting the most recently fitted one, at Euclidean distance < max_radius of x (0 if there are none): it lies in [0,1]; after fit_score it never counts the instance itself.",
 "every window size, radius, history and instance", "All histories.", ["pysad/models/exact_storm.py:ExactStorm"])
prop("C52", "ExactStorm gives higher scores to more anomalous instances (refuted)",
 "The score grows with the number of near neighbours: an isolated instance scores 0 and an instance in the middle of a cluster scores 1.",
 "existence; monotonicity for all histories", "Order statement.", ["pysad/models/exact_storm.py:ExactStorm.score_partial"])
prop("C53", "HalfSpaceTrees: node masses count the instances of the window reaching the node",
 "At all times, in every tree, a node's current-window mass is the number of instances of the current window that are routed through it and its reference mass is that of the previous complete window (of the running first window before the first roll-over); hence an inner node's mass is the sum of its children's and the root's mass is the window size.",
 "every forest, every stream, every time", "Invariant over unbounded histories and trees.",
 ["pysad/models/half_space_trees.py:HalfSpaceTrees._update_mass", "pysad/models/half_space_trees.py:HalfSpaceTrees._update_model", "pysad/models/half_space_trees.py:HalfSpaceTrees.fit_partial"])
prop("C54", "HalfSpaceTrees score closed form and bounds",
 "score_partial(x) is minus the sum over trees and over depths d of 2^d times the number of reference-window instances sharing x's depth-d cell; it lies in [-T*w*(2^(D+1)-1), 0] and scoring never changes the model.",
 "every forest, stream and instance", "All inputs.", ["pysad/models/half_space_trees.py:HalfSpaceTrees._score_tree", "pysad/models/half_space_trees.py:HalfSpaceTrees.score_partial"])
prop("C55", "HalfSpaceTrees construction halves the work range at every node",
 "For every sequence of random dimensions, every tree is a complete binary tree of depth max_depth whose leaves' cells tile the box given by feature_mins/feature_maxes: every instance of the box is routed to exactly the leaf whose cell contains it.",
 "every dimension sequence, box, depth and instance", "All trees.", ["pysad/models/half_space_trees.py:HalfSpaceTrees._build_single_hs_tree"])
prop("C56", "HalfSpaceTrees accepts an array as initial_window_X (refuted)",
 "The constructor tests the truth value of initial_window_X: a numpy array with more than one element raises ValueError, a list of instances is fitted.",
 "every initial window", "Type-dependent branch.", ["pysad/models/half_space_trees.py:HalfSpaceTrees.__init__"])
prop("C57", "ReferenceWindowModel trains on the last window_size instances on a fixed schedule",
 "Without initial window (window_size >= 2): after t fits, for t < window_size the model in use was trained on all t instances; from then on it is retrained exactly at the multiples of sliding_size that are >= window_size, on the last window_size instances. With an initial window: retrained at each multiple of sliding_size, on the last window_size of initial instances followed by the stream.",
 "every window size, sliding size, stream and base detector", "All sizes, non-dividing sizes, all t.",
 ["pysad/models/integrations/reference_window_model.py:ReferenceWindowModel.fit_partial", "pysad/models/iforest_asd.py:IForestASD"])
prop("C58", "ReferenceWindowModel keeps labels aligned with instances",
 "If every fitted instance has a label (and the initial window has labels when it is given), every training call receives as many labels as instances and label i belongs to instance i.",
 "every size and stream", "All histories.", ["pysad/models/integrations/reference_window_model.py:ReferenceWindowModel.fit_partial"])
prop("C59", "ReferenceWindowModel label alignment without full labelling (refuted)",
 "With an initially labelled window but an unlabelled stream the base detector is retrained on new instances paired with the old labels; with an unlabelled initial window and a labelled stream, and with window_size 1 and no initial window, fit_partial raises at the first slide.",
 "existence", "Mixed-label histories are not tested.", ["pysad/models/integrations/reference_window_model.py:ReferenceWindowModel.fit_partial"])
prop("C60", "OneFitModel scores never depend on the stream",
 "After construction, no sequence of fit_partial / score_partial calls changes the score of any instance, which is the base detector's score after fitting the initial data once.",
 "every history", "All histories.", ["pysad/models/integrations/one_fit_model.py:OneFitModel"])
prop("C61", "KitNET phases",
 "With grace periods FM and AD: the feature map is learned at fit number FM+1 from exactly the first FM+1 instances, the autoencoders are trained by the next AD instances and by no others; before the map exists score_partial is 0; scoring never changes a parameter.",
 "every grace periods, every stream", "Off-by-one boundaries for all grace periods.",
 ["pysad/models/kitnet_model/KitNET.py:KitNET.process", "pysad/models/kitnet_model/KitNET.py:KitNET.train", "pysad/models/kitnet.py:KitNet"])
prop("C62", "KitNET's feature map is a partition of the features into clusters of bounded size",
 "For every dendrogram over the features, the clusters are non-empty, disjoint, cover every feature, preserve the dendrogram's leaf order and have at most max_size_ae members.",
 "every dendrogram and bound", "All trees.", ["pysad/models/kitnet_model/corClust.py:corClust.__breakClust__", "pysad/models/kitnet_model/corClust.py:corClust.cluster"])
prop("C63", "KitNET's correlation distances are well formed",
 "After any updates the distance matrix is symmetric with entries in [0, 2]; the diagonal is 0 for features with a non-zero residual.",
 "every stream (exact arithmetic)", "All streams.", ["pysad/models/kitnet_model/corClust.py:corClust.corrDist", "pysad/models/kitnet_model/corClust.py:corClust.update"])
prop("C64", "KitNET autoencoder scores are RMSEs of values normalised to [0,1]",
 "After any training history, norm_min/norm_max are the per-feature extremes of the training inputs, a training input is mapped into [0,1], reconstructions lie in (0,1), execute returns a non-negative number, below 1 on inputs within the seen range, and changes nothing.",
 "every training stream and input (exact arithmetic)", "All histories.", ["pysad/models/kitnet_model/dA.py:dA.train", "pysad/models/kitnet_model/dA.py:dA.execute"])
prop("C65", "KitNet scores are numbers once the feature map exists (refuted on binary64)",
 "Directly after the feature map is created the autoencoders have seen nothing, norm_min = +inf and norm_max = -inf, and the score is NaN for every instance.",
 "every finite instance, on binary64", "A one-step phase boundary.", ["pysad/models/kitnet_model/dA.py:dA.execute", "pysad/models/kitnet.py:KitNet.score_partial"])
prop("C66", "KNNCAD bookkeeping: constant-size reference sets, conformal score in [0,1], alarm refractory period",
 "With probationary period P >= 48: scores are 0 before P fits; afterwards fit never fails, the training set and the score set keep P-19 members and the calibration queue at most P; every score is in [0,1], is a fraction of the score set or 0.5; after a score >= 0.9965 the next P/5 scoring calls return 0.5.",
 "every P and every stream, any matrix inverse", "All histories.", ["pysad/models/knn_cad.py:KNNCAD"])
prop("C67", "KNNCAD works for every probationary period (refuted)",
 "For 1 <= P < 48 every fit from number max(19, P) on raises ValueError, because fewer neighbours than k are available, and scoring fails from then on as well; for P = 0 the 19th fit raises ZeroDivisionError.",
 "every P in 0..47, every stream and history", "Only small parameters.", ["pysad/models/knn_cad.py:KNNCAD._ncm"])
prop("C68", "LODA's score depends on the past only through the last fitted instance and the projection masks",
 "Every fit overwrites all histograms with the histogram of the single current instance; the projection vectors only ever lose components; the bin index used for scoring is always valid.",
 "every stream and every random draw", "All histories and draws.", ["pysad/models/loda.py:LODA"])
prop("C69", "LODA projections stay informative (refuted)",
 "Because components are zeroed anew at each fit without being restored, there are draws after which every projection is zero, and then the score is the same for every instance forever.",
 "existence of draws; permanence for all continuations", "Needs adversarial draws.", ["pysad/models/loda.py:LODA.fit_partial"])
prop("C70", "MedianAbsoluteDeviation scores with running median and median of past deviations",
 "score_partial(x) is (x - median)/(b*D + 1e-10) (absolute value if asked) with median the median of all fitted values and D the median over i of |x_i - median of the first i values|; in absolute mode it is >= 0; D is not the MAD of the fitted values in general (refuted).",
 "every history and x (exact arithmetic)", "All histories.", ["pysad/models/median_absolute_deviation.py:MedianAbsoluteDeviation"])
prop("C71", "StandardAbsoluteDeviation scores deviation over standard deviation",
 "score_partial(x) = (x - mean or median)/(std + 1e-10), absolute value if asked, for every history; it never divides by zero; an unknown statistic name is rejected.",
 "every history and x (exact arithmetic)", "All histories.", ["pysad/models/standard_absolute_deviation.py:StandardAbsoluteDeviation"])
prop("C72", "RelativeEntropy keeps a single hypothesis and scores only 0 or -1",
 "The number of hypotheses never exceeds 1 and the stored hypothesis is the histogram of the first window forever; score_partial is 0 before window_size fits and otherwise 0 or -1, so an anomalous window scores lower than a normal one (refuted orientation). With window_size 0 the whole history is compared with the first value. For any number of hypotheses the agreement search returns the first with the least statistic below the threshold, or -1.",
 "every stream and parameters", "All histories.", ["pysad/models/relative_entropy.py:RelativeEntropy"])
prop("C73", "RobustRandomCutForest keeps the tree_size most recent instances (refuted: instance 0 is never forgotten)",
 "After n fits every tree holds exactly the instances with index in {0} together with the last tree_size indices; scoring leaves the index set unchanged. The score is the mean over the trees of the displacement of the instance's leaf, an existing one or one made for the query.",
 "every tree_size, every n", "Off-by-one that appears only after tree_size+1 fits.", ["pysad/models/robust_random_cut_forest.py:RobustRandomCutForest.fit_partial"])
prop("C74", "RSHash cell weights are exponentially decayed counts",
 "For every stream, the weight used to score an instance in a component is the sum over earlier instances in the same cell of 2^(-decay*age); all hash tables hold the same data; the score is the mean of log(1+weight), hence >= 0 and larger for more frequent cells; score_partial ignores its argument.",
 "every stream, decay and grid (exact arithmetic)", "Closed form over all histories.", ["pysad/models/rs_hash.py:RSHash.fit_partial", "pysad/models/rs_hash.py:RSHash.score_partial"])
prop("C75", "xStream chains count the reference window's bins",
 "In every chain and depth the counts used for scoring are the bin counts of the first window's instances so far (first window) or of the previous complete window; the bin of a feature hit c times is floor(2^(c-1) x/delta + shift/delta).",
 "every stream, window size, depth and random choices (exact arithmetic)", "All histories.", ["pysad/models/xstream.py:_Chain.fit", "pysad/models/xstream.py:_Chain.bincount", "pysad/models/xstream.py:_Chain.next_window"])
prop("C76", "xStream score range",
 "Every score lies in [-(1+log2(1+w)), -1]; in the first window a just-fitted instance is counted at every depth; feature ranges used for binning are always positive.",
 "every stream and instance (exact arithmetic)", "All inputs.", ["pysad/models/xstream.py:_Chain.score", "pysad/models/xstream.py:xStream._compute_deltamax"])
prop("C77", "xStream scores an instance with the binning its counts were built with (refuted)",
 "At every roll-over the feature ranges are replaced before the counts become the reference: instances of the reference window are afterwards looked up with different bins and can have count 0.",
 "existence", "Needs a roll-over and a range change.", ["pysad/models/xstream.py:xStream.fit_partial", "pysad/models/xstream.py:_HSChains.set_deltamax"])
prop("C78", "SeasonalESD performs generalized ESD",
 "The detected list has at most max_anomalies distinct positions; each step removes a value of maximal studentised deviation among the remaining ones; the list is the longest prefix whose last element exceeds its critical value; the constructor's checks guarantee positive degrees of freedom for every critical value computed.",
 "every residual window, any STL and any t-quantile", "All windows.", ["pysad/models/seasonal_esd.py:SeasonalESD._esd", "pysad/models/seasonal_esd.py:SeasonalESD.__init__"])
prop("C79", "SeasonalESD.score_partial previews fit_score_partial",
 "On every state score_partial(x) returns what fit_score_partial(x) would return and changes nothing; it is 0 until the window is full, never negative, and positive only if the newest value is among the detected anomalies.",
 "every state and value", "All histories.", ["pysad/models/seasonal_esd.py:SeasonalESD.score_partial", "pysad/models/seasonal_esd.py:SeasonalESD.fit_score_partial"])
prop("C80", "Inqmad accumulates the training stream (refuted)",
 "fit_partial replaces the density matrix: after any stream the score of x depends only on the last fitted instance and the number of instances (squared inner product of the two feature vectors over the square of the count), not on the mean of the projectors; when arrays of rows are fitted only the last batch of the last non-empty array counts, though the score divides by the square of the number of all rows; the first score of a shape freezes the model used by every later score of that shape; one instance with zero random features makes every later score nan.",
 "every stream, history, feature map and batch size (exact arithmetic)", "Needs several fits and a score in between.", ["pysad/models/inqmad.py:InqMeasurement.compute_training_jit", "pysad/models/inqmad.py:Inqmad.fit_partial", "pysad/models/inqmad.py:InqMeasurement.predict"])
prop("C81", "Memory use is bounded by the parameters (proved for window models, refuted for KNNCAD, RelativeEntropy, RSHash and MedianAbsoluteDeviation)",
 "After every history: ExactStorm and SeasonalESD hold at most window_size values; every tree of RobustRandomCutForest at most tree_size + 1 instances; xStream fewer than window_size instances and at most window_size bins per dictionary; ReferenceWindowModel at most window_size reference instances and fewer than window_size + sliding_size - 1 waiting ones (cold start, window_size >= 2) or fewer than sliding_size (warm start), provided the labels are all present or all absent.  Refuted: ReferenceWindowModel never drops anything for unlabelled initial data followed by a labelled stream, nor for window_size 1 without initial data; KNNCAD, RelativeEntropy and MedianAbsoluteDeviation store every value ever fitted, RSHash one entry per grid cell ever visited.",
 "every history of calls, all parameters", "All lengths.", ["pysad/utils/window.py", "pysad/models/exact_storm.py", "pysad/models/seasonal_esd.py", "pysad/models/integrations/reference_window_model.py", "pysad/models/xstream.py", "pysad/models/robust_random_cut_forest.py", "pysad/models/knn_cad.py", "pysad/models/relative_entropy.py", "pysad/models/rs_hash.py", "pysad/models/median_absolute_deviation.py"])
prop("C82", "LocalOutlierProbability never learns from fit_partial",
 "The scores returned in any history are those of the history with every fit_partial removed; if the wrapped stream method does not change its object, every instance has the same score after every history.",
 "every history and every wrapped stream method", "All histories.", ["pysad/models/loop.py:LocalOutlierProbability"])
prop("C83", "RSHash construction succeeds and selects usable features",
 "For every decay and every outcome of the random draws, constructing an RSHash with matching, non-empty bounds never fails; every component selects at least one feature, without repetition and within range; with numpy bounds only features whose bounds differ are selected when there is one (refuted for plain lists, where constant features can be selected).",
 "every decay, dimension, bounds and random draws (exact arithmetic)", "All random outcomes.", ["pysad/models/rs_hash.py:RSHash.__init__", "pysad/models/rs_hash.py:RSHash._sample_dims", "pysad/models/rs_hash.py:RSHash._sample_shifts"])
prop("C84", "LODA recognises the instance it was just fitted with (proved for even, refuted for odd bin counts)",
 "Directly after fit_partial(x), score_partial(x) is the smallest score LODA can give when num_bins is even; when num_bins is odd and at least 3 it is the largest one, because the index used for scoring is one bin too high.",
 "every stream, all random draws, every number of bins and cuts (exact arithmetic)", "All parities, streams and draws.", ["pysad/models/loda.py:LODA.score_partial", "pysad/models/loda.py:LODA.fit_partial"])
prop("C85", "KNNCAD looks only at the first feature, and its score describes the last fitted instance",
 "The scores of a history depend only on the first component of the fitted instances; the argument of score_partial is ignored, so consecutive calls score the instance fitted last; between fit P and fit 2P the newest window is itself in the score set, so with P < 305 no score there reaches the alarm threshold 0.9965.",
 "every history, P >= 48, any matrix inverse", "All histories.", ["pysad/models/knn_cad.py:KNNCAD.fit_partial", "pysad/models/knn_cad.py:KNNCAD.score_partial"])
prop("C86", "KitNet works with a single feature (refuted)",
 "With instances of fewer than two features every fit_partial from number grace_feature_mapping + 1 on raises ValueError and score_partial returns 0 forever: the clustering of the features has no distances to work with.",
 "every grace periods and history", "All histories and parameters.", ["pysad/models/kitnet_model/corClust.py:corClust.cluster", "pysad/models/kitnet_model/KitNET.py:KitNET.train"])
prop("C87", "KitNET's autoencoder units learn their own bias (refuted)",
 "The bias update averages the gradient over the units, so after any training all hidden units share one bias and all visible units share one bias.",
 "every training history, any number type", "All histories.", ["pysad/models/kitnet_model/dA.py:dA.train"])
prop("C88", "Inqmad scores similarity, not anomalousness",
 "An instance is mapped to its random cosines divided by their norm (nan when they are all 0, TypeError for a wrong number of features). After any stream no instance scores higher than the one learned last (whose score is 1/n^2), and an instance with orthogonal features scores 0, although the documentation says that higher scores are more anomalous.",
 "every stream, instance and feature map (exact arithmetic)", "A maximum over all instances.", ["pysad/models/inqmad.py:Inqmad.score_partial", "pysad/models/inqmad.py:InqMeasurement.collapse"])
prop("C89", "A KitNET training step descends the gradient of the cross-entropy reconstruction loss",
 "Each autoencoder is a tied-weight network with logistic units; its score is the root mean square difference between the input, scaled to the training range, and its reconstruction. One training step moves every weight by the learning rate times minus the partial derivative of the cross-entropy of the scaled input, moves all the biases of a layer by the learning rate times minus the mean of their partial derivatives, and so starts downhill: the slope of the loss along the step is minus the squared step length over the learning rate.",
 "every training history, network size, learning rate and input (exact arithmetic)", "A statement about derivatives at every reachable network; tests only compare a few numbers.",
 ["pysad/models/kitnet_model/dA.py:dA.train", "pysad/models/kitnet_model/dA.py:dA.execute", "pysad/models/kitnet_model/dA.py:dA.__init__"])
prop("C90", "Asking for scores does not disturb a detector (refuted for PerfectModel, RandomModel and KNNCAD)",
 "Whatever call comes next, after whatever history, answers what it would have answered if score_partial had never been called (and fit_score_partial had been fit_partial). Proved for NullModel, ExactStorm, both deviation detectors, HalfSpaceTrees, OneFitModel and every PyOD wrapper built on it, ReferenceWindowModel, RelativeEntropy, RSHash, LODA, xStream, SeasonalESD and KitNet. False for PerfectModel and RandomModel, for KNNCAD (a score that is an alarm turns the following ones into 0.5, shown on binary64) and for Inqmad (see C80).",
 "every pair of histories that differ only in the requests for scores", "Relates two runs of arbitrary length.",
 ["pysad/core/base_model.py:BaseModel.fit_score_partial", "pysad/models/kitnet.py:KitNet.score_partial", "pysad/models/median_absolute_deviation.py:MedianAbsoluteDeviation.score_partial", "pysad/models/knn_cad.py:KNNCAD.score_partial"])
prop("C91", "Unsupervised detectors ignore the labels (refuted for IForestASD with an unlabelled initial window)",
 "Removing every label from a history changes no answer of 17 detectors. IForestASD, started with an initial window and no labels, raises ValueError at the next retraining if the stream carries labels, although isolation forests do not use them; PerfectModel needs them.",
 "every history", "Relates two runs of arbitrary length.", ["pysad/models/integrations/reference_window_model.py:ReferenceWindowModel.fit_partial", "pysad/models/iforest_asd.py:IForestASD", "pysad/models/perfect_model.py:PerfectModel.fit_partial"])
prop("C92", "Windowed detectors forget the past completely",
 "After two histories that agree on their most recent instances every score is the same, whatever came before: the last window_size instances for ExactStorm and SeasonalESD; the last 2 window_size - 1 for HalfSpaceTrees, in the same phase of the window and after the first one (any number type, binary64 included); the last 3 window_size - 1 for xStream, after two windows; the last window_size + sliding_size - 1 for ReferenceWindowModel with a deterministic detector, whatever the initial windows.",
 "every pair of histories that agree on a suffix", "Relates two histories of arbitrary length and content.",
 ["pysad/models/exact_storm.py:ExactStorm", "pysad/models/half_space_trees.py:HalfSpaceTrees.fit_partial", "pysad/models/xstream.py:xStream.fit_partial", "pysad/models/seasonal_esd.py:SeasonalESD", "pysad/models/integrations/reference_window_model.py:ReferenceWindowModel.fit_partial"])
prop("C93", "StreamhashProjector keeps lengths and distances on average over the hash functions (refuted for densities above 1)",
 "Averaged over all hash functions with values in 0 .. 2^32 - 1, each component of the image is 0 up to 2^-32 of the sum of the features, and the squared length of the image (and the squared distance of two images) equals that of the instance up to a relative error of about 2^-32 / density, for 0 < density <= 1 and any number of features and components. A density of 2 or more is accepted and maps every instance to a multiple of its sum.",
 "every instance, number of components and density (exact arithmetic); the average ranges over all tables of hash values", "An average over 2^(32 n d) hash functions.",
 ["pysad/transform/projection/streamhash_projector.py:StreamhashProjector.transform_partial", "pysad/transform/projection/streamhash_projector.py:StreamhashProjector._hash_string", "pysad/transform/projection/streamhash_projector.py:StreamhashProjector.__init__"])
prop("C94", "A change of units of the features changes no score (refuted for a fixed regulariser)",
 "MedianAbsoluteDeviation and StandardAbsoluteDeviation answer the same after any history if every value v is replaced by a v + t (a > 0) and the regulariser added to the deviation is multiplied by a; with the fixed literal of the code the score changes. ExactStorm answers the same for any change of the instances that multiplies distances by a if the radius is multiplied by a too (a common factor for all features, with any shifts, is one). HalfSpaceTrees answers the same for a separate scale and shift per feature if feature_mins and feature_maxes are converted too.",
 "every history, scale and shift (exact arithmetic)", "Relates two runs of arbitrary length for all scales.",
 ["pysad/models/median_absolute_deviation.py:MedianAbsoluteDeviation", "pysad/models/standard_absolute_deviation.py:StandardAbsoluteDeviation", "pysad/models/exact_storm.py:ExactStorm", "pysad/models/half_space_trees.py:HalfSpaceTrees"])
prop("C95", "Sums and averages on binary64: error bound for all data, exact on integers (refuted: an average stays between the extremes)",
 "On IEEE doubles SumMeter is off by at most ((1+2^-53)^(n-1) - 1) times the sum of absolute values and AverageMeter by the corresponding bound, unless the result is not finite. On integer-valued data whose totals stay within 2^53 any history of updates and removals gives the exact sum, the average is the double nearest to the exact one, and a RunningStatistic over a window of w values bounded by B with (w+1) B <= 2^53 never drifts, however long the stream. Rounding can push an average above every value averaged (0.1 three times), and without the bound a windowed sum can lose a value completely.",
 "every finite history of doubles", "The error bound is over all inputs and lengths; drift shows only after arbitrarily long streams.",
 ["pysad/statistics/sum_meter.py:SumMeter", "pysad/statistics/average_meter.py:AverageMeter", "pysad/statistics/running_statistic.py:RunningStatistic"])
prop("C96", "Conformal probabilities and ExactStorm ratios are correctly rounded and never nan, whatever the stream of doubles",
 "For every history of doubles, nan and infinities included, with at most 2^53 remembered values, ConformalProbabilityCalibrator returns the double nearest to the fraction of remembered scores that are larger, in [0,1], 0 exactly if none and 1 exactly if all are larger; up to 2^51 remembered scores two outputs are ordered exactly as the counts, so rounding loses no ranking. ExactStorm returns 0 on an empty store and otherwise the double nearest to the fraction of stored instances closer than the radius, in [0,1].",
 "every history of doubles, window size and queried value", "Ranges over all streams and all floating-point values.",
 ["pysad/transform/probability_calibration/conformal_prediction.py:ConformalProbabilityCalibrator.transform_partial", "pysad/models/exact_storm.py:ExactStorm.score_partial"])
prop("C97", "A rejected call leaves no trace (refuted for HalfSpaceTrees, RSHash, LODA, KNNCAD, ReferenceWindowModel, KitNet)",
 "If fit_partial, score_partial or fit_score_partial raises, the object answers every later sequence of calls as if that call had not been made (a raising fit_score_partial may have done the fit). Holds for PerfectModel, ExactStorm, MedianAbsoluteDeviation, StandardAbsoluteDeviation, OneFitModel, SeasonalESD, and Inqmad for rows of equal width. RelativeEntropy keeps a rejected instance: every fit raises exactly while it is among the last window_size ones; ExactStorm refuses to score exactly while an instance of another length is stored. The other detectors named keep partial updates, and a later score or call shows it.",
 "every history, rejected call and continuation", "Compares two arbitrary continuations after an exception at any point of any history.",
 ["pysad/models/half_space_trees.py:HalfSpaceTrees.fit_partial", "pysad/models/robust_random_cut_forest.py:RobustRandomCutForest", "pysad/models/rs_hash.py:RSHash.fit_partial", "pysad/models/loda.py:LODA.fit_partial", "pysad/models/knn_cad.py:KNNCAD.fit_partial", "pysad/models/kitnet.py:KitNet.fit_partial", "pysad/models/relative_entropy.py:RelativeEntropy.fit_partial", "pysad/models/integrations/reference_window_model.py:ReferenceWindowModel.fit_partial"])
prop("C98", "Overwriting an array after passing it in does not affect a detector (refuted for ExactStorm, RelativeEntropy and ReferenceWindowModel)",
 "ExactStorm, RelativeEntropy and ReferenceWindowModel keep the caller's array, not a copy. They answer as if they had copied the data provided the caller leaves alone the last window_size arrays handed over (ExactStorm), the last window_size - 1 (RelativeEntropy) or all of them (ReferenceWindowModel), whatever other arrays it overwrites. A client that reads every instance into the same array gets wrong answers: from ExactStorm the score 1 for every instance but the first, whatever the data.",
 "every interleaving of array writes and calls", "Ranges over all programs mixing writes and calls.",
 ["pysad/models/exact_storm.py:ExactStorm.fit_partial", "pysad/models/relative_entropy.py:RelativeEntropy.fit_partial", "pysad/models/integrations/reference_window_model.py:ReferenceWindowModel.fit_partial"])
prop("C99", "Processing a batch stage by stage is the same as the streaming loop",
 "Preprocessing a whole batch with fit_transform, passing the result to fit_score and the scores to the postprocessor's fit_transform gives the same final scores, and leaves the three objects in the same states, as the loop that passes each instance through the three partial calls before reading the next; each runs without exception exactly when the other does. Several detectors fed in one loop behave as each does alone on the batch. fit followed by score is not equivalent to fit_score.",
 "every transformer giving arrays of its declared width, detector giving scalars, postprocessor, batch and label list", "Ranges over all components and batches.",
 ["pysad/core/base_transformer.py:BaseTransformer.fit_transform", "pysad/core/base_model.py:BaseModel.fit_score", "pysad/core/base_postprocessor.py:BasePostprocessor.fit_transform"])
prop("C100", "A denoising autoencoder used on its own: grace period, corruption and what a training step does",
 "A dA object executes to 0 exactly during its first gracePeriod training calls, rejected ones included, and afterwards to the root mean square reconstruction error. Without corruption it is the unit KitNET trains. With a corruption level strictly between 0 and 1 each training call moves every weight by the learning rate against the partial derivative of the cross-entropy of reconstructing the scaled input from its masked version, and every bias against the mean of the derivatives of its layer. A corruption level of 1 or more is accepted by the constructor; every training call then raises AssertionError after counting the vector and widening the limits, and the weights stay those of the untrained network.",
 "every sequence of training vectors, corruption masks and parameters", "Ranges over all training histories, and states an exact gradient.",
 ["pysad/models/kitnet_model/dA.py:dA.train", "pysad/models/kitnet_model/dA.py:dA.execute", "pysad/models/kitnet_model/dA.py:dA.get_corrupted_input", "pysad/models/kitnet_model/dA.py:dA.inGrace"])
prop("C101", "KitNET's helper functions: softmax, derivatives, normal density, rolling mean",
 "softmax gives positive numbers adding up to 1, ordered as the inputs, unchanged by adding a constant to all inputs, row by row on a matrix, and asks exp only for non-positive arguments; an empty array is rejected. dsigmoid, dtanh and dReLU are the derivatives, the first two as functions of the value, not of the argument. pdf is the normal density, highest at mu and decreasing with the distance from it; invLogCDF is the logarithm of the probability of exceeding x. rollmean returns the sum of the last k values over k, so that before the k-th value the missing ones count as 0 (not the mean of the values seen); sizes below 1 are rejected, size 0 only at the first value.",
 "every real argument, non-empty array and sequence of values", "Ranges over all inputs and histories.",
 ["pysad/models/kitnet_model/utils.py:softmax", "pysad/models/kitnet_model/utils.py:rollmean.apply", "pysad/models/kitnet_model/utils.py:dsigmoid", "pysad/models/kitnet_model/utils.py:dReLU", "pysad/models/kitnet_model/utils.py:pdf", "pysad/models/kitnet_model/utils.py:invLogCDF"])
prop("C102", "What the evaluation metrics measure",
 "AUROCMetric.get() is the share of (anomaly, normal) pairs in which the anomaly has the higher score, ties counting one half; it lies between 0 and 1, is 1 exactly if every anomaly scores above every normal instance and 0 exactly if below, depends only on the order of the scores, becomes its complement when the scores or the classes are reversed, and raises ValueError with fewer than two classes. AUPRMetric.get() is the mean, over the anomalies, of the precision at the anomaly's own score (0 without anomalies), depends only on the order of the scores, and is 1 exactly if every anomaly scores above every normal instance. With constant scores they are 1/2 and the share of anomalies. PrecisionMetric and RecallMetric are the shares of correct alarms and of detected anomalies (0 if there are none), reject scores that are not 0 or 1, recall does not grow with the threshold; precision can fall when the threshold is raised. None of the four depends on the order of the updates.",
 "every sequence of updates with binary labels and real scores", "Ranges over all label and score sequences, including ties.",
 ["pysad/evaluation/metrics.py:AUROCMetric._evaluate", "pysad/evaluation/metrics.py:AUPRMetric._evaluate", "pysad/evaluation/metrics.py:PrecisionMetric._evaluate", "pysad/evaluation/metrics.py:RecallMetric._evaluate"])
prop("C103", "The evaluation loop and the baseline detectors",
 "Scoring instance by instance and updating a metric reports the metric of the labels paired with the scores of the batch call. On every labelled stream with an anomaly PerfectModel reaches precision, recall and AUPR 1, and AUROC 1 if there is also a normal instance (otherwise ValueError); NullModel has AUROC 1/2 and its AUPR is the share of anomalies; the AUROC of RandomModel, averaged over all sequences of draws from any finite set of values, is exactly 1/2.",
 "every labelled stream, every metric (loop), every finite set of possible draws", "Ranges over all streams and averages over all random draws.",
 ["pysad/models/perfect_model.py:PerfectModel", "pysad/models/null_model.py:NullModel", "pysad/models/random_model.py:RandomModel", "pysad/evaluation/metrics.py:AUROCMetric", "pysad/core/base_model.py:BaseModel.fit_score"])
prop("C104", "Random projectors keep lengths but forget distances",
 "Averaged over the random matrices, each component of an image is 0 and the squared length of the image is that of the instance, at every call of every history, for every law of the entries with mean 0 and variance 1/n. For SparseRandomProjector with density a/b the mean squared error of the squared length is (2 |x|^4 + (b/a - 3) sum x_i^4) / n, so at most max(2, b/a - 1) / (n eps^2) of the matrices distort it by a factor eps or more. Because every call draws a new matrix, the images of two instances are on average at squared distance |x|^2 + |x'|^2, however close the instances are, and so are two images of the same instance.",
 "every history, instance, number of components, density; averages over all sequences of matrices with independent entries of a rational law (exact arithmetic)", "Averages over all random matrices and a probability bound.",
 ["pysad/transform/projection/random_projector.py:BaseSKLearnProjector.transform_partial", "pysad/transform/projection/random_projector.py:SparseRandomProjector", "pysad/transform/projection/random_projector.py:GaussianRandomProjector"])
prop("C105", "Conformal probabilities are not valid p-values (refuted guarantee; repaired by one count if there are no ties)",
 "Let n scores arrive in each of their n cyclic orders. If they are distinct, the newest score is mapped to each of 0, 1/n, ..., (n-1)/n exactly once (0, 1/n, ..., 1 if it is transformed without being fitted). For every data set and every k < n, more than k of the n orders give a value of at most k/n, exactly k + 1 without ties: the guarantee of a p-value (a share of at most a at level a) fails at every level k/n. Adding 1/n restores it at every level for distinct scores; if all scores are equal all of them are mapped to 0.",
 "every list of scores, every level, windowed and unlimited, every window size that holds the scores (exact arithmetic)", "A statement about frequencies over all orders of arrival of arbitrary data.",
 ["pysad/transform/probability_calibration/conformal_prediction.py:ConformalProbabilityCalibrator"])
prop("C106", "Reusing the array passed to SeasonalTrendDecomposer (refuted; condition for safety)",
 "SeasonalTrendDecomposer keeps the arrays it is trained on instead of copying them. If the client never overwrites one of the last trend_window arrays it passed to fit_partial or fit_transform_partial, every answer and exception of every interleaving of fit_partial, transform_partial and fit_transform_partial is that of an object that copies its input. A client that reads a stream into one array gets zero from every fit_transform_partial, whatever the data, season length and trend window.",
 "every interleaving of overwrites and calls, every array size, season length and trend window; any arithmetic (safety), exact arithmetic (zero residuals)", "Quantifies over all interleavings of writes to the client's memory with calls, of any length.",
 ["pysad/transform/preprocessing/seasonal_trend_decomposer.py:SeasonalTrendDecomposer._as_array", "pysad/transform/preprocessing/seasonal_trend_decomposer.py:SeasonalTrendDecomposer.fit_partial", "pysad/transform/preprocessing/seasonal_trend_decomposer.py:SeasonalTrendDecomposer.fit_transform_partial"])
prop("C107", "KitNET accepts a feature map (refuted)",
 "The constructor KitNET(n, feature_map=v) of the KitNET network raises for every feature map v: AttributeError, because the networks are made before the attribute that holds them exists, and ZeroDivisionError for an empty map. With the order repaired it would accept exactly the non-empty maps of non-empty groups and build one autoencoder of matching width per group and an output autoencoder with one input per group.",
 "every feature map, width and parameters", "All feature maps.", ["pysad/models/kitnet_model/KitNET.py:KitNET.__init__", "pysad/models/kitnet_model/KitNET.py:KitNET.__createAD__"])
prop("C108", "An obvious anomaly scores higher than the instances it interrupts (refuted for ExactStorm and RSHash)",
     "BaseModel documents a score that is higher for more anomalous instances. Take any history in which every fitted instance was the same vector a (at least once), and ask fit_score_partial for one more instance. HalfSpaceTrees scores any other vector b at least as high as a, and strictly higher when the window size is at least 2 and some tree separates a from b. xStream scores b at least as high as a while its first window is not complete. StandardAbsoluteDeviation with the mean and absolute scores gives 0 to a and a positive score to any other value, and MedianAbsoluteDeviation gives |v - u|/eps to the value v after at least two copies of u. ExactStorm is inverted: a gets 1, its highest score, and any b at a distance of at least max_radius gets 0, its lowest. RSHash is inverted too: a gets a positive score and a b whose cell differs in every component gets 0. On the stream of k copies of a followed by the anomaly b, AUROCMetric therefore reports 1/(2k) for both, against 1/2 for chance.",
     "all histories fitting only a, all a and b, all parameters, all k",
     "tests check that scores are produced, on a fixed data set; the direction of the score must hold for every stream",
     ["pysad/core/base_model.py:BaseModel.score_partial", "pysad/models/exact_storm.py:ExactStorm", "pysad/models/rs_hash.py:RSHash", "pysad/models/half_space_trees.py:HalfSpaceTrees", "pysad/models/xstream.py:xStream", "pysad/models/standard_absolute_deviation.py:StandardAbsoluteDeviation", "pysad/models/median_absolute_deviation.py:MedianAbsoluteDeviation"])
prop("C109", "Standardised scores that count the value itself are capped by the number of values",
 "fit_transform_partial of ZScorePostprocessor never returns a z-score beyond sqrt(k) in absolute value, k the number of scores fitted before, and that of RunningZScorePostprocessor never one beyond sqrt(min(window_size - 1, k)). The cap is attained: after k equal scores any different score, however close or extreme, gets exactly plus or minus sqrt(k). Hence a three-sigma alarm is silent on the first ten scores of every stream, and for ever with a window of at most ten. In the same way fit_score_partial of StandardAbsoluteDeviation around the mean stays strictly below sqrt(k), and GaussianTailProbabilityCalibrator with running statistics never returns more than the normal probability of sqrt(min(window_size - 1, k)).",
 "every history of fit and transform calls, every score, every window size (exact arithmetic)", "A bound over all values and all histories; a test tries finitely many spikes.",
 ["pysad/transform/postprocessing/postprocessors.py:ZScorePostprocessor", "pysad/transform/postprocessing/running_postprocessors.py:RunningZScorePostprocessor", "pysad/models/standard_absolute_deviation.py:StandardAbsoluteDeviation", "pysad/transform/probability_calibration/gaussian_tail.py:GaussianTailProbabilityCalibrator"])
prop("C110", "What a windowed AUROC reports, and when it cannot be computed (refuted: perfect windows mean a good overall ranking)",
 "With WindowedMetric(AUROCMetric, w), w >= 1, feeding a stream of (label, score) pairs succeeds if and only if every complete window of w pairs contains both classes; otherwise the update that completes the first one-class window raises ValueError, and with w = 1 the very first update does. When it succeeds, get() is the mean over the complete windows of the share of (anomaly, normal) pairs ranked correctly, with the incomplete last window counted as one more window unless it is ignored. If the overall AUROC is 1, so is the windowed one. Not conversely: for every w >= 2 there is a stream of two windows whose windowed AUROC is 1 and whose overall AUROC is (2w - 1)/w^2, which tends to 0.",
 "every stream, every window size, both settings of ignore_nonempty_last (exact arithmetic)", "All streams and window sizes; a test sees a few.",
 ["pysad/evaluation/windowed_metric.py:WindowedMetric", "pysad/evaluation/metrics.py:AUROCMetric"])
prop("C111", "The shipped alerting loop announces the anomalous instances (refuted)",
 "examples/example_probability_calibration.py feeds fit_score_partial's array into ConformalProbabilityCalibrator.fit_transform and prints an alert when the result exceeds 0.95. For every detector and stream it prints an alert for an instance if and only if more than 95% of the scores in the calibration window, its own included, are strictly greater than its own: it announces the least anomalous scores. None of the first twenty instances is ever announced, and no instance whose score is the highest in the window. A detector that returns a bare number makes the program raise at the first instance. With xStream, on any stream of identical instances inside the first reference window, exactly the instances from the 21st on are announced.",
 "every detector, stream, calibration window and, for the first claims, threshold; every hash function and random draw of xStream (exact arithmetic)", "All streams and detectors; a test runs one data set.",
 ["examples/example_probability_calibration.py:__main__", "pysad/transform/probability_calibration/conformal_prediction.py:ConformalProbabilityCalibrator", "pysad/core/base_postprocessor.py:BasePostprocessor.fit_transform", "pysad/models/xstream.py:xStream"])
prop("C112", "Postprocessing keeps the ranking of the scores (refuted except for z-scores and Gaussian tails)",
 "Fit a postprocessor on any scores, then apply transform to the scores of a labelled test set and measure AUROCMetric. ZScorePostprocessor, RunningZScorePostprocessor and GaussianTailProbabilityCalibrator leave the AUROC unchanged (if the scores in use are not all equal). AveragePostprocessor, MedianPostprocessor and their running versions ignore the argument of transform_partial: the AUROC is 1/2 whatever the detector. ConformalProbabilityCalibrator brings a perfect ranking to at most 1/2, and turns an AUROC v into exactly 1 - v when the calibration scores separate the test scores. On a stream, RunningAveragePostprocessor with any window w >= 2 can turn a perfect ranking into one of AUROC w/(w + k), for every k.",
 "every history of calibration scores, every labelled test set, every window size (exact arithmetic)", "All score histories and all test sets.",
 ["pysad/transform/postprocessing/postprocessors.py:AveragePostprocessor", "pysad/transform/postprocessing/postprocessors.py:MedianPostprocessor", "pysad/transform/postprocessing/postprocessors.py:ZScorePostprocessor", "pysad/transform/postprocessing/running_postprocessors.py:RunningAveragePostprocessor", "pysad/transform/probability_calibration/conformal_prediction.py:ConformalProbabilityCalibrator", "pysad/transform/probability_calibration/gaussian_tail.py:GaussianTailProbabilityCalibrator", "pysad/evaluation/metrics.py:AUROCMetric"])
prop("C113", "How far a running sum or average drifts on binary64 (refuted: an error is forgotten when the window moves on)",
 "After n updates of RunningStatistic(SumMeter, w) with finite doubles of magnitude at most B, get() is finite and differs from the exact sum of the last w values by at most ((1 + 2^-53)^(2n) - 1)(w + 1)B, as long as that range does not reach 2^1023; RunningStatistic(AverageMeter, w), hence RunningAveragePostprocessor, by at most ((1 + 2^-53)^(2n+1) - 1)(w + 1)B/l + 2^-1075 with l values in the window. For up to 2^51 updates the factor is at most 4n 2^-53. The error does not leave with the window: for every window size w, after one 1e16 followed by any n >= w ones the reported average is 0, although the window holds ones only.",
 "every stream of doubles, every length, every window size", "The bound is over all data and lengths; the drift needs arbitrarily long streams.",
 ["pysad/statistics/running_statistic.py:RunningStatistic", "pysad/statistics/sum_meter.py:SumMeter", "pysad/statistics/average_meter.py:AverageMeter", "pysad/transform/postprocessing/running_postprocessors.py:RunningAveragePostprocessor"])
prop("C114", "A sliding window recovers from a nan or an infinity (refuted except for the conformal calibrator)",
 "Once a nan or an infinity has been passed to update (or remove), get() of SumMeter, SumSquaresMeter, AverageMeter and VarianceMeter never returns a finite number again, whatever calls follow. The same holds for RunningStatistic over these with every window size, however many finite values have been added since and however far the value is behind the window: removing it from the sum does not restore the sum. So no later score of AveragePostprocessor, RunningAveragePostprocessor, ZScorePostprocessor, RunningZScorePostprocessor or StandardAbsoluteDeviation around the mean is a finite number. ConformalProbabilityCalibrator with a window of w forgets everything after w further scores: it then answers as if the nan had been any other value.",
 "every history of calls, every window size, every stream of doubles", "Never again ranges over unboundedly long continuations.",
 ["pysad/statistics/running_statistic.py:RunningStatistic", "pysad/statistics/sum_meter.py:SumMeter", "pysad/statistics/variance_meter.py:VarianceMeter", "pysad/transform/postprocessing/running_postprocessors.py:RunningZScorePostprocessor", "pysad/models/standard_absolute_deviation.py:StandardAbsoluteDeviation", "pysad/transform/probability_calibration/conformal_prediction.py:ConformalProbabilityCalibrator"])
prop("C115", "What the shipped example programs print (refuted: the short example measures its detector)",
 "example_usage_short.py and example_pyod_integration.py print the AUROC of the scores the detector gives the instances in order; example_usage.py and example_usage_inqmad.py that of the running means of the scores given to the preprocessed instances; example_ensemble.py that of the combined scores of the detectors; example_statistics.py the mean and the standard deviation of its data. With LODA, its detector, example_usage_short.py prints exactly 1/2 on every data set with both classes, whatever the random draws, and in example_ensemble.py adding LODA to the averaged detectors changes nothing of what is printed. For every window w >= 2 and every k there are a detector ranking perfectly and labels for which example_usage.py prints w/(w + k).",
 "every data set with its labels, every detector (and its scores), every random draw of LODA, every window size (exact arithmetic)", "All data sets and all detectors.",
 ["examples/example_usage_short.py", "examples/example_usage.py", "examples/example_usage_inqmad.py", "examples/example_ensemble.py", "examples/example_pyod_integration.py", "examples/example_statistics.py", "pysad/models/loda.py:LODA", "pysad/evaluation/metrics.py:AUROCMetric", "pysad/transform/postprocessing/running_postprocessors.py:RunningAveragePostprocessor", "pysad/transform/ensemble/ensemblers.py:AverageScoreEnsembler"])
prop("C116", "What combining detectors does to the ranking (refuted: an ensemble is at least as good as its members)",
 "If every detector ranks all anomalies above all normal instances (AUROC 1), so do AverageScoreEnsembler (also with any non-negative weights, not all zero), MaximumScoreEnsembler and MedianScoreEnsembler, and AverageOfMaximumScoreEnsembler and MaximumOfAverageScoreEnsembler as long as the order of the detectors is the same for all instances. The last two shuffle anew at every call: an anomaly that every detector scores higher, by any margin, can then end up below a normal instance. A negative weight is accepted and can turn full agreement into AUROC 0. For every m >= 2 there are m detectors of AUROC (m-1)/m each whose average and maximum have AUROC 0, while their median has AUROC 1 for m >= 3. The average follows the loudest detector: multiply the scores of one detector by a large enough constant and the AUROC of the average is that of this detector alone.",
 "every number of detectors, all scores and labels, all weights, every order of the buckets (exact arithmetic)", "All score tables; families of counterexamples for every m and every margin.",
 ["pysad/transform/ensemble/ensemblers.py:AverageScoreEnsembler", "pysad/transform/ensemble/ensemblers.py:MaximumScoreEnsembler", "pysad/transform/ensemble/ensemblers.py:MedianScoreEnsembler", "pysad/transform/ensemble/ensemblers.py:AverageOfMaximumScoreEnsembler", "pysad/transform/ensemble/ensemblers.py:MaximumOfAverageScoreEnsembler", "pysad/evaluation/metrics.py:AUROCMetric"])
prop("C117", "The order of the features does not matter (refuted for StreamhashProjector and KNNCAD)",
 "Give a detector the same stream with the features of every instance in another order. ExactStorm answers every call exactly as before. HalfSpaceTrees (with feature_mins and feature_maxes reordered too), RSHash, LODA and Inqmad answer exactly as before once each random draw is renamed to the feature it stands for, and the renamed draws are draws of the same kind; the same holds for the random projectors. InstanceStandardScaler and InstanceUnitNormScaler with every order of the norm return the same values in the new order. StreamhashProjector, hence xStream, keys its hash by the number of the feature: two features with different weights cannot be exchanged. KNNCAD scores the stream as if it consisted of whichever feature comes first: a reordering that keeps the first feature changes nothing, any other replaces the stream by that of another feature.",
 "every permutation of the features, every history of calls, every number of features, every random draw", "All permutations of all histories.",
 ["pysad/models/exact_storm.py:ExactStorm", "pysad/models/half_space_trees.py:HalfSpaceTrees", "pysad/models/rs_hash.py:RSHash", "pysad/models/loda.py:LODA", "pysad/models/inqmad.py:Inqmad", "pysad/models/knn_cad.py:KNNCAD", "pysad/transform/projection/streamhash_projector.py:StreamhashProjector", "pysad/transform/projection/random_projector.py:RandomProjector", "pysad/transform/preprocessing/instance_standard_scaler.py:InstanceStandardScaler", "pysad/transform/preprocessing/instance_unit_norm_scaler.py:InstanceUnitNormScaler"])
prop("C118", "The order in which training instances arrive within a window does not matter (refuted for MedianAbsoluteDeviation and for ExactStorm's latest instance)",
 "Two histories that fit the same instances up to a rearrangement inside each stretch of window_size instances: HalfSpaceTrees ends up with exactly the same trees and masses, so every later answer is the same; xStream gives every instance the same score. ExactStorm gives the same score if the instances in the window other than the most recent one are rearranged; exchanging the most recent one can turn a score of 1 into 0, since it is left out of the comparison. StandardAbsoluteDeviation, around the mean or the median, depends only on the multiset of values. MedianAbsoluteDeviation does not: 0, 4, 10 and 10, 4, 0 lead to different scores for every instance other than 4 and for all parameters. ConformalProbabilityCalibrator depends only on the multiset of scores in its window, and the AUROC, AUPR, precision and recall metrics only on the multiset of (label, score) pairs.",
 "all pairs of histories that differ by such rearrangements, all window sizes, all random draws", "All permutations of all histories.",
 ["pysad/models/half_space_trees.py:HalfSpaceTrees", "pysad/models/xstream.py:xStream", "pysad/models/exact_storm.py:ExactStorm", "pysad/models/standard_absolute_deviation.py:StandardAbsoluteDeviation", "pysad/models/median_absolute_deviation.py:MedianAbsoluteDeviation", "pysad/transform/probability_calibration/conformal_prediction.py:ConformalProbabilityCalibrator", "pysad/evaluation/metrics.py:AUROCMetric"])
prop("C119", "What happens to instances with another number of features",
 "Few detectors check how many features an instance has. Half-space trees and RSHash ignore every feature beyond those their sampled splits or cells ask for, KNNCAD every feature but the first, and KitNet, once its feature map exists, every feature beyond the first n: from then on no sequence of calls can tell instances apart that share those features, whatever else they carry and however many values that is. xStream accepts any number of features and treats a missing one as 0. LODA rejects, in fitting and in scoring, exactly the instances whose number of features differs from that of the first one it was fitted with (ValueError). While KitNet is still collecting its feature statistics it rejects other numbers with ValueError, except that a single feature is silently spread over all n features. RSHash rejects an instance exactly if a selected feature is missing. The absolute deviation detectors reject everything but one feature when fitting, but score any number, feature by feature. ExactStorm stores anything and then fails to score. That too few features are always noticed is refuted for half-space trees.",
 "all call histories, all numbers of features and all surplus values, all sampled parameters; over any number type except for xStream and the deviations (reals)",
 "a test uses instances of one width; that surplus values are ignored in every later call, or rejected in every state, is a statement about all histories",
 ["pysad/models/half_space_trees.py:HalfSpaceTrees.fit_partial", "pysad/models/rs_hash.py:RSHash.fit_partial", "pysad/models/knn_cad.py:KNNCAD.fit_partial", "pysad/models/xstream.py:xStream.fit_partial", "pysad/models/loda.py:LODA.fit_partial", "pysad/models/loda.py:LODA.score_partial", "pysad/models/kitnet.py:KitNet.fit_partial", "pysad/models/kitnet_model/corClust.py:corClust.update", "pysad/models/median_absolute_deviation.py:MedianAbsoluteDeviation.fit_partial", "pysad/models/standard_absolute_deviation.py:StandardAbsoluteDeviation.score_partial", "pysad/models/exact_storm.py:ExactStorm.fit_partial"])
prop("C120", "VarianceMeter on binary64: error bound for all data, never negative on small integers (refuted: never negative, a bound relative to the variance, shift-invariant z-scores)",
 "On IEEE-754 binary64, whatever VarianceMeter was fed (n <= 2^53 updates), a finite answer differs from the exact variance of the values by at most ((1+2^-53)^(n+2) - 1 + (1+2^-53)^(2n+2) - 1) times the mean of the squares, plus (1+2^-53)^(n+3) 2^-1073. For integers, after any updates and removals of values that are present, while the number of values times the sum of their squares never exceeds 2^53, the answer is finite, not negative, 0 exactly when the remaining values are all equal, and off by at most ((1+2^-53)^3 - 1) times the mean square plus 2^-1073; a RunningStatistic over a window of w integers bounded by B with (w+1)^2 B^2 <= 2^53 therefore never drifts, however long the stream. Refuted beyond that: for 1700000000, 1700000001 (Unix time stamps) the answer is -512, and 0 after a third consecutive value; for 2^53, 2^53+2, whose variance is 1, it is 2^54; and ZScorePostprocessor, whose output on the reals does not change when the stream is shifted, gives finite scores for the second and third of 0, 1, 2 but no finite score at all for the same values shifted by 1700000000.",
 "all lists of doubles; all histories of integer updates and removals; witnesses for the refutations", "The rounding errors depend on every value and on the order; the sign of the answer flips for data no test uses.",
 ["pysad/statistics/variance_meter.py:VarianceMeter.update", "pysad/statistics/variance_meter.py:VarianceMeter.remove", "pysad/statistics/variance_meter.py:VarianceMeter.get", "pysad/statistics/sum_squares_meter.py:SumSquaresMeter.update", "pysad/transform/postprocessing/postprocessors.py:ZScorePostprocessor.transform_partial"])
prop("C121", "Where the zero of a feature lies does not matter to LODA and KitNet; it does to RSHash (refuted), and so does the unit",
 "Adding a constant to every value of a feature, a different one for each feature, changes no LODA score and no KitNet score, at any point of any history of calls (for KitNet except between the fit that creates the feature map and the next one). RSHash does not normalise: the minima and maxima it is given only decide which features may be selected, and any other bounds with the same constant features give the same sampled components. So moving the zero changes its scores, and in a large enough unit every stream is scored like a stream of zeros, the score then counting the instances seen.",
 "all call histories, all constants, all random draws, all grace periods and cluster sizes, all exp and linkage functions; exact arithmetic", "The constants and the histories are unbounded; the claims compare two whole runs.",
 ["pysad/models/loda.py:LODA.fit_partial", "pysad/models/loda.py:LODA.score_partial", "pysad/models/kitnet_model/corClust.py:corClust.update", "pysad/models/kitnet_model/dA.py:dA.train", "pysad/models/kitnet_model/dA.py:dA.execute", "pysad/models/kitnet.py:KitNet.score_partial", "pysad/models/rs_hash.py:RSHash.__init__", "pysad/models/rs_hash.py:RSHash.fit_partial"])
prop("C122", "What a missing value (nan) in one instance does: KitNet, half-space trees, ExactStorm",
 "On IEEE-754 binary64. KitNet: if one of the first FM+1 fitted instances has a nan, the feature map is never learned: fits succeed up to number FM, every later fit raises ValueError whatever it is given, and every score is 0; if one of the next AD instances (the training phase) has one, every later score is nan, for ever; after that, fitting an instance with a nan changes no score. Half-space trees: no sequence of calls can tell a nan from minus infinity. ExactStorm: a stored instance with a nan is near nothing but counts in the denominator while it is in the window, and an instance with a nan scores 0.",
 "all streams of doubles with a nan at any place, all call histories, all random draws and sampled trees; for KitNet every exp with exp(nan) = nan and every linkage that rejects a nan distance", "A test can show one nan at one place; that one missing value silences the detector for the rest of every stream is a statement about all later calls.",
 ["pysad/models/kitnet_model/KitNET.py:KitNET.process", "pysad/models/kitnet_model/corClust.py:corClust.update", "pysad/models/kitnet_model/dA.py:dA.train", "pysad/models/kitnet.py:KitNet.fit_partial", "pysad/models/half_space_trees.py:HalfSpaceTrees.fit_partial", "pysad/models/half_space_trees.py:HalfSpaceTrees.score_partial", "pysad/models/exact_storm.py:ExactStorm.score_partial"])
prop("C123", "fix_seed and the global random generator that detectors and iterators share (refuted: reproducibility of existing detectors, independence of LODA, a fixed seeded order)",
 "After fix_seed(n) with 0 <= n < 2^32, a program that uses only detectors it creates itself sees exactly the same answers, whatever was drawn, created or called in the process before; any other seed raises ValueError and changes nothing. A detector that draws no random numbers in its methods answers as if it were alone, however its calls are interleaved with other detectors, reseeding and shuffling. For LODA and RandomModel, in every interleaving, the answers are those of a lone detector for some sequence of draws, so everything proved for all draws holds in every process. get_iterator with a seed gives the same order every time if nothing is drawn before the first instance is asked for, and resets the generator for everybody: a RandomModel repeats its scores in every pass. Refuted: fix_seed does not make detectors created earlier reproducible; asking a RandomModel for a score changes the answers of a LODA detector; creating a detector between get_iterator(seed) and the loop changes the order, since the shuffling is done at the first instance.",
 "all programs (interleavings of any number of detectors, seeding, shuffling), all generators; LODA over any number type", "The interleavings and what happened in the process before are unbounded; a test fixes one.",
 ["pysad/utils/__init__.py:fix_seed", "pysad/utils/data.py:Data.get_iterator", "pysad/utils/array_streamer.py:ArrayStreamer.iter", "pysad/models/loda.py:LODA.fit_partial", "pysad/models/random_model.py:RandomModel.score_partial", "pysad/models/half_space_trees.py:HalfSpaceTrees.__init__"])
prop("C124", "An instance with another number of features in the middle of a SeasonalTrendDecomposer stream (refuted: offering the displaced instance again)",
 "In exact arithmetic, after a stream of instances with n features: transform_partial of one value gives n residuals, one per trend; if n = 1, every feature of the argument gets the one trend and the one seasonal value subtracted; any other number of features raises ValueError. With trend windows of at least two, fit_partial or fit_transform_partial of an instance with another number of features raises ValueError but keeps it in the trend window: every later call, fitting or transforming, raises ValueError too until exactly trend_window well-formed instances have been offered; the last of these is the first accepted, and from then on every call succeeds. If one instance of a periodic signal was malformed, the signal is removed exactly again from that point on (the rejected instances make up whole seasons). Refuted: offering the displaced instance again shifts the phases, and the residual of the periodic signal is no longer zero.",
 "all seasons, trend windows, numbers of features, histories before and after mixing the three calls, all instances (exact arithmetic)", "The histories, the windows and the point at which the malformed instance comes are unbounded.",
 ["pysad/transform/preprocessing/seasonal_trend_decomposer.py:SeasonalTrendDecomposer.fit_partial", "pysad/transform/preprocessing/seasonal_trend_decomposer.py:SeasonalTrendDecomposer.transform_partial", "pysad/transform/preprocessing/seasonal_trend_decomposer.py:SeasonalTrendDecomposer.fit_transform_partial"])
prop("C125", "RelativeEntropy in terms of min_val, max_val, num_bins and the values (refuted by construction: equal bins over the range)",
 "In exact arithmetic the score compares the last window_size values with the first ones by their frequencies in num_bins bins, where bin i is the slice of width (max_val - min_val)/num_bins that ends at min_val + i slices, so the first bin lies below min_val, and the last bin holds the last two slices up to max_val; values outside are ignored. A window (first or last) without any value in range always scores -1. With one or two bins nothing inside (min_val, max_val] is ever reported. Applying one affine change of unit to the values, min_val and max_val changes no score. num_bins = 0 raises ZeroDivisionError in the constructor; min_val = max_val is accepted, and from the first full window on every fit_partial raises ZeroDivisionError while the score stays 0.",
 "all ranges, numbers of bins, window sizes, thresholds, streams of single values and interleavings of the calls (exact arithmetic)", "Streams, ranges and bins are unbounded; a test fixes one and cannot tell which slice every value falls in.",
 ["pysad/models/relative_entropy.py:RelativeEntropy.__init__", "pysad/models/relative_entropy.py:RelativeEntropy.fit_partial", "pysad/models/relative_entropy.py:RelativeEntropy.score_partial"])
prop("C126", "What transform and fit_transform return for a whole matrix, for every shipped transformer without learning, and for inherited fit_transform_partial",
 "IdentityScaler returns the matrix. StreamhashProjector returns num_components columns, for any matrix or list of rows, cell (i, k) being the sum of the values of row i times the hash weights of component k. The random projectors project row i with the i-th matrix drawn after the call. InstanceStandardScaler and InstanceUnitNormScaler scale every row by its own mean, deviation or norm. For all of these fit_transform and transform return the same and keep no memory of the rows. For a transformer that inherits fit_transform_partial and whose transform_partial does not learn, row i of fit_transform is what transform_partial answers for instance i once the instances up to and including i are fitted, and afterwards exactly these instances have been fitted, in order.",
 "all matrices, all numbers of rows, columns and components, all hash functions, all random draws, all orders of the norm, all user transformers (the numeric ones in exact arithmetic)", "All sizes and contents of the matrix, and all transformers a user may write.",
 ["pysad/core/base_transformer.py:BaseTransformer.transform", "pysad/core/base_transformer.py:BaseTransformer.fit_transform", "pysad/core/base_transformer.py:BaseTransformer.fit_transform_partial", "pysad/transform/preprocessing/identity_scaler.py:IdentityScaler", "pysad/transform/projection/streamhash_projector.py:StreamhashProjector", "pysad/transform/preprocessing/instance_standard_scaler.py:InstanceStandardScaler", "pysad/transform/preprocessing/instance_unit_norm_scaler.py:InstanceUnitNormScaler"])
prop("C127", "Whether an instance looks more familiar once it has been fitted again",
 "What fitting an instance does to the anomaly score of that same instance, with nothing else changed in between. StandardAbsoluteDeviation around the mean: after n fitted values, fitting v once more divides the score of v by at least the square root of (n+1)/n, so it never rises. Around the median, or with MedianAbsoluteDeviation, it can rise: histories are given. HalfSpaceTrees: inside the first window each repetition lowers the score by exactly the number of trees times (2^(depth+1) - 1) and in later windows it changes nothing until it completes the window; when it does complete one, the score of an instance that had the lowest possible value can rise (for every window of at least 2, every number of trees and depth). RSHash: the score strictly rises with every repetition. ExactStorm: the score does not fall if the last fitted instance was near, and can fall from 1 to 1/2 otherwise. ConformalProbabilityCalibrator: fitting a score again never raises its own output.",
 "every fit/score history, every instance or value, every window size, radius, number of trees and depth, every sequence of random draws", "a test shows one stream; that a repetition can never look more anomalous (or that it can) is about every history",
 ["pysad/models/standard_absolute_deviation.py:StandardAbsoluteDeviation", "pysad/models/median_absolute_deviation.py:MedianAbsoluteDeviation", "pysad/models/half_space_trees.py:HalfSpaceTrees", "pysad/models/rs_hash.py:RSHash", "pysad/models/exact_storm.py:ExactStorm", "pysad/transform/probability_calibration/conformal_prediction.py:ConformalProbabilityCalibrator"])
prop("C128", "Exactly which random numbers a program takes from numpy's global generator, and in which order",
 "After any program that creates and uses detectors, seeds and shuffles, numpy's generator is in the state that these requests, in program order, lead to: RandomModel draws one number per score and none per fit; LODA draws one matrix in its first fit and one permutation per random cut in every fit (a single one if the instance has the wrong number of features or there are no bins) and nothing when scoring; HalfSpaceTrees draws num_trees * (2^max_depth - 1) features and xStream depth features and the offsets per chain, in their constructors; get_iterator with a seed reseeds at once and shuffles only when the first instance is asked for; every detector that draws nothing leaves it alone. So the next score of a RandomModel and the order of a seeded iterator are determined by these requests alone: the order survives anything that draws nothing. A LODA detector alone in its process uses the next matrix and then the successive permutations the generator yields; HalfSpaceTrees and xStream use the successive features and offsets. RSHash's components are explained by numbers the generator can yield, so that its constructor never fails if numpy's generator returns values in the ranges asked for.",
 "all programs over any number of detectors, all generators (any state machine), all seeds, dimensions, numbers of cuts, trees, chains and components", "The generator is global state shared by every detector: only a statement about all programs and all generators says which calls disturb which.",
 ["pysad/utils/__init__.py:fix_seed", "pysad/models/random_model.py:RandomModel", "pysad/models/loda.py:LODA.fit_partial", "pysad/models/half_space_trees.py:HalfSpaceTrees.__init__", "pysad/models/xstream.py:xStream.__init__", "pysad/models/rs_hash.py:RSHash.__init__", "pysad/utils/data.py:Data.get_iterator", "pysad/utils/array_streamer.py:ArrayStreamer.iter"])

prop("C129", "What a stream of identical instances scores",
 "Score an instance x after a history in which n fits all had the same instance. StandardAbsoluteDeviation (mean or median centre) and MedianAbsoluteDeviation give a value u exactly the signed or absolute (u - v)/eps, v being the constant, for every n >= 1: the repeated value itself scores 0. ExactStorm gives x the score 0 as long as fewer than two instances are in the window and 1 from then on, whatever the (positive) radius. HalfSpaceTrees gives -T * min(n, W) * (2^(D+1) - 1), whatever trees were drawn. RelativeEntropy stays at 0 for ever when the constant lies above lo - (hi - lo)/N and at or below hi, and scores -1 from the first full window on when it does not, although nothing ever changed. Loda with an even number of bins (or one bin) gives the same fixed number for ever. RSHash, n fits after the first, gives ln(1 + 2^(-decay) + ... + 2^(-decay n)) whatever its components. xStream gives -(1 + log2(1 + n)) inside the first window and -(1 + log2(1 + W)) from the end of the second one on, but -1 all through the second window when every projected component is at least 1 in absolute value: the unchanged stream looks as new as possible there. ConformalProbabilityCalibrator gives 0 to the repeated score, ZScorePostprocessor something that is not a finite number.",
 "all constants, lengths n, window sizes, parameters, random draws and histories interleaving scores with the n equal fits", "a test can run a few constant streams of a few lengths; the closed forms hold for every length, constant, tree, chain and component drawn",
 ["pysad/models/standard_absolute_deviation.py:StandardAbsoluteDeviation.score_partial", "pysad/models/median_absolute_deviation.py:MedianAbsoluteDeviation.score_partial", "pysad/models/exact_storm.py:ExactStorm.score_partial", "pysad/models/half_space_trees.py:HalfSpaceTrees.score_partial", "pysad/models/relative_entropy.py:RelativeEntropy.score_partial", "pysad/models/loda.py:LODA.score_partial", "pysad/models/rs_hash.py:RSHash.score_partial", "pysad/models/xstream.py:xStream.score_partial", "pysad/transform/probability_calibration/conformal_prediction.py:ConformalProbabilityCalibrator.transform_partial", "pysad/transform/postprocessing/postprocessors.py:ZScorePostprocessor.transform_partial"])

prop("C130", "A window at least as long as the stream makes no difference (refuted at the boundary for xStream, and for any shorter window)",
 "As long as no more scores (values, instances) have been given than the window holds: RunningStatistic answers what the wrapped statistic answers; RunningAverage-, RunningMedian-, RunningMax- and RunningZScorePostprocessor answer (or raise) exactly what their unwindowed namesakes do; ConformalProbabilityCalibrator with windowed=True is the one with windowed=False; GaussianTailProbabilityCalibrator does not depend on running_statistics nor on window_size; WindowedMetric returns the plain metric's value; ExactStorm and HalfSpaceTrees with two such windows give the same scores, and so does xStream if the windows are longer than the stream. ReferenceWindowModel with an initial window is OneFitModel until sliding_size instances have arrived; without one, the score is that of a detector newly built and trained on everything seen so far. One score more than the window holds is enough to tell the running average from the average and the windowed from the unwindowed calibrator, for every window size; and for every W an xStream with window W gives a constant stream of W instances its highest score while one with window W + 1 does not.",
 "all histories, windows, scores, instances, detectors wrapped, metrics, trees and chains drawn", "the choice between the windowed and the unwindowed class is made once and for streams of unknown length: a test compares them on a few lengths and windows only",
 ["pysad/statistics/running_statistic.py:RunningStatistic", "pysad/transform/postprocessing/running_postprocessors.py", "pysad/transform/postprocessing/postprocessors.py", "pysad/transform/probability_calibration/conformal_prediction.py:ConformalProbabilityCalibrator", "pysad/transform/probability_calibration/gaussian_tail.py:GaussianTailProbabilityCalibrator", "pysad/evaluation/windowed_metric.py:WindowedMetric", "pysad/models/integrations/reference_window_model.py:ReferenceWindowModel", "pysad/models/integrations/one_fit_model.py:OneFitModel", "pysad/models/exact_storm.py:ExactStorm", "pysad/models/half_space_trees.py:HalfSpaceTrees", "pysad/models/xstream.py:xStream"])

prop("C131", "Which way the scores move when one parameter of a detector is turned up",
 "For detectors that have been through the same calls and differ in one parameter only: a larger eps (and, for MedianAbsoluteDeviation, a larger b) never increases the size of a deviation score and never changes its sign. A larger threshold of RelativeEntropy never turns a score of 0 into -1. HalfSpaceTrees with further trees (drawn after the common ones) never scores higher. RSHash with the same components and faster decay never scores higher. xStream with deeper chains (further features drawn for the same chains and offsets) never scores lower. SeasonalESD with a larger alpha, a larger max_anomalies, or both, gives every instance either the same score as before or a score where it gave 0 - for sample and robust scaling and every decomposition, provided the quantile function of the t distribution is monotone - so it never takes a detection back.",
 "all histories, instances, pairs of parameter values, random draws, decompositions and monotone quantile functions", "tuning means comparing two runs with different parameters: a test compares a handful of values on one stream",
 ["pysad/models/standard_absolute_deviation.py:StandardAbsoluteDeviation.score_partial", "pysad/models/median_absolute_deviation.py:MedianAbsoluteDeviation.score_partial", "pysad/models/relative_entropy.py:RelativeEntropy.score_partial", "pysad/models/half_space_trees.py:HalfSpaceTrees.score_partial", "pysad/models/rs_hash.py:RSHash.score_partial", "pysad/models/xstream.py:xStream.score_partial", "pysad/models/seasonal_esd.py:SeasonalESD.score_partial", "pysad/models/seasonal_esd.py:SeasonalHybridESD"])

prop("C132", "The integers and thresholds computed with floating-point literals are the intended ones (refuted: the hidden layer is exactly the given share; for astronomically large windows)",
 "SeasonalESD's constructor, which compares max_anomalies with int(window_size * 0.49) in binary64, accepts and rejects exactly the arguments it should: the limit is 49 * window_size // 100 for every window up to 2^45 (although 100 * 0.49 lies below 49 before rounding), but not for every larger one. KNNCAD's int(P / 2) and int(P / 5) are the integer quotients for every probationary period up to 2^52. An autoencoder of KitNET gets the smallest number of hidden units that is at least 3/4 of the visible ones with the default ratio, and between 1 and n units for every ratio in (0, 1], however small; but a ratio of 0.07 gives 100 visible units 8 hidden ones. With its default density, StreamhashProjector turns exactly 715827883 of the 2^32 hash values into a negative and as many into a positive coefficient - what the thresholds 1/6 and 1/3 give without rounding, including the hash value that is exactly a third.",
 "all window sizes, periods, max_anomalies, alphas, probationary periods, layer sizes, ratios and hash values within the stated ranges of representable numbers", "an off-by-one from rounding shows up at isolated arguments only; a test samples a few, the proof bounds the rounding error at all of them",
 ["pysad/models/seasonal_esd.py:SeasonalESD.__init__", "pysad/models/knn_cad.py:KNNCAD.fit_partial", "pysad/models/kitnet_model/dA.py:dA.__init__", "pysad/transform/projection/streamhash_projector.py:StreamhashProjector._hash_string"])
prop("C133", "Exactly which calls fail, for every history of acceptable calls",
 "Starting from a new object and calling fit_partial, score_partial and fit_score_partial in any order with instances of the documented shape: NullModel, RandomModel, ExactStorm, RelativeEntropy, HalfSpaceTrees, xStream, SeasonalESD (if the decomposition does not raise) and OneFitModel (around a detector that trains) never fail and every score is one number; MedianAbsoluteDeviation, StandardAbsoluteDeviation, LODA, KNNCAD, KitNet and ReferenceWindowModel without an initial window fail in exactly one situation, score_partial before the first fit, with IndexError, ZeroDivisionError or IndexError (mean or median), AttributeError, AttributeError, AttributeError and AttributeError; RSHash then returns None. RobustRandomCutForest (around trees that keep the promises of the rrcf library) and Inqmad (on single rows) too fail exactly on score_partial before the first fit, and so does IForestASD without an initial window; with a batch size of zero every call of Inqmad raises ZeroDivisionError, and a fit of no rows succeeds and changes nothing it learned; ReferenceWindowModel and IForestASD with an initial window never fail if the stream has labels exactly if that window has, a condition that is needed (refuted without it). PerfectModel fails exactly on fits without a label and on scores when no label is left. Consequently BaseModel.fit_score on any number of acceptable rows returns one finite score per row.",
 "every history of calls of any length, every acceptable instance, every parameter in the stated ranges, every outcome of the random draws and of the external routines", "An exception that depends on the history shows only on the history that triggers it; a test covers finitely many interleavings of fits and scores.",
 ["pysad/core/base_model.py:BaseModel.fit_score", "pysad/models/exact_storm.py:ExactStorm", "pysad/models/median_absolute_deviation.py:MedianAbsoluteDeviation", "pysad/models/standard_absolute_deviation.py:StandardAbsoluteDeviation", "pysad/models/relative_entropy.py:RelativeEntropy", "pysad/models/half_space_trees.py:HalfSpaceTrees", "pysad/models/loda.py:LODA", "pysad/models/rs_hash.py:RSHash", "pysad/models/xstream.py:xStream", "pysad/models/knn_cad.py:KNNCAD", "pysad/models/kitnet.py:KitNet", "pysad/models/perfect_model.py:PerfectModel", "pysad/models/integrations/reference_window_model.py:ReferenceWindowModel", "pysad/models/integrations/one_fit_model.py:OneFitModel", "pysad/models/robust_random_cut_forest.py:RobustRandomCutForest", "pysad/models/inqmad.py:Inqmad", "pysad/models/iforest_asd.py:IForestASD"])

prop("C134", "How long a detector takes to accept a new level",
 "After n instances a followed by k instances b, the score of b is: for StandardAbsoluteDeviation with the mean n|a-b| / (sqrt(nk)|a-b| + (n+k) eps), hence below sqrt(n/k) - the new level falls below theta standard deviations once k exceeds n / theta^2; with the median it is constant times (n+k)/sqrt(nk) until b has been seen as often as a, and 0 from then on; for MedianAbsoluteDeviation it is |a-b| / eps until then, and 0 afterwards; for ExactStorm the share (k-1) / (min(window_size, n+k) - 1) of near instances, 1 once k reaches window_size; for HalfSpaceTrees unchanged until the running window is complete, and the lowest possible score once a whole window has been filled after the shift; for RelativeEntropy -1 for ever, if b falls in another bin; for RSHash what a stream of k instances b alone would give, if they share no cell with a; for LODA (even number of bins) the lowest score at once.",
 "all n, k, pairs of levels, parameters, random draws and interleaved score requests", "the reaction to a drift is a function of two unbounded counters; a test sees single points of it",
 ["pysad/models/standard_absolute_deviation.py:StandardAbsoluteDeviation", "pysad/models/median_absolute_deviation.py:MedianAbsoluteDeviation", "pysad/models/exact_storm.py:ExactStorm", "pysad/models/half_space_trees.py:HalfSpaceTrees", "pysad/models/relative_entropy.py:RelativeEntropy", "pysad/models/rs_hash.py:RSHash", "pysad/models/loda.py:LODA"])
prop("C135", "Half-space trees on binary64: scores without rounding errors, cuts inside the box (refuted: bounds near the largest double, neighbouring doubles)",
 "As long as window_size * num_trees * (2^(max_depth + 1) - 1) is at most 2^53 (true for the defaults by a factor of fifty million), every score that HalfSpaceTrees returns is exact: it is minus the sum over trees and depths d of 2^d times the number of instances of the last complete window (or of the unfinished first one) that took the same first d decisions, with no rounding error, whatever doubles - nan and infinities included - the instances contain. If the bounds are doubles of at most 2^1022 in absolute value and no minimum exceeds its maximum, every cut is a double inside its box and within two roundings of the middle, the boxes of the nodes are nested, and an instance inside the bounds lies in the box of every node it passes. Refuted: with bounds whose sum overflows every cut is infinite and all instances are scored alike; between neighbouring doubles a cut makes no progress.",
 "all histories of calls, all instances of doubles, all draws of the constructor, all parameters within the bound, all boxes", "The exactness is a statement about every accumulated sum and the nesting about every node of every random tree; a rounding error would appear only for particular data and seeds.",
 ["pysad/models/half_space_trees.py:HalfSpaceTrees._score_tree", "pysad/models/half_space_trees.py:HalfSpaceTrees.score_partial", "pysad/models/half_space_trees.py:HalfSpaceTrees._build_single_hs_tree"])

prop("C136", "RSHash and xStream number their cells in 32-bit integers: harmless in a stated range, blind beyond it",
 "Both detectors convert the number of a grid cell to a 32-bit integer. If no selected feature of a fitted instance is more than 2^31 - 2 cells away from 0, RSHash gives exactly the scores it would give with exact cell numbers; for xStream the same holds when every projected value times 2^(depth - 1) is within 2^31 - 2 of the ranges in use. Beyond it the values stop mattering: RSHash gives equal scores to any two histories with equally many instances that are all more than 2^31 + 1 cells away from 0, whatever their signs and sizes, and xStream in its first window gives the lowest possible score to every instance whose projections exceed 2^30 + 1 among instances like it. Refuted: that a newcomer trillions of cells away from everything seen is scored as new.",
 "all histories of calls, all instances, all components and chains the constructors can draw, all results the machine may give for a number it cannot convert", "An overflow in a numpy conversion is silent and appears only for values beyond the range of the test data.",
 ["pysad/models/rs_hash.py:RSHash.fit_partial", "pysad/models/xstream.py:_Chain.fit", "pysad/models/xstream.py:_Chain.bincount"])

prop("C137", "The instance scalers on binary64: accurate or exact in a stated range (refuted: for constant, huge and tiny instances)",
 "With sums added from left to right: if no component exceeds 2^500 and the norm is at least 2^-450, every component InstanceUnitNormScaler(pow=2) returns is finite and within 10 n / 2^53 of the exact quotient for instances of n <= 2^20 components. With pow=inf every returned component lies in [-1, 1] and one is exactly 1 or -1, for all finite instances that are not zero. InstanceStandardScaler divides by zero on equal whole numbers as it should. Refuted: that a constant instance is recognised as such (three times 0.1 becomes three times -1, three times 0.7 three times 1), that a huge instance keeps its direction (two components of 2^600 become 0), and that the unit does not matter (3 and 4 times 2^-539 do not scale to 0.6 and 0.8).",
 "all instances of doubles within the stated bounds, of any length up to 2^20", "Rounding, overflow and underflow depend on the exact bits of the data; the error bound must hold for every instance.",
 ["pysad/transform/preprocessing/instance_unit_norm_scaler.py:InstanceUnitNormScaler.transform_partial", "pysad/transform/preprocessing/instance_standard_scaler.py:InstanceStandardScaler.transform_partial"])
prop("C138", "The parameters limit the scores, however long the stream",
 "With a positive decay every score RSHash ever returns lies in [0, -ln(1 - 2^-decay)): no history of instances the components fit reaches the limit, and for every e > 0 enough repetitions of any one instance come within e of it; with decay 0 repetition raises the score above every bound. Standard and median absolute deviation applied to values from lo to hi never answer further from 0 than (hi - lo) / eps, and the value hi scored after any number of times lo answers exactly that; without limits on the values there are none on the scores. Half-space tree scores always lie in [-T W (2^(depth+1) - 1), 0] and xStream scores in [-(1 + log2(1 + W)), -1], W being the window size and T the number of trees, and both lower limits are reached on a constant stream.",
 "all histories of fit/score calls, instances, tolerances e and bounds, numbers of repetitions and parameter values", "a limit that holds for a stream of any length, and one that is only approached, cannot be observed on finitely many finite streams",
 ["pysad/models/rs_hash.py:RSHash.fit_partial", "pysad/models/rs_hash.py:RSHash.score_partial", "pysad/models/standard_absolute_deviation.py:StandardAbsoluteDeviation.score_partial", "pysad/models/median_absolute_deviation.py:MedianAbsoluteDeviation.score_partial", "pysad/models/half_space_trees.py:HalfSpaceTrees.score_partial", "pysad/models/xstream.py:xStream.score_partial"])
prop("C139", "Integer-typed instances: the exact answers while the type holds them (refuted: for large and for unsigned values)",
 "Instances stored with a fixed-width integer type (uint8 images, int64 counters) are computed with in that type, wrapping around. Sums and averages of any history are the exact ones whatever the type; variances, and the scores of StandardAbsoluteDeviation around the mean, are the exact ones if the square of every fitted value fits the type; around the median, twice every value has to fit too; the scores of MedianAbsoluteDeviation are the exact ones if four times the largest magnitude, of either sign, fits. Refuted otherwise: a value whose square wraps to 0 gives a negative variance; the median of two unsigned values whose sum does not fit lies below both; with any unsigned type a value just below the median gets nearly the largest score of MedianAbsoluteDeviation, whether or not absolute scores were asked for; KNNCAD's distance on unsigned values is not symmetric.",
 "all integer widths, signed and unsigned, all histories of updates, removals and queries or of fit/score calls, all values of the type", "wraparound depends on the width, the signedness and the magnitude of every value in the history; suites use float instances",
 ["pysad/statistics/variance_meter.py:VarianceMeter.get", "pysad/statistics/sum_squares_meter.py:SumSquaresMeter.update", "pysad/statistics/median_meter.py:MedianMeter.get", "pysad/models/standard_absolute_deviation.py:StandardAbsoluteDeviation.score_partial", "pysad/models/median_absolute_deviation.py:MedianAbsoluteDeviation.score_partial", "pysad/models/knn_cad.py:KNNCAD._metric"])
prop("C140", "How finely HalfSpaceTrees can tell instances apart (refuted: max_depth sets it, for integer bounds)",
 "With float bounds, any two instances that differ in a feature within its bounds get different scores after one of them was fitted, in every forest that is deep enough and keeps cutting that feature. With feature_mins and feature_maxes given as integer arrays the cuts are whole and half numbers within the bounds, whatever the depth, the number of trees and the random draws: moving fitted and scored instances in any way that crosses no such number changes no score, at any point of any history. For a feature from a to a + 1 all values above the middle are one to the detector and all values below it are one.",
 "all bounds, depths, numbers of trees, window sizes, random draws, histories of calls and instances", "the claim is about all depths and draws: no test of finitely many forests shows that a resolution is never reached",
 ["pysad/models/half_space_trees.py:HalfSpaceTrees._build_single_hs_tree", "pysad/models/half_space_trees.py:HalfSpaceTrees.score_partial"])
prop("C141", "Parameters that are 0: nan, errors and a forest of single features (refuted: RSHash accepts integer decays)",
 "LODA with no random cut and xStream with no chain accept every instance, and every score they return is nan, not a number a user could rank by; with at least one cut or chain the score is always a number. xStream with depth 0 accepts every instance and every score raises ValueError. RSHash with decay 0 is accepted, but each component then looks at exactly one feature however many there are, and the score is made of the plain numbers of earlier instances in the same cell: nothing is forgotten. A decay that is a positive Python integer, such as 1, is refused with a ValueError although the same number as a float is accepted; a negative integer is accepted as 1000 sampling points.",
 "all histories of fit/score calls, instances, random draws and the remaining parameters; all integer and float decays", "the absence of errors and the nan at every point of every history cannot be sampled; suites use the default parameters",
 ["pysad/models/loda.py:LODA.score_partial", "pysad/models/xstream.py:xStream.score_partial", "pysad/models/rs_hash.py:RSHash.__init__", "pysad/models/rs_hash.py:RSHash._sample_dims", "pysad/models/rs_hash.py:RSHash.score_partial"])
prop("C142", "Window sizes that are 0 or negative are not refused (and what they do)",
 "Only SeasonalESD and the STL residual transformer refuse a window size of 0 or below. HalfSpaceTrees, xStream and WindowedMetric take a negative window size for its absolute value, in every state and for every call. With 0 every fit or update raises ZeroDivisionError, yet the instance or pair is counted: the scores are those of a detector whose first window never ends, and the windowed metric answers the metric of the whole history. ReferenceWindowModel takes a negative window size for 0 and a negative sliding size for its absolute value; with a window size of at most 0 and no initial window no score can ever be had and every sliding_size-th fit raises ValueError. ExactStorm with a window size of at most 1 scores every instance 0, whatever was fitted. RelativeEntropy with a window size of 0 takes the whole history as its window and the very first value as the reference: it answers 0 as long as every value that falls in the range shares the bin of the first one, and -1 for ever once another bin has been hit (or if the first value was out of range); with a negative one it answers -1 from the first fit on, whatever is fitted.",
 "all integer window and sliding sizes, histories of calls (failed ones included), instances and underlying detectors and metrics", "silent acceptance shows only in the equality of all later answers with those of another parameter value",
 ["pysad/models/half_space_trees.py:HalfSpaceTrees.fit_partial", "pysad/models/xstream.py:xStream.fit_partial", "pysad/models/integrations/reference_window_model.py:ReferenceWindowModel.fit_partial", "pysad/evaluation/windowed_metric.py:WindowedMetric.update", "pysad/models/exact_storm.py:ExactStorm.score_partial"])
prop("C143", "Streams read the arrays when an item is asked for",
 "iter returns at once and reads nothing: the order and the number of the items are settled at the first next(), by the length the array has then, and the k-th item is the row as it is at the k-th call of next(), however the client has changed the array in between. Rows appended later are never delivered, a row that is gone when it is asked for raises IndexError and ends the stream, and labels that do not match raise AssertionError at the first next() and not before. A client that only overwrites rows already delivered gets the stream of the array as it was at the first call. That a stream is a snapshot of the array is refuted. A PandasStreamer whose frame is copied by to_numpy is a snapshot taken at the first call.",
 "every array, every shuffle, every sequence of contents of the array at the calls of next(), every number of calls", "Tests pass arrays nobody changes and exhaust the stream at once.",
 ["pysad/utils/array_streamer.py:ArrayStreamer.iter", "pysad/utils/pandas_streamer.py:PandasStreamer.iter"])
prop("C144", "LODA refuses to fit a nan or an infinity but scores it, and a refused first instance leaves a detector that answers infinity",
 "On binary64: fit_partial with an instance containing a nan or an infinity raises ValueError at any point of any history, whatever the random projections have set to zero, and leaves all histograms and bin limits as they were. If every instance so far was refused, the detector exists all the same and score_partial answers infinity to every instance (it raises AttributeError if there was none). score_partial does not refuse an instance with a nan: where the bin limits are numbers, on every random cut the instance counts as lying in the last bin, so all such instances get one and the same score, whatever else they contain. With finite values the model is the one of the other LODA properties.",
 "every stream of doubles with a constant number of features, every projection and permutation, every number of bins and cuts (up to 2^53)", "Tests feed finite random data.",
 ["pysad/models/loda.py:LODA.fit_partial", "pysad/models/loda.py:LODA.score_partial"])
prop("C145", "KNNCAD works with a probationary period of 48 or more and with no other",
 "Nothing checks probationary_period, but every fit_partial succeeds for every history exactly if it is at least 48. With any smaller integer P, also 0 and negative ones, the first max(19, P) - 1 calls of fit_partial succeed and score_partial answers 0 after each of them; every later call of fit_partial raises ValueError (ZeroDivisionError if P is 0) and every later call of score_partial raises ValueError (ZeroDivisionError if P is 47), for ever. The instance number at which it breaks does not depend on the data.",
 "every integer period, every history of calls, all instances, whatever np.linalg.inv returns", "Tests use one period, the recommended one or larger.",
 ["pysad/models/knn_cad.py:KNNCAD.fit_partial", "pysad/models/knn_cad.py:KNNCAD.score_partial"])
prop("C146", "A running maximum or minimum overlooks a missing value until its window overflows, then shows it until it has left the window",
 "MaxMeter and MinMeter updated with values some of which are nan answer the greatest (least) of the others, or an infinity if there are none. In a RunningStatistic with a window of w they do so only for the first w values. From then on the answer is nan exactly while one of the last w values is nan, and otherwise the greatest (least) of the last w values: one missing value changes nothing for ever, but the same window contents are answered differently before and after the first overflow. No update raises. (The two zeros count as the same number.)",
 "every window size, every stream of doubles, infinities and nans included (binary64)", "Tests use streams of numbers; the rule changes at one instant that depends on the window size.",
 ["pysad/statistics/max_meter.py:MaxMeter", "pysad/statistics/min_meter.py:MinMeter", "pysad/statistics/running_statistic.py:RunningStatistic.update"])
