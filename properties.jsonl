{"id": "C01", "title": "A pruning schedule fires exactly on its declared steps", "statement": "For every ConstantSparsity or PolynomialDecay object the constructor accepts, calling it with a training step reports \"prune now\" exactly when step = begin_step + k*frequency for some k >= 0 and, unless end_step is -1 (no end), step <= end_step.", "quantifier": "all integer begin/end/frequency accepted by the constructor and all integer steps (including negative ones)", "why_tests_cant": "tests sample a few steps of a few schedules; boundary steps and unreachable end_step values (not begin + k*frequency) form an infinite family", "anchors": ["tensorflow_model_optimization/python/core/sparsity/keras/pruning_schedule.py::PruningSchedule._should_prune_in_step", "tensorflow_model_optimization/python/core/sparsity/keras/pruning_schedule.py::ConstantSparsity.__call__", "tensorflow_model_optimization/python/core/sparsity/keras/pruning_schedule.py::PolynomialDecay.__call__"]}
{"id": "C02", "title": "Schedule constructors accept exactly the documented argument ranges", "statement": "ConstantSparsity/PolynomialDecay construction succeeds iff every sparsity is in [0,1), begin_step >= 0, frequency > 0 and either end_step = -1 (ConstantSparsity only) or end_step >= max(begin_step,0); otherwise ValueError.", "quantifier": "all integer step arguments and all rational sparsities", "why_tests_cant": "the rejected set is an infinite union of half spaces; tests check single points", "anchors": ["tensorflow_model_optimization/python/core/sparsity/keras/pruning_schedule.py::PruningSchedule._validate_step", "tensorflow_model_optimization/python/core/sparsity/keras/pruning_schedule.py::PruningSchedule._validate_sparsity"]}
{"id": "C03", "title": "Polynomial decay stays between the two sparsities, is monotone and hits both ends", "statement": "For an accepted PolynomialDecay with begin_step < end_step and power > 0 the target sparsity equals initial_sparsity for every step <= begin_step and final_sparsity for every step >= end_step, always lies between the two, is monotone in the step, and so always is in [0,1).", "quantifier": "all accepted parameters (real power > 0) and all steps", "why_tests_cant": "continuum of exponents and unbounded steps", "anchors": ["tensorflow_model_optimization/python/core/sparsity/keras/pruning_schedule.py::PolynomialDecay.__call__"]}
{"id": "C04", "title": "Every accepted polynomial schedule yields a number at every step", "statement": "Every PolynomialDecay object the constructor accepts returns a finite target sparsity (never NaN) on every step on which it asks to prune.", "quantifier": "all accepted parameters, all steps", "why_tests_cant": "a NaN needs the degenerate begin_step == end_step case at exactly one step, which no sampled test hits", "anchors": ["tensorflow_model_optimization/python/core/sparsity/keras/pruning_schedule.py::PolynomialDecay.__call__", "tensorflow_model_optimization/python/core/sparsity/keras/pruning_schedule.py::PruningSchedule._validate_step"]}
{"id": "C05", "title": "A magnitude mask keeps the largest-magnitude weights", "statement": "After a (non m-by-n, block 1x1) mask update at sparsity s every kept weight has magnitude >= every pruned weight, strictly greater in fact; the mask is exactly the set of weights whose magnitude is >= the k-th largest magnitude, where k = max(1, round(size*(1-s))); the stored threshold is that k-th largest magnitude.", "quantifier": "all weight tensors of any size >= 1 and all sparsities in [0,1)", "why_tests_cant": "must hold for every weight vector, including ties, zeros and negative values", "anchors": ["tensorflow_model_optimization/python/core/sparsity/keras/pruning_impl.py::Pruning._update_mask", "tensorflow_model_optimization/python/core/sparsity/keras/pruning_impl.py::Pruning._maybe_update_block_mask"]}
{"id": "C06", "title": "A magnitude mask reaches the requested sparsity and never removes everything", "statement": "The number of kept weights is at least k = max(1, round(size*(1-s))) (so at least one weight always survives), and is exactly k when no two weights have equal magnitude; k differs from size*(1-s) by at most 1/2 unless it was raised to 1.", "quantifier": "all weight tensors, all sparsities in [0,1)", "why_tests_cant": "counting statement over all tensors and rounding boundaries", "anchors": ["tensorflow_model_optimization/python/core/sparsity/keras/pruning_impl.py::Pruning._update_mask"]}
{"id": "C07", "title": "The requested sparsity is reached for every weight tensor", "statement": "For every weight tensor and sparsity s the mask update leaves exactly max(1, round(size*(1-s))) weights.", "quantifier": "all weight tensors including tensors with equal magnitudes", "why_tests_cant": "random float tensors in tests have no ties, so tests cannot see the failure on tied magnitudes", "anchors": ["tensorflow_model_optimization/python/core/sparsity/keras/pruning_impl.py::Pruning._update_mask"]}
{"id": "C08", "title": "Block pruning prunes whole blocks, chosen by pooled magnitude", "statement": "With a block size (bh,bw) the mask has the shape of the weight, is constant on every aligned bh x bw block, and a block is kept iff its pooled (AVG or MAX) magnitude is >= the k-th largest pooled magnitude; when a pooled dimension collapses to 1 the update is rejected with an error instead of producing a wrong mask.", "quantifier": "all 2-D weight shapes (also not divisible by the block), all blocks, all sparsities", "why_tests_cant": "shape arithmetic over all sizes and non-divisible borders", "anchors": ["tensorflow_model_optimization/python/core/sparsity/keras/pruning_impl.py::Pruning._maybe_update_block_mask", "tensorflow_model_optimization/python/core/sparsity/keras/pruning_utils.py::expand_tensor", "tensorflow_model_optimization/python/core/sparsity/keras/pruning_utils.py::factorized_pool"]}
{"id": "C09", "title": "Mask expansion replicates every entry over its block", "statement": "expand_tensor(t,[bh,bw]) has shape (bh*rows, bw*cols) and entry (i,j) equals t[i//bh, j//bw], i.e. it is the Kronecker product with an all-ones block; kronecker_product itself satisfies the index law for every pair of matrices.", "quantifier": "all matrices and positive block sizes", "why_tests_cant": "index law over unbounded shapes", "anchors": ["tensorflow_model_optimization/python/core/sparsity/keras/pruning_utils.py::expand_tensor", "tensorflow_model_optimization/python/core/sparsity/keras/pruning_utils.py::kronecker_product"]}
{"id": "C10", "title": "An m-by-n mask removes at least m of every n consecutive weights and keeps the largest", "statement": "In each row of the 2-D arrangement, every aligned group of n consecutive entries has exactly n-m kept positions (counting padding), the kept entries have magnitude >= the dropped ones, and a group lying inside the row has exactly m dropped weights. On the weight itself the groups run over consecutive input channels, separately for every output channel and kernel position.", "quantifier": "all 2-D weights, all 0 < m < n", "why_tests_cant": "all row lengths, divisible or not by n, all ties", "anchors": ["tensorflow_model_optimization/python/core/sparsity/keras/pruning_utils.py::generate_m_by_n_mask"]}
{"id": "C11", "title": "The m-by-n checker accepts every weight tensor the m-by-n pruner produced", "statement": "For every rank-2 or rank-4 weight w and 0<m<n, multiplying w by the mask produced by the pruner gives a tensor on which is_pruned_m_by_n returns True (with the matching last_channel); and in general is_pruned_m_by_n returns True exactly when every aligned group of n consecutive input channels has at most n-m non-zero weights.", "quantifier": "all rank 2/4 shapes and contents, all m<n", "why_tests_cant": "cross-checks two separate index computations over all shapes", "anchors": ["tensorflow_model_optimization/python/core/sparsity/keras/pruning_utils.py::generate_m_by_n_mask", "tensorflow_model_optimization/python/core/sparsity/keras/pruning_utils.py::is_pruned_m_by_n", "tensorflow_model_optimization/python/core/sparsity/keras/pruning_utils.py::weights_rearrange", "tensorflow_model_optimization/python/core/sparsity/keras/pruning_utils.py::m_by_n_sparsity_mask_prepare"]}
{"id": "C12", "title": "Rearranging to 2-D and back is lossless", "statement": "m_by_n_sparsity_mask_prepare(weights_rearrange(w), shape(w)) = w for every rank-2 and rank-4 tensor, so each mask entry lands on the weight it was computed from; other ranks raise ValueError.", "quantifier": "all rank 2/4 shapes and contents", "why_tests_cant": "permutation identity over all shapes", "anchors": ["tensorflow_model_optimization/python/core/sparsity/keras/pruning_utils.py::weights_rearrange", "tensorflow_model_optimization/python/core/sparsity/keras/pruning_utils.py::m_by_n_sparsity_mask_prepare"]}
{"id": "C13", "title": "The pruning step counts training batches, across any number of fit calls", "statement": "With the UpdatePruningStep callback, after any sequence of fit calls, training batches, evaluations, epoch ends the step of a wrapped layer equals the number of training batches run since the first fit; evaluation never advances it and a later fit never resets it.", "quantifier": "all histories of fit/epoch/batch/evaluate events", "why_tests_cant": "histories are unbounded", "anchors": ["tensorflow_model_optimization/python/core/sparsity/keras/pruning_wrapper.py::PruneLowMagnitude.call", "tensorflow_model_optimization/python/core/sparsity/keras/pruning_wrapper.py::PruneLowMagnitude.build", "tensorflow_model_optimization/python/core/sparsity/keras/pruning_callbacks.py::UpdatePruningStep.on_train_begin"]}
{"id": "C14", "title": "Training without the callback is an error, never silent", "statement": "A training batch on a wrapped layer raises the \"must add UpdatePruningStep\" error whenever no training begin was signalled before it, and never raises it afterwards.", "quantifier": "all histories", "why_tests_cant": "needs every history", "anchors": ["tensorflow_model_optimization/python/core/sparsity/keras/pruning_wrapper.py::PruneLowMagnitude.call", "tensorflow_model_optimization/python/core/sparsity/keras/pruning_callbacks.py::UpdatePruningStep.on_train_begin"]}
{"id": "C15", "title": "Pruned weights are zero wherever the mask is zero after every forward pass and every epoch end", "statement": "After any forward pass, and after each epoch end with the callback, every weight whose mask entry is 0 is exactly 0, whatever the optimizer did in between; weights whose mask entry is 1 are unchanged by masking. Hence stripping after fit yields weights at least as sparse as the mask.", "quantifier": "all histories with arbitrary optimizer updates", "why_tests_cant": "arbitrary interleaving of optimizer writes and masking", "anchors": ["tensorflow_model_optimization/python/core/sparsity/keras/pruning_impl.py::Pruning.weight_mask_op", "tensorflow_model_optimization/python/core/sparsity/keras/pruning_impl.py::Pruning._weight_assign_objs", "tensorflow_model_optimization/python/core/sparsity/keras/pruning_callbacks.py::UpdatePruningStep.on_epoch_end"]}
{"id": "C16", "title": "Masks change only on scheduled training steps", "statement": "Between scheduled steps, during evaluation, and after end_step, the mask and threshold of a wrapped layer never change, whatever happens to the weights; on a scheduled training step the new mask is the one determined by the current weights and the schedule sparsity. In m-by-n mode the mask is computed on the first training step only.", "quantifier": "all histories", "why_tests_cant": "unbounded histories", "anchors": ["tensorflow_model_optimization/python/core/sparsity/keras/pruning_impl.py::Pruning.conditional_mask_update", "tensorflow_model_optimization/python/core/sparsity/keras/pruning_wrapper.py::PruneLowMagnitude.call"]}
{"id": "C17", "title": "Starting to train initialises every pruned layer", "statement": "After on_train_begin of UpdatePruningStep every pruned layer has a step >= 0 and no layer that already has a step loses it.", "quantifier": "all models, including ones mixing freshly wrapped and already trained pruned layers", "why_tests_cant": "needs models whose layers have different training histories", "anchors": ["tensorflow_model_optimization/python/core/sparsity/keras/pruning_callbacks.py::UpdatePruningStep.on_train_begin"]}
{"id": "C18", "title": "strip_pruning undoes prune_low_magnitude, keeping the weights", "statement": "For every (arbitrarily nested) Sequential/functional model made of supported layers, strip_pruning(prune_low_magnitude(m)) is m: same layers in the same nesting and order, same weights; stripping removes every wrapper at every depth.", "quantifier": "all finite nestings of models and layers", "why_tests_cant": "unbounded nesting depth and layer sequences", "anchors": ["tensorflow_model_optimization/python/core/sparsity/keras/prune.py::prune_low_magnitude", "tensorflow_model_optimization/python/core/sparsity/keras/prune.py::strip_pruning"]}
{"id": "C19", "title": "Pruning is idempotent and wraps exactly what it may", "statement": "prune_low_magnitude wraps every plain supported layer (allowed by the policy, when one is given), leaves already wrapped layers and input layers alone, so applying it twice equals applying it once; an unsupported layer makes the call fail with an error and nothing is silently skipped.", "quantifier": "all nested models and all policies", "why_tests_cant": "unbounded nesting", "anchors": ["tensorflow_model_optimization/python/core/sparsity/keras/prune.py::prune_low_magnitude", "tensorflow_model_optimization/python/core/sparsity/keras/pruning_wrapper.py::PruneLowMagnitude.__init__"]}
{"id": "C20", "title": "Saving and reloading a pruning wrapper preserves its configuration", "statement": "from_config(get_config(w)) has the same schedule, block size, pooling type and m-by-n setting as w.", "quantifier": "all wrapper configurations", "why_tests_cant": "must hold for every configuration, tests use a few", "anchors": ["tensorflow_model_optimization/python/core/sparsity/keras/pruning_wrapper.py::PruneLowMagnitude.get_config", "tensorflow_model_optimization/python/core/sparsity/keras/pruning_wrapper.py::PruneLowMagnitude.from_config", "tensorflow_model_optimization/python/core/sparsity/keras/pruning_schedule.py::ConstantSparsity.get_config", "tensorflow_model_optimization/python/core/sparsity/keras/pruning_schedule.py::PolynomialDecay.get_config"]}
{"id": "C21", "title": "The latency policy search finds exactly the frontier layers or gives up", "statement": "_lookup: starting from the input layers and following the model graph, the search of PruneForLatencyOnXNNPack returns precisely the set of first layers satisfying the stop criterion on paths from the start, and returns the empty set iff some path leaves the model through a layer that does not satisfy it; it terminates on every acyclic graph.", "quantifier": "all finite DAG models", "why_tests_cant": "graphs of every size", "anchors": ["tensorflow_model_optimization/python/core/sparsity/keras/pruning_policy.py::PruneForLatencyOnXNNPack._lookup_layers", "tensorflow_model_optimization/python/core/sparsity/keras/pruning_policy.py::PruneForLatencyOnXNNPack.ensure_model_supports_pruning"]}
{"id": "C22", "title": "Every clustered weight is a nearest centroid", "statement": "The clustered value of a weight is one of the centroids and no other centroid is strictly closer to the original weight (lowest index on ties); hence a clustered tensor has at most number_of_clusters distinct values, and clustering an already clustered tensor with the same centroids changes nothing.", "quantifier": "all weight tensors with entries above -1e6 (see C26 for the others), non-empty centroid vectors, and any history of updates", "why_tests_cant": "for all tensors, including ties and duplicate centroids", "anchors": ["tensorflow_model_optimization/python/core/clustering/keras/clustering_algorithm.py::ClusteringAlgorithm.get_pulling_indices", "tensorflow_model_optimization/python/core/clustering/keras/clustering_algorithm.py::ClusteringAlgorithm.get_clustered_weight"]}
{"id": "C23", "title": "Per-channel clustering clusters every channel with its own centroids", "statement": "With cluster_per_channel each output channel of a Conv2D kernel only contains values of that channel’s centroid row, each nearest to its original weight, so each channel has at most number_of_clusters distinct values.", "quantifier": "all channel counts, kernels, centroids", "why_tests_cant": "unbounded shapes", "anchors": ["tensorflow_model_optimization/python/core/clustering/keras/clustering_algorithm.py::ClusteringAlgorithmPerChannel"]}
{"id": "C24", "title": "Sparsity is preserved by clustering for any training history", "statement": "With preserve_sparsity, every weight that was exactly zero when the wrapper was built is exactly zero in the clustered weights used in every later forward pass, whatever gradient updates hit the centroids and the original weights.", "quantifier": "all weights, centroids and unbounded sequences of arbitrary updates", "why_tests_cant": "unbounded adversarial histories", "anchors": ["tensorflow_model_optimization/python/core/clustering/keras/cluster_wrapper.py::ClusterWeights.build", "tensorflow_model_optimization/python/core/clustering/keras/cluster_wrapper.py::ClusterWeights.update_clustered_weights_associations"]}
{"id": "C25", "title": "Centroid gradients aggregate exactly the gradients of the member weights", "statement": "The gradient reaching centroid j is the sum (SUM) or the mean (AVG) of the upstream gradients of the weights assigned to j and 0 when the cluster is empty; every weight contributes to exactly one centroid.", "quantifier": "all gradients and assignments", "why_tests_cant": "sums over all tensors", "anchors": ["tensorflow_model_optimization/python/core/clustering/keras/clustering_algorithm.py::ClusteringAlgorithm.average_centroids_gradient_by_cluster_size", "tensorflow_model_optimization/python/core/clustering/keras/clustering_algorithm.py::ClusteringAlgorithm.get_clustered_weight"]}
{"id": "C26", "title": "The straight-through estimator passes gradients to the original weights unchanged", "statement": "The forward value produced by the straight-through step is the clustered weight and the gradient to the original weight is the upstream gradient, for every weight value.", "quantifier": "all real weights", "why_tests_cant": "tests use weights of order 1; the failure needs |w| >= 1e6", "anchors": ["tensorflow_model_optimization/python/core/clustering/keras/clustering_algorithm.py::ClusteringAlgorithm.add_gradient_to_original_weight"]}
{"id": "C27", "title": "Zero-centroid initialisation returns the requested number of centroids with exactly one zero among them", "statement": "For sparsity-preserving initialisation of a tensor that has both zero and non-zero weights the returned vector has number_of_clusters entries, arranged as negative-side centroids, 0, positive-side centroids, with the non-zero budget split in proportion to the number of negative and positive weights (a side without weights gets none).", "quantifier": "all weight tensors, all cluster counts >= 3", "why_tests_cant": "rounding boundaries and one-sided tensors", "anchors": ["tensorflow_model_optimization/python/core/clustering/keras/clustering_centroids.py::AbstractCentroidsInitialisation._zero_centroid_initialization"]}
{"id": "C28", "title": "Linear initialisation spans the weight range evenly", "statement": "Linear initialisation returns number_of_clusters equally spaced values from min(w) to max(w), inclusive.", "quantifier": "all tensors and cluster counts", "why_tests_cant": "all sizes", "anchors": ["tensorflow_model_optimization/python/core/clustering/keras/clustering_centroids.py::LinearCentroidsInitialisation._calculate_centroids_for_interval"]}
{"id": "C29", "title": "Density-based initialisation interpolates the empirical distribution", "statement": "Each density-based centroid is obtained by linear interpolation of the CDF between two neighbouring grid points.", "quantifier": "all weight tensors", "why_tests_cant": "the interpolation only degenerates algebraically; no numerical test compares it with the grid", "anchors": ["tensorflow_model_optimization/python/core/clustering/keras/clustering_centroids.py::TFLinearEquationSolver", "tensorflow_model_optimization/python/core/clustering/keras/clustering_centroids.py::DensityBasedCentroidsInitialisation"]}
{"id": "C30", "title": "strip_clustering puts every weight back in its original position", "statement": "strip_clustering restores a layer whose weight list has the original order, with each clusterable weight replaced by its clustered value and every other weight unchanged.", "quantifier": "all layers, all registration orders of clusterable weights", "why_tests_cant": "depends on the order of positions, unbounded lists", "anchors": ["tensorflow_model_optimization/python/core/clustering/keras/cluster.py::strip_clustering", "tensorflow_model_optimization/python/core/clustering/keras/cluster.py::_strip_clustering_wrapper"]}
{"id": "C31", "title": "Clustering arguments are rejected exactly when documented", "statement": "A layer is wrapped, with exactly the requested settings, iff it is supported and number_of_clusters is an int >= 2 (>= 3 with preserve_sparsity); otherwise an error is raised. Exceptions: cluster_per_channel is ignored for layers other than Conv2D; a Conv2D whose clustering unit has no more weights than clusters is left as it is; a Conv2D without trainable weights is rejected; wrapped layers are left as they are and input layers are cloned.", "quantifier": "all argument combinations", "why_tests_cant": "infinite argument space", "anchors": ["tensorflow_model_optimization/python/core/clustering/keras/cluster_wrapper.py::ClusterWeights.__init__", "tensorflow_model_optimization/python/core/clustering/keras/cluster.py::_cluster_weights"]}
{"id": "C32", "title": "Clustering wrapper configuration round-trips", "statement": "from_config(get_config(w)) has the same clusters, initialiser, sparsity flag, gradient aggregation and per-channel flag.", "quantifier": "all configurations", "why_tests_cant": "all configurations", "anchors": ["tensorflow_model_optimization/python/core/clustering/keras/cluster_wrapper.py::ClusterWeights.get_config", "tensorflow_model_optimization/python/core/clustering/keras/cluster_wrapper.py::ClusterWeights.from_config"]}
{"id": "C33", "title": "Fake quantization is a clamped rounding to at most 2^bits levels containing zero", "statement": "For min < 0 < max (or touching 0) fake quantization maps every input to one of the 2^bits (2^bits-1 when narrow) equally spaced levels of the nudged range, maps 0 to exactly 0, is monotone, moves inputs inside the nudged range by at most half a step, clamps the others to the ends, and is idempotent.", "quantifier": "all rational inputs, ranges and bit widths >= 2", "why_tests_cant": "continuum of inputs and ranges", "anchors": ["tensorflow_model_optimization/python/core/quantization/keras/quant_ops.py::_FakeQuantWithMinMaxVars"]}
{"id": "C34", "title": "Quantization ranges always include zero, whatever batches were seen", "statement": "For LastValue, MovingAverage and AllValues quantizers, after any sequence of training and inference calls the stored range satisfies min <= 0 <= max; with symmetric=True a training call of LastValue stores max = -min*(…) with the documented ratio.", "quantifier": "all sequences of batches of any size", "why_tests_cant": "unbounded history of arbitrary tensors", "anchors": ["tensorflow_model_optimization/python/core/quantization/keras/quant_ops.py::LastValueQuantize", "tensorflow_model_optimization/python/core/quantization/keras/quant_ops.py::MovingAvgQuantize", "tensorflow_model_optimization/python/core/quantization/keras/quant_ops.py::AllValuesQuantize", "tensorflow_model_optimization/python/core/quantization/keras/quantizers.py::_QuantizeHelper._add_range_weights"]}
{"id": "C35", "title": "AllValues range covers everything seen and only grows; LastValue range is that of the last batch; the moving average stays in the hull", "statement": "After any history of training calls AllValues’ range is exactly [min(0,all values seen), max(0,all values seen)]; LastValue’s is determined by the last training batch alone; each MovingAverage bound is the exponential average old - (old-batch)*(1-decay), hence always between its initial value and the batch extremes seen.", "quantifier": "all histories", "why_tests_cant": "unbounded history", "anchors": ["tensorflow_model_optimization/python/core/quantization/keras/quant_ops.py::AllValuesQuantize", "tensorflow_model_optimization/python/core/quantization/keras/quant_ops.py::LastValueQuantize", "tensorflow_model_optimization/python/core/quantization/keras/quant_ops.py::MovingAvgQuantize"]}
{"id": "C36", "title": "Inference never changes quantizer state", "statement": "Calling any quantizer with training=False leaves its range untouched and its output depends only on the input and the stored range.", "quantifier": "all states and inputs", "why_tests_cant": "all histories", "anchors": ["tensorflow_model_optimization/python/core/quantization/keras/quant_ops.py::LastValueQuantize", "tensorflow_model_optimization/python/core/quantization/keras/quant_ops.py::MovingAvgQuantize", "tensorflow_model_optimization/python/core/quantization/keras/quant_ops.py::AllValuesQuantize"]}
{"id": "C37", "title": "Per-axis quantization treats channels independently", "statement": "With per_axis the range of channel c is computed from channel c only and values of channel c are quantized with that range only, for weights of rank 1, 2 and 4; other ranks are rejected.", "quantifier": "all shapes and contents", "why_tests_cant": "all shapes", "anchors": ["tensorflow_model_optimization/python/core/quantization/keras/quant_ops.py::LastValueQuantize"]}
{"id": "C38", "title": "num_bits is honoured by every quantizer", "statement": "A quantizer constructed with num_bits=b produces at most 2^b distinct output levels.", "quantifier": "all quantizer classes and bit widths", "why_tests_cant": "FixedQuantizer is only tested at 8 bits", "anchors": ["tensorflow_model_optimization/python/core/quantization/keras/quantizers.py::FixedQuantizer", "tensorflow_model_optimization/python/core/quantization/keras/quant_ops.py::FixedQuantize"]}
{"id": "C39", "title": "Every constructible quantizer can be built and called", "statement": "Any quantizer whose constructor accepts per_axis can quantize a rank 2 or 4 tensor after build.", "quantifier": "all quantizer configurations", "why_tests_cant": "MovingAverageQuantizer(per_axis=True) is never called in tests", "anchors": ["tensorflow_model_optimization/python/core/quantization/keras/quantizers.py::MovingAverageQuantizer.build", "tensorflow_model_optimization/python/core/quantization/keras/quant_ops.py::_FakeQuantWithMinMaxVars", "tensorflow_model_optimization/python/core/quantization/keras/quant_ops.py::MovingAvgQuantize"]}
{"id": "C40", "title": "Quantizer configurations round-trip and equality means equal configuration", "statement": "from_config(get_config(q)) == q for every quantizer, and two quantizers/QuantizeConfigs compare equal iff all their settings are equal.", "quantifier": "all configurations", "why_tests_cant": "all configurations", "anchors": ["tensorflow_model_optimization/python/core/quantization/keras/quantizers.py::LastValueQuantizer.__eq__", "tensorflow_model_optimization/python/core/quantization/keras/default_8bit/default_8bit_quantize_registry.py::Default8BitQuantizeConfig.__eq__"]}
{"id": "C41", "title": "Quantization-aware forward passes never modify the trained weights", "statement": "A QuantizeWrapper computes its effective weights as quantizer(stored weight) afresh in every call; any number of forward passes leaves the stored weights unchanged (no accumulation of quantization error) and the trainable weight list contains each stored weight exactly once.", "quantifier": "all numbers and modes of calls", "why_tests_cant": "unbounded call histories", "anchors": ["tensorflow_model_optimization/python/core/quantization/keras/quantize_wrapper.py::QuantizeWrapper.call", "tensorflow_model_optimization/python/core/quantization/keras/quantize_wrapper.py::QuantizeWrapper.build", "tensorflow_model_optimization/python/core/quantization/keras/quantize_wrapper.py::QuantizeWrapperV2.trainable_weights"]}
{"id": "C42", "title": "Activations are fake-quantized before or after exactly as declared", "statement": "QuantizeAwareActivation quantizes the input iff the activation is in the pre list, the output iff in the post list, does nothing for NoOp activations and rejects others; training and inference use the same decision.", "quantifier": "all activation names", "why_tests_cant": "all names", "anchors": ["tensorflow_model_optimization/python/core/quantization/keras/quantize_aware_activation.py::QuantizeAwareActivation"]}
{"id": "C43", "title": "quantize_annotate_model annotates every layer exactly once and nothing else", "statement": "Annotation wraps every layer except already annotated ones and Lambda layers, keeps order, is idempotent, and fails on nested models.", "quantifier": "all layer sequences", "why_tests_cant": "unbounded models", "anchors": ["tensorflow_model_optimization/python/core/quantization/keras/quantize.py::quantize_annotate_model"]}
{"id": "C44", "title": "quantize_apply quantizes exactly the annotated layers, keeps all others and all weights", "statement": "In the model returned by quantize_apply every annotated layer (other than SeparableConv, which is decomposed) occurs exactly once, wrapped under the prefixed name, with its class, name, weights and configuration up to the activation, and with its own config, the registry config of its class or a library no-op/output config; every un-annotated layer keeps class, name, configuration, weights and connections and stays unwrapped unless it is the sole un-annotated producer of an annotated layer with a registered class, in which case only its output is quantized; nothing else is added except QuantizeLayers and the parts of SeparableConvs; models without annotation or unbuilt raise ValueError, unsupported annotated layers never give a result, and the call returns.", "quantifier": "all annotated models", "why_tests_cant": "unbounded models", "anchors": ["tensorflow_model_optimization/python/core/quantization/keras/quantize.py::quantize_apply"]}
{"id": "C45", "title": "A user-supplied QuantizeConfig is never overridden", "statement": "If a layer is annotated with a custom QuantizeConfig, that config is the one used in the quantized model.", "quantifier": "all models and configs", "why_tests_cant": "needs the interplay of annotation with every layout transform", "anchors": ["tensorflow_model_optimization/python/core/quantization/keras/default_8bit/default_8bit_transforms.py::LayerReLUQuantize", "tensorflow_model_optimization/python/core/quantization/keras/default_8bit/default_8bit_transforms.py::Conv2DBatchNormQuantize"]}
{"id": "C46", "title": "Graph transformation terminates, touches only candidate layers and preserves weights", "statement": "ModelTransformer.transform terminates for transforms that introduce finitely many layer names; it modifies only matches whose candidate layers are all allowed; weights of layers present before and after are equal; rewritten graphs keep every consumer of a replaced layer connected to its replacement.", "quantifier": "all models and match sets", "why_tests_cant": "unbounded rewriting", "anchors": ["tensorflow_model_optimization/python/core/quantization/keras/graph_transformations/model_transformer.py::ModelTransformer.transform", "tensorflow_model_optimization/python/core/quantization/keras/graph_transformations/model_transformer.py::ModelTransformer._replace"]}
{"id": "C47", "title": "ModelTransformer.transform always terminates", "statement": "For every model and every list of transforms transform() returns.", "quantifier": "all models, all transforms", "why_tests_cant": "needs a transform that renames what it matches", "anchors": ["tensorflow_model_optimization/python/core/quantization/keras/graph_transformations/model_transformer.py::ModelTransformer.transform"]}
{"id": "C48", "title": "fix_input_output_range and remove_input_range accept every quantized model and change only the two ranges", "statement": "fix_input_output_range works on every quantized model (Sequential with at least one layer, or functional): it changes exactly the quantizers fed by model inputs and the configs of the output layers; remove_input_range likewise.", "quantifier": "all Sequential models", "why_tests_cant": "single-layer models are not tested", "anchors": ["tensorflow_model_optimization/python/core/quantization/keras/quantize.py::fix_input_output_range"]}
{"id": "C49", "title": "Prune-preserving QAT keeps every pruned weight at zero", "statement": "With the prune-preserving scheme every weight that was zero when the quantizer was built is exactly zero in the quantized kernel of every later call, for any training updates to the float weights.", "quantifier": "all weights, all unbounded update histories", "why_tests_cant": "unbounded adversarial histories", "anchors": ["tensorflow_model_optimization/python/core/quantization/keras/collab_opts/prune_preserve/prune_preserve_quantize_registry.py::PrunePreserveDefaultWeightsQuantizer"]}
{"id": "C50", "title": "Cluster-preserving QAT keeps the number of distinct weights and, with preserve_sparsity, the zeros", "statement": "After any training call the layer kernel only contains centroid values (at most as many as the kernel had distinct values at build), and with preserve_sparsity positions that were zero stay zero.", "quantifier": "all kernels and update histories", "why_tests_cant": "unbounded histories", "anchors": ["tensorflow_model_optimization/python/core/quantization/keras/collab_opts/cluster_preserve/cluster_preserve_quantize_registry.py::ClusterPreserveDefaultWeightsQuantizer", "tensorflow_model_optimization/python/core/quantization/keras/collab_opts/cluster_preserve/cluster_preserve_quantize_registry.py::get_unique"]}
{"id": "C51", "title": "preserve_sparsity of one layer does not depend on other layers", "statement": "Whether a layer’s sparsity is preserved under preserve_sparsity depends only on that layer containing zeros.", "quantifier": "all multi-layer models", "why_tests_cant": "needs a model mixing layers with and without zeros", "anchors": ["tensorflow_model_optimization/python/core/quantization/keras/collab_opts/cluster_preserve/cluster_preserve_quantize_registry.py::ClusterPreserveDefaultWeightsQuantizer._build_clusters", "tensorflow_model_optimization/python/core/quantization/keras/collab_opts/cluster_preserve/cluster_preserve_quantize_registry.py::ClusterPreserveQuantizeRegistry.__init__"]}
{"id": "C52", "title": "Bit packing is lossless for every bit width and shape", "statement": "unpack_from_int(pack_into_int(v,b,28),b,28,shape(v)) = v for every b in 1..16 and every tensor of integers in [0,2^b); packed integers are in [0,2^28) and, for statically known shapes, their number is ceil(b*size/28).", "quantifier": "all tensors, all bit widths", "why_tests_cant": "all lengths modulo the packing period and all values", "anchors": ["tensorflow_model_optimization/python/core/internal/tensor_encoding/utils/tf_utils.py::pack_into_int", "tensorflow_model_optimization/python/core/internal/tensor_encoding/utils/tf_utils.py::unpack_from_int", "tensorflow_model_optimization/python/core/internal/tensor_encoding/stages/stages_impl.py::BitpackingEncodingStage"]}
{"id": "C53", "title": "Uniform quantization error is at most one step, half a step when deterministic, and codes fit in the declared bits", "statement": "Encoding then decoding with UniformQuantizationEncodingStage moves each (clipped) value by less than (max-min)/(2^bits-1), at most half of that with stochastic=False; codes are integers in [0,2^bits-1]; extremes are reproduced exactly; a constant tensor is reproduced exactly.", "quantifier": "all tensors, ranges, random draws", "why_tests_cant": "continuum of inputs and random draws", "anchors": ["tensorflow_model_optimization/python/core/internal/tensor_encoding/stages/stages_impl.py::UniformQuantizationEncodingStage"]}
{"id": "C54", "title": "The fast Walsh-Hadamard transform is its own inverse and the Hadamard stage is lossless", "statement": "Applying the normalised transform twice is the identity for every power-of-two dimension; the Hadamard stage decodes to its input for every dimension (padding included) whenever the random signs are +-1.", "quantifier": "all dimensions and vectors", "why_tests_cant": "all power-of-two sizes", "anchors": ["tensorflow_model_optimization/python/core/internal/tensor_encoding/utils/tf_utils.py::fast_walsh_hadamard_transform", "tensorflow_model_optimization/python/core/internal/tensor_encoding/stages/stages_impl.py::HadamardEncodingStage"]}
{"id": "C55", "title": "random_signs returns only +1/-1", "statement": "Every entry of random_signs is +1 or -1 for every value the underlying uniform generator on [0,1) can return.", "quantifier": "all uniform draws", "why_tests_cant": "the failing draw has probability 2^-23", "anchors": ["tensorflow_model_optimization/python/core/internal/tensor_encoding/utils/tf_utils.py::random_signs"]}
{"id": "C56", "title": "Kashin encoding without final clipping is lossless", "statement": "With last_iter_clip=False the Kashin-Hadamard stage decodes to its input exactly for every number of iterations, every eta, delta and clip level.", "quantifier": "all vectors, iterations, parameters", "why_tests_cant": "unbounded iterations, real parameters", "anchors": ["tensorflow_model_optimization/python/core/internal/tensor_encoding/stages/research/kashin.py::KashinHadamardEncodingStage"]}
{"id": "C57", "title": "Sparse splitting and integer differencing are exact", "statement": "SplitBySmallValue decodes to the input with entries of magnitude <= threshold replaced by zero; DifferenceBetweenIntegers decodes to its input.", "quantifier": "all vectors and thresholds", "why_tests_cant": "all lengths", "anchors": ["tensorflow_model_optimization/python/core/internal/tensor_encoding/stages/research/misc.py"]}
{"id": "C58", "title": "A tree of lossless stages is lossless", "statement": "For every encoder tree whose stages satisfy decode(encode(x)) = x, Encoder.decode(Encoder.encode(x)) = x, for any nesting.", "quantifier": "all finite trees of stages", "why_tests_cant": "unbounded trees", "anchors": ["tensorflow_model_optimization/python/core/internal/tensor_encoding/core/core_encoder.py::Encoder"]}
{"id": "C59", "title": "decode_after_sum o decode_before_sum is decode, and sums may be taken in between", "statement": "For a single summand the two-phase decoding equals decode for every tree; for n summands of a tree, summing the part-decoded structures and decoding after the sum equals the sum of the full decodings, provided stages that declare commutes_with_sum do commute; before/after phases only use the parameters assigned to them by the commuting structure.", "quantifier": "all trees, all numbers of summands", "why_tests_cant": "unbounded trees and summands", "anchors": ["tensorflow_model_optimization/python/core/internal/tensor_encoding/core/core_encoder.py::Encoder.decode_before_sum", "tensorflow_model_optimization/python/core/internal/tensor_encoding/core/core_encoder.py::Encoder.decode_after_sum", "tensorflow_model_optimization/python/core/internal/tensor_encoding/core/core_encoder.py::split_params_by_commuting_structure"]}
{"id": "C60", "title": "GatherEncoder.fully_commutes_with_sum is true iff every stage commutes", "statement": "The property is truthy iff every stage of the encoder tree commutes with sum (agreeing with Encoder.fully_commutes_with_sum).", "quantifier": "all trees", "why_tests_cant": "needs a mixed tree", "anchors": ["tensorflow_model_optimization/python/core/internal/tensor_encoding/core/gather_encoder.py::GatherEncoder.fully_commutes_with_sum", "tensorflow_model_optimization/python/core/internal/tensor_encoding/core/core_encoder.py::Encoder.fully_commutes_with_sum"]}
{"id": "C61", "title": "Splitting Python and TensorFlow values and merging them back loses nothing", "statement": "merge_dicts(split_dict_py_tf(d)) has the same value at every path as d, for arbitrarily nested dictionaries; merge_dicts rejects dictionaries of conflicting structure.", "quantifier": "all nested dictionaries", "why_tests_cant": "unbounded nesting", "anchors": ["tensorflow_model_optimization/python/core/internal/tensor_encoding/utils/py_utils.py::split_dict_py_tf", "tensorflow_model_optimization/python/core/internal/tensor_encoding/utils/py_utils.py::merge_dicts"]}
{"id": "C62", "title": "SimpleEncoder/GatherEncoder reassemble every tensor at its own key", "statement": "Flattening an encoded structure to joined string keys and repacking it (both in sorted key order) puts every tensor back at its own path.", "quantifier": "all nested key structures", "why_tests_cant": "depends on the collation of separator and key characters", "anchors": ["tensorflow_model_optimization/python/core/internal/tensor_encoding/core/simple_encoder.py::SimpleEncoder", "tensorflow_model_optimization/python/core/internal/tensor_encoding/utils/py_utils.py::flatten_with_joined_string_paths"]}
{"id": "C63", "title": "Shared-seed quantization recovers each value to half a step", "statement": "PRNGUniformQuantization decodes each value to within half a quantization step of the input for every random draw (and may leave the input range only by that much).", "quantifier": "all tensors, draws", "why_tests_cant": "continuum", "anchors": ["tensorflow_model_optimization/python/core/internal/tensor_encoding/stages/research/quantization.py::PRNGUniformQuantizationEncodingStage"]}
{"id": "C64", "title": "The compression PolynomialDecay scheduler matches its documented piecewise definition", "statement": "value = start for step < begin, end for step > begin+decay_steps, and end+(start-end)*(1-t)^exponent in between; continuous at both ends, between start and end, monotone.", "quantifier": "all parameters with decay_steps>0, exponent>0", "why_tests_cant": "continuum", "anchors": ["tensorflow_model_optimization/python/core/common/keras/compression/schedules.py::PolynomialDecay"]}
{"id": "C65", "title": "Creating the inference layer carries over every trained weight", "statement": "create_layer_for_inference sets the compressed weights of each compressible weight and leaves every other trained weight unchanged, for every Dense/Conv2D layer.", "quantifier": "all layers (with or without bias) and algorithms", "why_tests_cant": "needs layers without bias / bias-compressing algorithms", "anchors": ["tensorflow_model_optimization/python/core/common/keras/compression/internal/optimize.py::_map_to_inference_weights", "tensorflow_model_optimization/python/core/common/keras/compression/internal/optimize.py::create_layer_for_inference"]}
{"id": "C66", "title": "compress_model keeps the weights of layers it does not compress", "statement": "Layers with no compressible weights keep their trained weights in the compressed model.", "quantifier": "all models", "why_tests_cant": "needs models with other weighted layers", "anchors": ["tensorflow_model_optimization/python/core/common/keras/compression/internal/optimize.py::create_layer_for_training"]}
{"id": "C67", "title": "The periodic SVD rank goes monotonically from the full rank to the target rank", "statement": "At update steps during warm-up the rank used is between the target (capped) and full rank, non-increasing in the step, starts at full rank and equals the target after warm-up; the training step counter advances by exactly one per call.", "quantifier": "all ranks, steps, warm-ups", "why_tests_cant": "unbounded steps", "anchors": ["tensorflow_model_optimization/python/core/common/keras/compression/algorithms/periodical_update_and_scheduling.py::SVD.project_training_weights"]}
{"id": "C68", "title": "Generated object names never collide", "statement": "unique_object_name returns a name not in avoid_names and never returned before (for the same namespace and no conflicting user names), for any sequence of requests.", "quantifier": "all request sequences", "why_tests_cant": "unbounded sequences", "anchors": ["tensorflow_model_optimization/python/core/keras/compat.py::unique_object_name"]}
{"id": "C69", "title": "API usage gauges record exactly one outcome and never swallow errors", "statement": "A function decorated with MonitorBoolGauge returns the wrapped result and sets the success gauge iff it returned, sets the failure gauge and re-raises iff it raised.", "quantifier": "all functions, results, exceptions", "why_tests_cant": "all outcomes", "anchors": ["tensorflow_model_optimization/python/core/keras/metrics.py::MonitorBoolGauge"]}
{"id": "C70", "title": "Pruning schedules survive serialization", "statement": "For every schedule object a constructor accepts, from_config(get_config(s)) is an equal schedule (same class, same parameters).", "quantifier": "all accepted schedules", "why_tests_cant": "all parameter combinations, incl. end_step = -1 and fractional powers", "anchors": ["tensorflow_model_optimization/python/core/sparsity/keras/pruning_schedule.py::ConstantSparsity.get_config", "tensorflow_model_optimization/python/core/sparsity/keras/pruning_schedule.py::PolynomialDecay.get_config", "tensorflow_model_optimization/python/core/sparsity/keras/pruning_schedule.py::PruningSchedule.from_config"]}
{"id": "C71", "title": "XNNPack policy accepts only supported models", "statement": "PruneForLatencyOnXNNPack.ensure_model_supports_pruning returns without error only if every path from the inputs meets a start layer, every path back from the outputs meets an end layer, and every layer between them is supported.", "quantifier": "all finite model graphs, all set iteration orders", "why_tests_cant": "A test fixes one graph and one set.pop order.", "anchors": ["tensorflow_model_optimization/python/core/sparsity/keras/pruning_policy.py::PruneForLatencyOnXNNPack"]}
{"id": "C72", "title": "Stages that declare they commute with sums do", "statement": "For every encoding stage whose commutes_with_sum is true, decoding the sum of n encoded tensors with num_summands=n equals the sum of the n separately decoded tensors.", "quantifier": "all stages declaring commutes_with_sum, all tensors, all n", "why_tests_cant": "unbounded number of summands, continuum of values", "anchors": ["tensorflow_model_optimization/python/core/internal/tensor_encoding/stages/stages_impl.py::UniformQuantizationEncodingStage", "tensorflow_model_optimization/python/core/internal/tensor_encoding/stages/stages_impl.py::FlattenEncodingStage", "tensorflow_model_optimization/python/core/internal/tensor_encoding/stages/stages_impl.py::HadamardEncodingStage", "tensorflow_model_optimization/python/core/internal/tensor_encoding/stages/research/kashin.py::KashinHadamardEncodingStage"]}
{"id": "C73", "title": "Rotations preserve Euclidean norms", "statement": "The normalised Walsh-Hadamard transform and the Hadamard stage (signs +-1) preserve the Euclidean norm of every row; a Kashin representation with a clipped last iteration is rescaled to the norm of the input unless it is all zero, and with one iteration it is the rotated vector truncated to the clip level, times a common factor.", "quantifier": "all vectors, dimensions, iterations", "why_tests_cant": "continuum of vectors, unbounded dimension", "anchors": ["tensorflow_model_optimization/python/core/internal/tensor_encoding/utils/tf_utils.py::fast_walsh_hadamard_transform", "tensorflow_model_optimization/python/core/internal/tensor_encoding/stages/research/kashin.py::KashinHadamardEncodingStage.encode"]}
{"id": "C74", "title": "Composed encoders are well formed and never fail on structure", "statement": "After any sequence of EncoderComposer operations (new, add_child, add_parent; failing ones included) make() of any composer object terminates and yields an encoder whose children sit at distinct compressible keys of their parent's stage; initial_state, update_state, get_params and encode of such an encoder never raise a KeyError; add_child/add_parent raise KeyError exactly for non-compressible or already used keys.", "quantifier": "all operation sequences on shared composer objects, all encoders so built", "why_tests_cant": "unbounded histories of a mutable object graph", "anchors": ["tensorflow_model_optimization/python/core/internal/tensor_encoding/core/core_encoder.py::EncoderComposer", "tensorflow_model_optimization/python/core/internal/tensor_encoding/core/core_encoder.py::Encoder"]}
{"id": "C75", "title": "Transposed-convolution weights are quantized exactly like plain weights", "statement": "Quantizing a Conv2DTranspose kernel (swap the last two axes, quantize with one global range, swap back) gives the same stored range and the same value at every position as quantizing the kernel without swapping.", "quantifier": "all rank 4 kernels, all stored ranges, both modes", "why_tests_cant": "Tests compare shapes of one small kernel; the identity must hold for every kernel.", "anchors": ["tensorflow_model_optimization/python/core/quantization/keras/default_8bit/default_8bit_quantizers.py::Default8BitConvTransposeWeightsQuantizer"]}
{"id": "C76", "title": "Freezing a quantized layer removes its weights from the trainable list", "statement": "Setting trainable = False on a quantization-aware layer (QuantizeWrapper or QuantizeWrapperV2) makes its trainable_weights empty, as for every Keras layer.", "quantifier": "all layers, configs and call histories", "why_tests_cant": "Existing tests never freeze a wrapped layer; the list depends on which weights the wrapper re-tracked in build and on earlier calls.", "anchors": ["tensorflow_model_optimization/python/core/quantization/keras/quantize_wrapper.py::QuantizeWrapper.trainable_weights", "tensorflow_model_optimization/python/core/quantization/keras/quantize_wrapper.py::QuantizeWrapperV2.trainable_weights"]}
{"id": "C77", "title": "Sparsity-preserving per-channel clustering works for every pruned kernel", "statement": "Initialising the centroids of a Conv2D kernel with preserve_sparsity and cluster_per_channel succeeds for every kernel that has a non-zero weight, whatever the positions of its zeros.", "quantifier": "all kernels, initialisers, cluster counts", "why_tests_cant": "The failure needs a channel that pruning removed entirely; tests use kernels without one.", "anchors": ["tensorflow_model_optimization/python/core/clustering/keras/clustering_centroids.py::AbstractCentroidsInitialisation.get_cluster_centroids", "tensorflow_model_optimization/python/core/clustering/keras/clustering_centroids.py::AbstractCentroidsInitialisation._get_centroids"]}
{"id": "C78", "title": "A Conv2D layer with enough weights per channel is clustered per channel", "statement": "cluster_weights with cluster_per_channel wraps every Conv2D layer that has more weights per output channel than clusters, with or without a bias, for both data formats.", "quantifier": "all Conv2D layers, cluster counts, data formats", "why_tests_cant": "The channel count is read from the last weight of the layer, which is the bias only if there is one; tests use layers with a bias.", "anchors": ["tensorflow_model_optimization/python/core/clustering/keras/cluster.py::_cluster_weights"]}
{"id": "C79", "title": "A clustered model can be deserialized inside cluster_scope", "statement": "Every wrapper class that cluster_weights can put into a model is known inside cluster_scope().", "quantifier": "all layer kinds and arguments", "why_tests_cant": "needs all wrapper classes that can be created, whatever the layer", "anchors": ["tensorflow_model_optimization/python/core/clustering/keras/cluster.py::cluster_scope", "tensorflow_model_optimization/python/core/clustering/keras/cluster.py::_cluster_weights", "tensorflow_model_optimization/python/core/clustering/keras/cluster_wrapper.py::ClusterWeightsRNN", "tensorflow_model_optimization/python/core/clustering/keras/cluster_wrapper.py::ClusterWeightsMHA"]}
{"id": "C80", "title": "strip_clustering of a MultiHeadAttention layer restores trainable kernels", "statement": "After strip_clustering the projection kernels of a MultiHeadAttention layer are the variables of the layer: later updates of the variables change the values the layer uses.", "quantifier": "all clustered values, all later updates", "why_tests_cant": "tests compare the outputs right after stripping, never after further training", "anchors": ["tensorflow_model_optimization/python/core/clustering/keras/cluster.py::strip_clustering", "tensorflow_model_optimization/python/core/clustering/keras/cluster.py::_strip_clustering_wrapper", "tensorflow_model_optimization/python/core/clustering/keras/cluster_wrapper.py::ClusterWeightsMHA"]}
{"id": "C81", "title": "Exactly the kernels of built-in layers are pruned", "statement": "For every supported built-in layer the pruned weights are kernels or embeddings, never biases or normalisation parameters; every convolution, locally connected and dense layer has its kernel pruned; in a recurrent layer both kernels of every built-in cell are pruned, whatever the number of cells; a recurrent layer is supported iff each of its cells is a built-in cell or a PrunableLayer.", "quantifier": "all layers, all numbers of cells", "why_tests_cant": "all registry entries and all lists of cells", "anchors": ["tensorflow_model_optimization/python/core/sparsity/keras/prune_registry.py::PruneRegistry.make_prunable", "tensorflow_model_optimization/python/core/sparsity/keras/prune_registry.py::PruneRegistry.supports"]}
{"id": "C82", "title": "The pruning callback reaches every wrapped layer at any nesting depth", "statement": "The layers on which the callback sets the step and applies masks are exactly the pruning wrappers occurring in the model, in nested models at any depth too; after prune_low_magnitude without a policy every layer of the original model is among them.", "quantifier": "all nested models", "why_tests_cant": "unbounded nesting", "anchors": ["tensorflow_model_optimization/python/core/sparsity/keras/pruning_wrapper.py::collect_prunable_layers", "tensorflow_model_optimization/python/core/sparsity/keras/pruning_callbacks.py::UpdatePruningStep"]}
{"id": "C83", "title": "The kernel of every annotated Dense or Conv2D layer is quantized", "statement": "After quantize_apply every annotated Dense/Conv2D layer without a custom config is wrapped with a config that quantizes its kernel.", "quantifier": "all models", "why_tests_cant": "needs the interplay of all layout transforms", "anchors": ["tensorflow_model_optimization/python/core/quantization/keras/default_8bit/default_8bit_transforms.py::LayerReLUQuantize", "tensorflow_model_optimization/python/core/quantization/keras/default_8bit/default_8bit_transforms.py::LayerReluActivationQuantize", "tensorflow_model_optimization/python/core/quantization/keras/quantize.py::quantize_apply"]}
{"id": "C84", "title": "quantize_apply keeps the order of every layer’s inputs", "statement": "Each layer of the quantized model reads the same layers in the same order as before.", "quantifier": "all models and layer orders", "why_tests_cant": "depends on the order of the layers in the model config", "anchors": ["tensorflow_model_optimization/python/core/quantization/keras/graph_transformations/model_transformer.py::ModelTransformer._get_layers", "tensorflow_model_optimization/python/core/quantization/keras/graph_transformations/model_transformer.py::ModelTransformer._match_layer_with_inputs", "tensorflow_model_optimization/python/core/quantization/keras/graph_transformations/model_transformer.py::ModelTransformer._replace_functional"]}
{"id": "C85", "title": "The default 8-bit layout transform terminates on every model", "statement": "Applying the default 8-bit transforms ends after finitely many replacements, for every model, metadata and naming.", "quantifier": "all models", "why_tests_cant": "termination is not testable", "anchors": ["tensorflow_model_optimization/python/core/quantization/keras/default_8bit/default_8bit_quantize_layout_transform.py::Default8BitQuantizeLayoutTransform.apply", "tensorflow_model_optimization/python/core/quantization/keras/default_8bit/default_8bit_transforms.py::ConcatTransform", "tensorflow_model_optimization/python/core/quantization/keras/default_8bit/default_8bit_transforms.py::Conv2DBatchNormQuantize"]}
{"id": "C86", "title": "A layer pattern matches exactly the classes it lists", "statement": "A pattern \"A|B|C\" matches a layer iff its class is A, B or C.", "quantifier": "all class names", "why_tests_cant": "unbounded set of class names", "anchors": ["tensorflow_model_optimization/python/core/quantization/keras/graph_transformations/model_transformer.py::ModelTransformer._match_pattern"]}
{"id": "C87", "title": "Nothing is fake-quantized between Dense/Conv2D, BatchNormalization and ReLU", "statement": "When the three are annotated in a chain, the batch normalization output is not quantized.", "quantifier": "all models with such a chain", "why_tests_cant": "depends on the order of the transforms", "anchors": ["tensorflow_model_optimization/python/core/quantization/keras/default_8bit/default_8bit_transforms.py::DenseBatchNormReLUQuantize", "tensorflow_model_optimization/python/core/quantization/keras/default_8bit/default_8bit_transforms.py::DenseBatchNormQuantize", "tensorflow_model_optimization/python/core/quantization/keras/default_8bit/default_8bit_quantize_layout_transform.py::Default8BitQuantizeLayoutTransform.apply"]}
{"id": "C88", "title": "The first cluster-preserving training pass leaves the weights as they are", "statement": "Right after quantize_apply with a cluster-preserving scheme, the first training forward pass does not change the value of any kernel entry.", "quantifier": "all kernels, layer classes and both values of preserve_sparsity", "why_tests_cant": "ranges over all kernels; depends on how values are distributed over channels", "anchors": ["tensorflow_model_optimization/python/core/quantization/keras/collab_opts/cluster_preserve/cluster_preserve_quantize_registry.py::ClusterPreserveDefaultWeightsQuantizer.__call__", "tensorflow_model_optimization/python/core/quantization/keras/collab_opts/cluster_preserve/cluster_preserve_quantize_registry.py::get_centroids"]}
{"id": "C89", "title": "A preserving scheme preserves every annotated trainable Dense and Conv2D layer, and treats all other layers as the default scheme", "statement": "After quantize_apply with the prune- or cluster-preserving scheme each annotated Dense/Conv2D layer with trainable weights and no custom config has the preserving weight quantizer, no other layer has, and apart from that the model is the one of the default scheme.", "quantifier": "all models, annotations and layer orders", "why_tests_cant": "interaction of the layout transforms with the registry, for all graphs", "anchors": ["tensorflow_model_optimization/python/core/quantization/keras/collab_opts/cluster_preserve/cluster_preserve_quantize_registry.py::ClusterPreserveQuantizeRegistry.get_quantize_config", "tensorflow_model_optimization/python/core/quantization/keras/collab_opts/prune_preserve/prune_preserve_quantize_registry.py::PrunePreserveQuantizeRegistry.get_quantize_config", "tensorflow_model_optimization/python/core/quantization/keras/quantize.py::quantize_apply"]}
{"id": "C90", "title": "quantize_apply with a preserving scheme works whenever it works with the default scheme", "statement": "If quantize_apply succeeds with the default 8-bit scheme then it succeeds with the prune- and the cluster-preserving scheme.", "quantifier": "all models and annotations", "why_tests_cant": "universal over models", "anchors": ["tensorflow_model_optimization/python/core/quantization/keras/collab_opts/cluster_preserve/cluster_preserve_quantize_registry.py::ClusterPreserveQuantizeRegistry.supports", "tensorflow_model_optimization/python/core/quantization/keras/collab_opts/prune_preserve/prune_preserve_quantize_registry.py::PrunePreserveQuantizeRegistry.supports", "tensorflow_model_optimization/python/core/quantization/keras/quantize.py::quantize_apply"]}
{"id": "C91", "title": "A reloaded prune-preserving model keeps the pruned weights at zero", "statement": "Saving a prune-preserving model, loading it and training on keeps every pruned weight at zero.", "quantifier": "all kernels, initial values and later updates", "why_tests_cant": "needs the initial values of the rebuilt model", "anchors": ["tensorflow_model_optimization/python/core/quantization/keras/collab_opts/prune_preserve/prune_preserve_quantize_registry.py::PrunePreserveDefaultWeightsQuantizer._build_sparsity_mask"]}
{"id": "C92", "title": "A layer wrapped for compression-aware training starts from the trained weights", "statement": "Right after optimize_training/create_layer_for_training the forward pass of the wrapped layer uses the trained weights: exactly (SVD with separate inference graph, periodical SVD), up to the rank limit (SVD with one graph; exactly at full rank), the mean of the bias (BiasOnly) or each kernel entry replaced by its nearest centroid (WeightClustering).", "quantifier": "all Dense/Conv2D layers with kernel and bias, all trained values, ranks and cluster counts", "why_tests_cant": "all weight values and shapes", "anchors": ["tensorflow_model_optimization/python/core/common/keras/compression/internal/optimize.py::create_layer_for_training", "tensorflow_model_optimization/python/core/common/keras/compression/internal/optimize.py::_map_to_training_weights", "tensorflow_model_optimization/python/core/common/keras/compression/algorithms/weight_clustering.py::WeightClustering.init_training_weights"]}
{"id": "C93", "title": "A clustering-compressed kernel keeps at most number_of_clusters distinct values throughout training", "statement": "After any interleaving of forward passes and weight updates the kernel the WeightClustering layer computes with has at most number_of_clusters distinct values.", "quantifier": "all training histories", "why_tests_cant": "unbounded histories", "anchors": ["tensorflow_model_optimization/python/core/common/keras/compression/algorithms/weight_clustering.py::WeightClustering.project_training_weights", "tensorflow_model_optimization/python/core/common/keras/compression/algorithms/weight_clustering.py::WeightClustering.decompress_weights"]}
{"id": "C94", "title": "The inference layer computes with the compressed form of what was trained", "statement": "The inference layer built from a training layer decompresses to a kernel of rank at most the target, equal to the trained kernel at full rank, storing rank*(rows+columns) numbers per matrix; when the training variables are already the compressed form, training and inference forward passes agree.", "quantifier": "all kernels, ranks, algorithms of that form", "why_tests_cant": "all tensors", "anchors": ["tensorflow_model_optimization/python/core/common/keras/compression/algorithms/same_training_and_inference.py::SVD", "tensorflow_model_optimization/python/core/common/keras/compression/algorithms/different_training_and_inference.py::SVD", "tensorflow_model_optimization/python/core/common/keras/compression/internal/optimize.py::create_layer_for_inference"]}
{"id": "C95", "title": "Evaluating a compression-wrapped layer does not change its weights", "statement": "Calling the wrapped layer leaves every variable of the layer unchanged.", "quantifier": "all algorithms, layers and states", "why_tests_cant": "all states", "anchors": ["tensorflow_model_optimization/python/core/common/keras/compression/internal/optimize.py::_TrainingWrapper.call", "tensorflow_model_optimization/python/core/common/keras/compression/algorithms/periodical_update_and_scheduling.py::SVD.project_training_weights"]}
{"id": "C96", "title": "The order in which an algorithm lists its compressible weights does not matter", "statement": "create_layer_for_training gives the same outcome whichever order get_compressible_weights returns the weights in.", "quantifier": "all algorithms and orders", "why_tests_cant": "all orders", "anchors": ["tensorflow_model_optimization/python/core/common/keras/compression/internal/optimize.py::_map_to_training_weights", "tensorflow_model_optimization/python/core/common/keras/compression/internal/optimize.py::create_layer_for_training"]}
{"id": "C97", "title": "prune_for_benchmark prunes every prunable weight to the target sparsity at once", "statement": "prune_for_benchmark(model, target_sparsity in [0,1], block_size) returns the model with every prunable weight multiplied by a mask that keeps the round(size*(1-target)) largest magnitudes, without any training step.", "quantifier": "all models, targets and weight values", "why_tests_cant": "all weights and targets", "anchors": ["tensorflow_model_optimization/python/core/sparsity/keras/tools/sparsity_tooling.py::prune_for_benchmark", "tensorflow_model_optimization/python/core/sparsity/keras/tools/sparsity_tooling.py::_apply_pruning", "tensorflow_model_optimization/python/core/sparsity/keras/tools/sparsity_tooling.py::StepIndependentConstantSparsity"]}
{"id": "C98", "title": "PruningSummaries logs the true sparsity and threshold of every pruned weight", "statement": "At every epoch the callback logs, for every pruned weight of the model (at any nesting depth), the fraction of zeros in its mask and its threshold under names of their own.", "quantifier": "all models and masks", "why_tests_cant": "all models, nested models", "anchors": ["tensorflow_model_optimization/python/core/sparsity/keras/pruning_callbacks.py::PruningSummaries.on_epoch_begin"]}
{"id": "C99", "title": "ClusteringSummaries writes histograms at the requested cadence for every clustered layer", "statement": "With cluster_update_freq=n a summary of every clustered layer is written exactly after batches n, 2n, 3n, ... counted across epochs and fit calls (once per epoch for \"epoch\"), whatever the fit settings.", "quantifier": "all numbers of epochs, batches, cadences, steps_per_execution", "why_tests_cant": "unbounded histories", "anchors": ["tensorflow_model_optimization/python/core/clustering/keras/clustering_callbacks.py::ClusteringSummaries"]}
{"id": "C100", "title": "The sparsity report states the true sparsity and m-by-n verdict", "statement": "check_sparsity_m_by_n reports for every non-ignored tensor the fraction of zero entries and whether every group of n has at least m zeros.", "quantifier": "all tensors and names", "why_tests_cant": "all tensors", "anchors": ["tensorflow_model_optimization/python/core/sparsity/keras/tools/check_sparsity_m_by_n.py::calculate_sparsity", "tensorflow_model_optimization/python/core/sparsity/keras/tools/check_sparsity_m_by_n.py::ignore_tensor", "tensorflow_model_optimization/python/core/sparsity/keras/tools/check_sparsity_m_by_n.py::run"]}
{"id": "C101", "title": "An n-bit registry quantizes with the bits it was asked for", "statement": "DefaultNBitQuantizeRegistry(num_bits_weight=b, num_bits_activation=c) returns configs whose weight quantizers have b bits and whose activation and output quantizers have c bits, whatever other registries are made before or after it; so do the configs quantize_apply attaches.", "quantifier": "all histories of registry constructions, layer classes and bit widths", "why_tests_cant": "unit tests make one registry at a time", "anchors": ["tensorflow_model_optimization/python/core/quantization/keras/experimental/default_n_bit/default_n_bit_quantize_registry.py::DefaultNBitQuantizeRegistry.__init__", "tensorflow_model_optimization/python/core/quantization/keras/experimental/default_n_bit/default_n_bit_quantize_registry.py::_get_quantize_config"]}
{"id": "C102", "title": "A QuantizeConfig keeps its quantizers through serialization", "statement": "A model that is saved and loaded, or cloned, has the same weight, activation and output quantizers on every layer as before, also on layers whose output quantization the layout transforms switched off.", "quantifier": "all library config objects, constructed or switched off by a Concatenate transform, in both schemes", "why_tests_cant": "all configs and transform histories", "anchors": ["tensorflow_model_optimization/python/core/quantization/keras/quantize_config.py::OutputOnlyConfig", "tensorflow_model_optimization/python/core/quantization/keras/quantize_config.py::FixedQuantizeConfig", "tensorflow_model_optimization/python/core/quantization/keras/experimental/default_n_bit/default_n_bit_transforms.py::ConcatTransform._disable_output_quantize", "tensorflow_model_optimization/python/core/quantization/keras/default_8bit/default_8bit_transforms.py::ConcatTransform._disable_output_quantize"]}
{"id": "C103", "title": "The n-bit scheme at 8/8 bits is the 8-bit scheme", "statement": "Applying DefaultNBitQuantizeScheme with 8-bit weights and activations wraps the same layers with the same quantizers as Default8BitQuantizeScheme.", "quantifier": "all layer classes, activation functions and models", "why_tests_cant": "all models", "anchors": ["tensorflow_model_optimization/python/core/quantization/keras/experimental/default_n_bit/default_n_bit_quantize_registry.py::DefaultNBitQuantizeRegistry", "tensorflow_model_optimization/python/core/quantization/keras/experimental/default_n_bit/default_n_bit_quantize_registry.py::DefaultNBitActivationQuantizeConfig", "tensorflow_model_optimization/python/core/quantization/keras/experimental/default_n_bit/default_n_bit_quantize_layout_transform.py::DefaultNBitQuantizeLayoutTransform.apply"]}
{"id": "C104", "title": "A serialized QuantizeConfig can be loaded any number of times", "statement": "from_config leaves the dict it is given usable: loading the same serialized config again and again gives the same config each time.", "quantifier": "all library config objects and any number of loads", "why_tests_cant": "all histories of loads", "anchors": ["tensorflow_model_optimization/python/core/quantization/keras/quantize_config.py::FixedQuantizeConfig.from_config", "tensorflow_model_optimization/python/core/quantization/keras/quantize_config.py::OutputOnlyConfig.from_config"]}
{"id": "C105", "title": "disable_per_axis switches per-channel weight quantization off everywhere", "statement": "With a scheme constructed with disable_per_axis=True, quantize_apply attaches no per-channel weight quantizer to any layer.", "quantifier": "all models, both schemes", "why_tests_cant": "all models and graph shapes", "anchors": ["tensorflow_model_optimization/python/core/quantization/keras/default_8bit/default_8bit_quantize_scheme.py::Default8BitQuantizeScheme", "tensorflow_model_optimization/python/core/quantization/keras/default_8bit/default_8bit_transforms.py::ConcatTransform.replacement"]}
{"id": "C106", "title": "Wrapping a layer passes its call arguments on", "statement": "A layer wrapped for pruning, quantization, annotation or clustering is called with exactly the arguments of the call of the wrapper; in particular a layer that accepts training gets the flag of the call (or the learning phase), and one that does not is called without it.", "quantifier": "all signatures of the wrapped call method and all calls", "why_tests_cant": "all signatures and argument combinations", "anchors": ["tensorflow_model_optimization/python/core/sparsity/keras/pruning_wrapper.py::PruneLowMagnitude.call", "tensorflow_model_optimization/python/core/quantization/keras/quantize_wrapper.py::QuantizeWrapper.call", "tensorflow_model_optimization/python/core/quantization/keras/quantize_annotate.py::QuantizeAnnotate.call", "tensorflow_model_optimization/python/core/clustering/keras/cluster_wrapper.py::ClusterWeights.call"]}
{"id": "C107", "title": "Annotating a layer changes nothing before quantize_apply", "statement": "A program that uses a layer (calls it, reads and sets weights and trainable, reads losses and updates, asks for shapes) observes the same when the layer is wrapped by quantize_annotate_layer.", "quantifier": "all layers and all programs using them", "why_tests_cant": "all programs", "anchors": ["tensorflow_model_optimization/python/core/quantization/keras/quantize_annotate.py::QuantizeAnnotate.__init__", "tensorflow_model_optimization/python/core/quantization/keras/quantize_annotate.py::QuantizeAnnotate.call", "tensorflow_model_optimization/python/core/quantization/keras/quantize_annotate.py::QuantizeAnnotate.trainable", "tensorflow_model_optimization/python/core/quantization/keras/quantize_annotate.py::QuantizeAnnotate.set_weights"]}
{"id": "C108", "title": "A QuantizeLayer is its quantizer", "statement": "QuantizeLayer(None) returns its input unchanged for ever; QuantizeLayer(q) returns what q returns, updating the range only in training mode (explicit flag, else the learning phase); both survive saving and loading; anything that is not a Quantizer is rejected.", "quantifier": "all quantizers and all histories of calls", "why_tests_cant": "all call histories", "anchors": ["tensorflow_model_optimization/python/core/quantization/keras/quantize_layer.py::QuantizeLayer.__init__", "tensorflow_model_optimization/python/core/quantization/keras/quantize_layer.py::QuantizeLayer.call", "tensorflow_model_optimization/python/core/quantization/keras/quantize_layer.py::QuantizeLayer.from_config"]}
{"id": "C109", "title": "Freezing a clustered layer removes its weights from the trainable list", "statement": "The trainable weights of a clustered layer are the weights of the layer and its centroids, each once; after trainable=False there are none.", "quantifier": "all layers and histories of forward passes, updates and (un)freezing", "why_tests_cant": "all histories", "anchors": ["tensorflow_model_optimization/python/core/clustering/keras/cluster_wrapper.py::ClusterWeights.build", "tensorflow_model_optimization/python/core/clustering/keras/cluster_wrapper.py::ClusterWeights.trainable", "tensorflow_model_optimization/python/core/clustering/keras/cluster_wrapper.py::ClusterWeights.trainable_weights"]}
{"id": "C110", "title": "get_weights and set_weights of a wrapped layer restore it", "statement": "Weights read with get_weights from a wrapped layer can be put back with set_weights at any later time, and are then the weights of the layer.", "quantifier": "all layers and all histories of training between the two calls", "why_tests_cant": "all histories", "anchors": ["tensorflow_model_optimization/python/core/clustering/keras/cluster_wrapper.py::ClusterWeights.get_weights", "tensorflow_model_optimization/python/core/clustering/keras/cluster_wrapper.py::ClusterWeights.set_weights", "tensorflow_model_optimization/python/core/sparsity/keras/pruning_wrapper.py::PruneLowMagnitude.get_weights", "tensorflow_model_optimization/python/core/quantization/keras/quantize_annotate.py::QuantizeAnnotate.get_weights"]}
{"id": "C111", "title": "strip_clustering_cqat removes exactly the clustering variables", "statement": "strip_clustering_cqat returns the model in which every quantized Conv2D and Dense layer has lost the variables cluster-preserving training added (centroids, original weights, indices) and nothing else; the model passed in keeps them.", "quantifier": "all models (Sequential, functional, subclassed, nested), layers, variable and layer names", "why_tests_cant": "all models and names", "anchors": ["tensorflow_model_optimization/python/core/quantization/keras/collab_opts/cluster_preserve/cluster_utils.py::strip_clustering_cqat"]}
{"id": "C112", "title": "A stripped CQAT layer behaves like a plain quantized layer", "statement": "After strip_clustering_cqat a layer computes what the quantized layer without clustering computes with the same kernel and ranges, in inference and in further training.", "quantifier": "all layers, kernels and histories of training after stripping", "why_tests_cant": "all histories", "anchors": ["tensorflow_model_optimization/python/core/quantization/keras/collab_opts/cluster_preserve/cluster_utils.py::strip_clustering_cqat", "tensorflow_model_optimization/python/core/quantization/keras/collab_opts/cluster_preserve/cluster_preserve_quantize_registry.py::ClusterPreserveDefaultWeightsQuantizer.__call__"]}
{"id": "C113", "title": "PruningEstimatorSpec advances pruning once per training step", "statement": "Training an Estimator with PruningEstimatorSpec advances the pruning step of every pruned layer by exactly one per training step (or sets it to the given step) and updates the masks for that step, however the runtime schedules the ops; the first step after initialisation succeeds.", "quantifier": "all schedules of the ops of every training step, all step values and run lengths", "why_tests_cant": "all interleavings", "anchors": ["tensorflow_model_optimization/python/core/sparsity/keras/estimator_utils.py::PruningEstimatorSpec", "tensorflow_model_optimization/python/core/sparsity/keras/pruning_wrapper.py::PruneLowMagnitude.call"]}
{"id": "C114", "title": "The uniform_quantization encoder round-trips within a step and sends the promised number of bits", "statement": "uniform_quantization(bits, min_max, stochastic) accepts exactly bits in 1..16 and ranges [a,b] with a < b; whatever non-empty tensor is encoded and decoded keeps its shape, every entry is within one step (half a step without randomness) of the entry clipped into the range and exact at the ends; ceil(bits*n/28) 28-bit integers are sent, plus the two extremes if no range was given.", "quantifier": "all arguments, tensors, shapes and random draws", "why_tests_cant": "all reals, shapes and draws", "anchors": ["tensorflow_model_optimization/python/core/internal/tensor_encoding/encoders/common_encoders.py::uniform_quantization", "tensorflow_model_optimization/python/core/internal/tensor_encoding/stages/stages_impl.py::UniformQuantizationEncodingStage", "tensorflow_model_optimization/python/core/internal/tensor_encoding/stages/stages_impl.py::BitpackingEncodingStage", "tensorflow_model_optimization/python/core/internal/tensor_encoding/stages/stages_impl.py::FlattenEncodingStage", "tensorflow_model_optimization/python/core/internal/tensor_encoding/core/core_encoder.py::Encoder"]}
{"id": "C115", "title": "Summing encoded values is summing their decodings", "statement": "For every encoder tree made of the library stages and any number of clients, part-decoding each encoded value, adding them and decoding the sum equals the sum of the decoded values; with uniform_quantization and a given range the server adds integer codes and the result is within one step per client of the sum of the clipped values.", "quantifier": "all encoder trees of library stages, numbers of clients, tensors and draws", "why_tests_cant": "all trees and numbers of summands", "anchors": ["tensorflow_model_optimization/python/core/internal/tensor_encoding/core/core_encoder.py::Encoder.decode_before_sum", "tensorflow_model_optimization/python/core/internal/tensor_encoding/core/core_encoder.py::Encoder.decode_after_sum", "tensorflow_model_optimization/python/core/internal/tensor_encoding/encoders/common_encoders.py::uniform_quantization", "tensorflow_model_optimization/python/core/internal/tensor_encoding/stages/stages_impl.py::HadamardEncodingStage", "tensorflow_model_optimization/python/core/internal/tensor_encoding/stages/stages_impl.py::UniformQuantizationEncodingStage"]}
{"id": "C116", "title": "The hadamard_quantization encoder has a Euclidean error bound", "statement": "hadamard_quantization(bits) decodes every non-empty tensor to one of the same shape at Euclidean distance at most 2*sqrt(p)*|x|/(2^bits-1), p the number of elements rounded up to a power of two, whatever the random draws (no sign draw being exactly 1/2).", "quantifier": "all tensors, shapes, bit widths and draws", "why_tests_cant": "all reals and draws", "anchors": ["tensorflow_model_optimization/python/core/internal/tensor_encoding/encoders/common_encoders.py::hadamard_quantization", "tensorflow_model_optimization/python/core/internal/tensor_encoding/stages/stages_impl.py::HadamardEncodingStage"]}
{"id": "C117", "title": "Per-channel quantization errs by at most a step of its own channel", "statement": "PerChannelUniformQuantization moves every value by less than (max-min)/(2^bits-1) of its own channel (half of it when deterministic, exact at the channel extremes); PerChannelPRNGUniformQuantization by at most half a channel step; codes are integers below 2^bits.", "quantifier": "all tensors of rank >= 1, bit widths, draws and seeds", "why_tests_cant": "all reals, shapes, draws", "anchors": ["tensorflow_model_optimization/python/core/internal/tensor_encoding/stages/research/quantization.py::PerChannelUniformQuantizationEncodingStage", "tensorflow_model_optimization/python/core/internal/tensor_encoding/stages/research/quantization.py::PerChannelPRNGUniformQuantizationEncodingStage"]}
{"id": "C118", "title": "Clipping stages project onto their range or ball", "statement": "ClipByValue decodes every value to the nearest point of [min, max]; ClipByNorm decodes a tensor to the nearest tensor of norm at most clip_norm (itself when already inside); invalid bounds are rejected.", "quantifier": "all tensors and bounds", "why_tests_cant": "all reals", "anchors": ["tensorflow_model_optimization/python/core/internal/tensor_encoding/stages/research/clipping.py::ClipByNormEncodingStage", "tensorflow_model_optimization/python/core/internal/tensor_encoding/stages/research/clipping.py::ClipByValueEncodingStage"]}
{"id": "C119", "title": "EPR trains with weights rounded to the learned step", "statement": "The forward pass of an EPR / FastEPR training layer computes with every dense weight and bias rounded to the nearest multiple of the learned quantization step (within half a step), and with convolution kernels whose Fourier coefficients are so rounded; right after the training model is made, dense weights are within half of exp(-4) of the pretrained ones and convolution kernels within a fixed multiple of sqrt(spatial size)*exp(-4).", "quantifier": "all weights, latent weights, steps, shapes of rank 1 to 4, both algorithms", "why_tests_cant": "all tensors, shapes and learned steps", "anchors": ["tensorflow_model_optimization/python/core/common/keras/compression/algorithms/epr.py::_transform_dense_weight", "tensorflow_model_optimization/python/core/common/keras/compression/algorithms/epr.py::_transform_conv_weight", "tensorflow_model_optimization/python/core/common/keras/compression/algorithms/epr.py::EPR.project_training_weights", "tensorflow_model_optimization/python/core/common/keras/compression/algorithms/epr.py::FastEPR.project_training_weights", "tensorflow_model_optimization/python/core/common/keras/compression/algorithms/epr.py::EPRBase._init_training_weights_reparam"]}
{"id": "C120", "title": "An EPR-compressed weight decompresses to the weight of the training model", "statement": "Compressing the training weights of a layer and decompressing them gives exactly the weight the training forward pass used.", "quantifier": "all training weights, steps and shapes", "why_tests_cant": "exactness over all learned steps; fails only for steps float16 cannot hold and very large dimensions", "anchors": ["tensorflow_model_optimization/python/core/common/keras/compression/algorithms/epr.py::EPR.compress_training_weights", "tensorflow_model_optimization/python/core/common/keras/compression/algorithms/epr.py::EPR.decompress_weights", "tensorflow_model_optimization/python/core/common/keras/compression/algorithms/epr.py::FastEPR.compress_training_weights", "tensorflow_model_optimization/python/core/common/keras/compression/algorithms/epr.py::FastEPR.decompress_weights"]}
{"id": "C121", "title": "EPR compresses every layer it lists as compressible", "statement": "For every model made of Dense, Conv1D and Conv2D layers (with or without bias) and any other layers, a training model and, after any training, an inference model exist, and the inference model computes with the weights of the training forward pass.", "quantifier": "all models, layers, weights, and training histories", "why_tests_cant": "all models and histories", "anchors": ["tensorflow_model_optimization/python/core/common/keras/compression/algorithms/epr.py::EPRBase.get_compressible_weights", "tensorflow_model_optimization/python/core/common/keras/compression/algorithms/epr.py::EPRBase.get_training_model", "tensorflow_model_optimization/python/core/common/keras/compression/internal/optimize.py::create_layer_for_training", "tensorflow_model_optimization/python/core/common/keras/compression/internal/optimize.py::create_layer_for_inference"]}
{"id": "C122", "title": "EPR replaces exactly the compressed attributes and weighs the penalty per parameter", "statement": "The training wrapper overwrites exactly those attributes of the layer that hold a compressed weight; the entropy penalty of each weight is multiplied by regularization_weight / number of parameters of the model, for every model.", "quantifier": "all attribute lists and models", "why_tests_cant": "all layers and attribute orders", "anchors": ["tensorflow_model_optimization/python/core/common/keras/compression/internal/optimize.py::_TrainingWrapper.build", "tensorflow_model_optimization/python/core/common/keras/compression/algorithms/epr.py::EPRBase.get_training_model"]}
{"id": "C123", "title": "Breaking up separable convolutions for quantization keeps the function, weights and settings", "statement": "The layers quantize_apply puts in place of a SeparableConv2D (DepthwiseConv2D then 1x1 Conv2D) and of a SeparableConv1D (expand dims, SeparableConv2D, squeeze) compute, with the weights of the original layer, exactly the documented separable convolution: for every kernel size, stride, dilation, depth multiplier, padding, data format, bias and activation. Initializers, regularizers, constraints, trainability and dtype go to the layer that receives the weight; causal padding is rejected.", "quantifier": "all configurations, weights and inputs", "why_tests_cant": "an equality of two convolution formulas over all shapes, strides, dilations and weights", "anchors": ["tensorflow_model_optimization/python/core/quantization/keras/default_8bit/default_8bit_transforms.py::SeparableConv1DQuantize.replacement", "tensorflow_model_optimization/python/core/quantization/keras/default_8bit/default_8bit_transforms.py::SeparableConvQuantize.replacement"]}
{"id": "C124", "title": "GatherEncoder computes what its Encoder computes", "statement": "A GatherEncoder hides the nested dictionaries of the Encoder behind flat tuples and slash-keyed dictionaries of tensors, with the Python values kept inside. Created for any Encoder whose dictionaries keep a fixed structure (same keys, Python values, shapes and dtypes for every state, random draw and input of the tensorspec), it is created without error, and for every state reached, every input and every order of the keys of the encoded dictionary, get_params, encode, decode_before_sum, decode_after_sum and update_state return exactly the tensors the Encoder produces on the corresponding nested dictionaries, in the order of their paths or under their slash-joined paths. An encoder whose encoded shapes depend on the data is created but, executing eagerly, rejects its own encoded values.", "quantifier": "every Encoder with structure-preserving methods, every nesting, state, random draw, input, number of summands and key order", "why_tests_cant": "tests use a few encoders with one or two stages; the correspondence of flat positions with nested paths must hold for every tree and every key naming", "anchors": ["tensorflow_model_optimization/python/core/internal/tensor_encoding/core/gather_encoder.py::GatherEncoder.from_encoder", "tensorflow_model_optimization/python/core/internal/tensor_encoding/core/gather_encoder.py::GatherEncoder.get_params", "tensorflow_model_optimization/python/core/internal/tensor_encoding/core/gather_encoder.py::GatherEncoder.encode", "tensorflow_model_optimization/python/core/internal/tensor_encoding/core/gather_encoder.py::GatherEncoder.decode_before_sum", "tensorflow_model_optimization/python/core/internal/tensor_encoding/core/gather_encoder.py::GatherEncoder.decode_after_sum", "tensorflow_model_optimization/python/core/internal/tensor_encoding/core/gather_encoder.py::GatherEncoder.update_state", "tensorflow_model_optimization/python/core/internal/tensor_encoding/utils/py_utils.py::split_dict_py_tf", "tensorflow_model_optimization/python/core/internal/tensor_encoding/utils/py_utils.py::merge_dicts", "tensorflow_model_optimization/python/core/internal/tensor_encoding/utils/py_utils.py::flatten_with_joined_string_paths", "tensorflow_model_optimization/python/core/internal/tensor_encoding/utils/py_utils.py::assert_compatible"]}
{"id": "C125", "title": "Each state-update tensor is aggregated by its own mode", "statement": "The i-th entry of state_update_aggregation_modes of a GatherEncoder is the mode declared for the i-th state-update tensor returned by encode: the two flat tuples have the same length and equal positions come from the same path of the encoder tree.", "quantifier": "every Encoder tree, every input and state", "why_tests_cant": "the two tuples are flattened separately; a test with one update tensor cannot show that they line up in every tree", "anchors": ["tensorflow_model_optimization/python/core/internal/tensor_encoding/core/gather_encoder.py::GatherEncoder.from_encoder", "tensorflow_model_optimization/python/core/internal/tensor_encoding/core/gather_encoder.py::GatherEncoder.state_update_aggregation_modes", "tensorflow_model_optimization/python/core/internal/tensor_encoding/core/core_encoder.py::Encoder.state_update_aggregation_modes"]}
{"id": "C126", "title": "SimpleEncoder round trips are the Encoder round trips", "statement": "SimpleEncoder.decode of what SimpleEncoder.encode returned (its keys in any order) is Encoder.decode of the encoded tensors, decode parameters and input shapes the Encoder produced for that input and state, and the returned state is the state of the Encoder after update_state with the update tensors of that call.", "quantifier": "every Encoder of fixed structure, every input, state and random draw, every key order", "why_tests_cant": "the flat dictionary, the recorded Python values and the recorded structure come from different calls; that they fit together for every later call cannot be tested case by case", "anchors": ["tensorflow_model_optimization/python/core/internal/tensor_encoding/core/simple_encoder.py::SimpleEncoder.__init__", "tensorflow_model_optimization/python/core/internal/tensor_encoding/core/simple_encoder.py::SimpleEncoder.encode", "tensorflow_model_optimization/python/core/internal/tensor_encoding/core/simple_encoder.py::SimpleEncoder.decode", "tensorflow_model_optimization/python/core/internal/tensor_encoding/utils/py_utils.py::flatten_with_joined_string_paths"]}
{"id": "C127", "title": "GatherEncoder rejects values that do not fit", "statement": "Whatever flat values are passed to get_params, encode, decode_before_sum, decode_after_sum and update_state of a GatherEncoder, either they are exactly the flat view of dictionaries with the structure, shapes and dtypes fixed at construction (and then the call does what the Encoder does), or the call raises ValueError: missing, extra or renamed keys, wrong counts, shapes or dtypes never get through. Update tensors are only counted.", "quantifier": "every tuple and dictionary of tensors passed to every method of every GatherEncoder", "why_tests_cant": "the documentation promises ValueError for everything that does not fit; tests try a handful of misfits", "anchors": ["tensorflow_model_optimization/python/core/internal/tensor_encoding/core/gather_encoder.py::GatherEncoder.get_params", "tensorflow_model_optimization/python/core/internal/tensor_encoding/core/gather_encoder.py::GatherEncoder.encode", "tensorflow_model_optimization/python/core/internal/tensor_encoding/core/gather_encoder.py::GatherEncoder.decode_before_sum", "tensorflow_model_optimization/python/core/internal/tensor_encoding/core/gather_encoder.py::GatherEncoder.decode_after_sum", "tensorflow_model_optimization/python/core/internal/tensor_encoding/core/gather_encoder.py::GatherEncoder.update_state", "tensorflow_model_optimization/python/core/internal/tensor_encoding/utils/py_utils.py::assert_compatible"]}
{"id": "C128", "title": "Every registered RNN weight name means the weight it was registered with", "statement": "make_clusterable gives the weights of an RNN (single cell or StackedRNNCells) or Bidirectional layer names such as kernel/1. For every such layer the wrapper resolves each registered name to exactly the weight it was registered with; the registered weights are exactly the kernel and recurrent kernel of every cell the layer runs, each under the position of the cell; and the names are distinct whenever no cell object occurs twice (a stack that contains the same cell object twice registers one name twice).", "quantifier": "every RNN/Bidirectional layer, every number of cells, every sharing of cell objects", "why_tests_cant": "the index is recomputed with list.index, printed in decimal and parsed again; tests use two cells", "anchors": ["tensorflow_model_optimization/python/core/clustering/keras/clustering_registry.py::ClusteringRegistry.make_clusterable", "tensorflow_model_optimization/python/core/clustering/keras/clustering_registry.py::ClusteringRegistry._get_rnn_cells", "tensorflow_model_optimization/python/core/clustering/keras/cluster_wrapper.py::ClusterWeightsRNN.get_weight_from_layer", "tensorflow_model_optimization/python/core/clustering/keras/cluster_wrapper.py::ClusterWeightsRNN.get_weight_name_without_index"]}
{"id": "C129", "title": "A clustered RNN cell computes with the clustering of its own weights", "statement": "For every built Keras RNN or Bidirectional layer (cells LSTM, GRU or SimpleRNN, with or without bias) wrapped by cluster_weights, after any history of training steps and forward passes a forward pass makes every cell use, as kernel and as recurrent kernel, the clustering of the current value of its own kernel and recurrent kernel variable (each entry the nearest of at most number_of_clusters centroids); the bias stays the cell own variable and cells outside the layer are untouched.", "quantifier": "all layers with any number of cells, all weight values, all histories", "why_tests_cant": "a swapped index between forward and backward or between stacked cells only shows for particular cells and values", "anchors": ["tensorflow_model_optimization/python/core/clustering/keras/cluster_wrapper.py::ClusterWeightsRNN.set_weight_to_layer", "tensorflow_model_optimization/python/core/clustering/keras/cluster_wrapper.py::ClusterWeightsRNN.get_return_layer_cell", "tensorflow_model_optimization/python/core/clustering/keras/cluster_wrapper.py::ClusterWeights.build", "tensorflow_model_optimization/python/core/clustering/keras/cluster_wrapper.py::ClusterWeights.update_clustered_weights_associations"]}
{"id": "C130", "title": "strip_clustering of an RNN layer keeps the weights the cells used", "statement": "strip_clustering turns a wrapped RNN or Bidirectional layer into a clean layer with one cell per cell, the same weight names, and in each of them exactly the tensor that the wrapped cell computes with after its last forward pass.", "quantifier": "all layers with any number of cells, all histories", "why_tests_cant": "weights are removed from and re-inserted into a flat list by position; the positions depend on the number of cells and their biases", "anchors": ["tensorflow_model_optimization/python/core/clustering/keras/cluster.py::strip_clustering", "tensorflow_model_optimization/python/core/clustering/keras/cluster_wrapper.py::ClusterWeightsRNN.get_weight_from_layer"]}
{"id": "C131", "title": "A recurrent layer that cluster_weights accepts can be built", "statement": "Whenever cluster_weights accepts an RNN-like layer, building the wrapped layer succeeds; a layer it cannot cluster is rejected at once with ValueError.", "quantifier": "all RNN-like layers and cells", "why_tests_cant": "acceptance and building look at different parts of the layer; tests build only plain layers", "anchors": ["tensorflow_model_optimization/python/core/clustering/keras/clustering_registry.py::ClusteringRegistry.supports", "tensorflow_model_optimization/python/core/clustering/keras/clustering_registry.py::ClusteringRegistry.make_clusterable", "tensorflow_model_optimization/python/core/clustering/keras/cluster_wrapper.py::ClusterWeights.__init__", "tensorflow_model_optimization/python/core/clustering/keras/cluster_wrapper.py::ClusterWeightsRNN.get_weight_name_without_index"]}
{"id": "C132", "title": "A quantized RNN layer quantizes exactly the declared weights and activations of each of its cells", "statement": "The RNN quantize configs (8-bit and n-bit) carry one list of weight attributes and one list of activation attributes per cell. For every layer with one such list per cell, building the quantize wrapper and every forward pass succeed, in training and in inference and after any history of updates; then every declared weight attribute of every cell holds the quantized current value of the variable it held originally, every declared activation attribute a quantize-aware version of the original activation, and no other attribute of any cell changes. A config that does not fit the layer is rejected, and a failing set leaves the layer as it was.", "quantifier": "every number of cells (shared or not), every attribute lists, weights and histories of forward passes and updates", "why_tests_cant": "the loops zip two lists and count an index through nested lists; tests use two cells and two attributes each", "anchors": ["tensorflow_model_optimization/python/core/quantization/keras/default_8bit/default_8bit_quantize_registry.py::Default8BitQuantizeConfigRNN.get_weights_and_quantizers", "tensorflow_model_optimization/python/core/quantization/keras/default_8bit/default_8bit_quantize_registry.py::Default8BitQuantizeConfigRNN.set_quantize_weights", "tensorflow_model_optimization/python/core/quantization/keras/default_8bit/default_8bit_quantize_registry.py::Default8BitQuantizeConfigRNN.set_quantize_activations", "tensorflow_model_optimization/python/core/quantization/keras/default_8bit/default_8bit_quantize_registry.py::_RNNHelper._get_rnn_cells", "tensorflow_model_optimization/python/core/quantization/keras/experimental/default_n_bit/default_n_bit_quantize_registry.py::DefaultNBitQuantizeConfigRNN", "tensorflow_model_optimization/python/core/quantization/keras/quantize_wrapper.py::QuantizeWrapper.call"]}
{"id": "C133", "title": "The deterministic random generator returns the requested number of values in [0,1), and signs of +1/-1", "statement": "random_floats_cmwc and random_signs_cmwc terminate for every int64 seed and every positive count, return exactly that many values, depend on nothing but the seed and the count, and give values in [0, 1) (respectively +1 or -1); a shorter request with the same seed gives a prefix of a longer one; different seeds give different sequences, and the values of one sequence do not repeat bits of each other. Non-positive counts are a ValueError and other dtypes a TypeError.", "quantifier": "every int64 seed, every count, float32 and float64", "why_tests_cant": "the loop has data-dependent exits and wrapping 64-bit arithmetic; the failing seeds have density 2^-25 and less, so sampling does not meet them", "anchors": ["tensorflow_model_optimization/python/core/internal/tensor_encoding/utils/tf_utils.py::_cmwc_random_sequence", "tensorflow_model_optimization/python/core/internal/tensor_encoding/utils/tf_utils.py::random_signs_cmwc", "tensorflow_model_optimization/python/core/internal/tensor_encoding/utils/tf_utils.py::random_floats_cmwc"]}
{"id": "C134", "title": "set_quantize_weights accepts exactly the tensors that fit the declared weight attributes", "statement": "Calling set_quantize_weights of the default 8-bit config on any layer: when there is one tensor per declared weight attribute and each has the shape of the value currently held, every attribute then holds its own tensor and nothing else of the layer changes; a wrong number of tensors or a tensor of another shape is a ValueError, a missing attribute an AttributeError.", "quantifier": "every layer, every list of distinct weight attributes, every list of tensors", "why_tests_cant": "the attributes and tensors are matched by position with zip, over all list lengths and shapes", "anchors": ["tensorflow_model_optimization/python/core/quantization/keras/default_8bit/default_8bit_quantize_registry.py::Default8BitQuantizeConfig.set_quantize_weights"]}
{"id": "C135", "title": "A replacement proposed by a transform takes effect unless it equals the layers it replaces", "statement": "When a transform matches part of a model, its replacement is carried out whenever it differs from the match in any layer, connection, weight or metadata; if it does not, the model is left as it is and the run is not prolonged. A set of transforms that never changes anything returns the model it was given.", "quantifier": "every model, every list of transforms (arbitrary replacement functions), every point of the run", "why_tests_cant": "equality is a hand-written recursive comparison over arbitrary trees of layers, and the loop depends on it", "anchors": ["tensorflow_model_optimization/python/core/quantization/keras/graph_transformations/model_transformer.py::ModelTransformer.transform", "tensorflow_model_optimization/python/core/quantization/keras/graph_transformations/transforms.py::LayerNode.__eq__"]}
{"id": "C136", "title": "The layers of a match are connected in the model as the pattern says", "statement": "When a transform finds its pattern, the matched input layers of each matched layer are exactly the layers that feed it: the layers its call takes inputs from in a functional model, the layer just before it in a Sequential one; and a replacement that keeps those layers keeps their roles as operands.", "quantifier": "every model, every pattern of any depth, every matched layer", "why_tests_cant": "the match is a recursive search over arbitrary graphs; tests use a few small models", "anchors": ["tensorflow_model_optimization/python/core/quantization/keras/graph_transformations/model_transformer.py::ModelTransformer._match_layer_with_inputs", "tensorflow_model_optimization/python/core/quantization/keras/graph_transformations/model_transformer.py::ModelTransformer._get_input_layer_names", "tensorflow_model_optimization/python/core/quantization/keras/graph_transformations/model_transformer.py::ModelTransformer._get_layers", "tensorflow_model_optimization/python/core/quantization/keras/graph_transformations/model_transformer.py::ModelTransformer._replace_functional"]}
{"id": "C137", "title": "Each default layout transform changes only the quantization it is meant to change", "statement": "For every match: Conv2D/Dense + BatchNormalization (+ ReLU) loses the inner quantization and keeps all layers, weights and other settings, unless one of them has a config; a Concatenate layer takes over the output quantization of its inputs; a layer in front of a ReLU is not quantized; an input gets a QuantizeLayer; a separable convolution is broken up with its settings and weights; causal padding is refused.", "quantifier": "every transform of both default lists (8-bit, n-bit), every matched tree of layers with any configuration, weights and metadata", "why_tests_cant": "the transforms act on arbitrary trees; tests compare a handful of literal models", "anchors": ["tensorflow_model_optimization/python/core/quantization/keras/default_8bit/default_8bit_transforms.py::Conv2DBatchNormQuantize", "tensorflow_model_optimization/python/core/quantization/keras/default_8bit/default_8bit_transforms.py::Conv2DBatchNormReLUQuantize", "tensorflow_model_optimization/python/core/quantization/keras/default_8bit/default_8bit_transforms.py::LayerReLUQuantize", "tensorflow_model_optimization/python/core/quantization/keras/default_8bit/default_8bit_transforms.py::ConcatTransform", "tensorflow_model_optimization/python/core/quantization/keras/default_8bit/default_8bit_transforms.py::SeparableConvQuantize", "tensorflow_model_optimization/python/core/quantization/keras/default_8bit/default_8bit_transforms.py::SeparableConv1DQuantize", "tensorflow_model_optimization/python/core/quantization/keras/default_8bit/default_8bit_transforms.py::InputLayerQuantize"]}
{"id": "C138", "title": "Supported layers get exactly the documented quantizers", "statement": "The config the registry returns for a supported layer class quantizes the kernels of Dense and convolution layers with the requested bits, symmetrically and in narrow range, per channel only for Conv2D and DepthwiseConv2D; it quantizes their activation attribute, and the outputs of the listed classes, with asymmetric moving-average ranges; nothing else is quantized. After quantize_apply each wrapper uses those quantizers.", "quantifier": "both schemes, every class, every bit width, per-axis on or off, every annotated model", "why_tests_cant": "the statement is about every layer of every model; tests look at one class at a time", "anchors": ["tensorflow_model_optimization/python/core/quantization/keras/default_8bit/default_8bit_quantize_registry.py::Default8BitQuantizeRegistry", "tensorflow_model_optimization/python/core/quantization/keras/default_8bit/default_8bit_quantize_registry.py::Default8BitQuantizeConfig", "tensorflow_model_optimization/python/core/quantization/keras/default_8bit/default_8bit_quantize_registry.py::Default8BitActivationQuantizeConfig", "tensorflow_model_optimization/python/core/quantization/keras/quantize.py::quantize_apply"]}
{"id": "C139", "title": "The flat encoders work around every well-behaved encoder tree", "statement": "For every tree of encoding stages that read their dictionaries by key and whose outputs have a structure independent of data, state and random draws, GatherEncoder and SimpleEncoder can be created, and afterwards no call fails: in every state reachable by update_state, get_params, encode, decode_before_sum, decode_after_sum and update_state succeed on every input of the declared shape and dtype, the decoded value has that shape and dtype, and the i-th aggregation mode belongs to the i-th state-update tensor.", "quantifier": "every tree (any depth and branching), every stage satisfying the stage contract, every history of state updates, every input and random draw", "why_tests_cant": "trees, states and dictionaries are unbounded; tests run a few fixed trees", "anchors": ["tensorflow_model_optimization/python/core/internal/tensor_encoding/core/gather_encoder.py::GatherEncoder.from_encoder", "tensorflow_model_optimization/python/core/internal/tensor_encoding/core/simple_encoder.py::SimpleEncoder.__init__", "tensorflow_model_optimization/python/core/internal/tensor_encoding/core/core_encoder.py::Encoder.encode", "tensorflow_model_optimization/python/core/internal/tensor_encoding/core/core_encoder.py::Encoder.decode_before_sum", "tensorflow_model_optimization/python/core/internal/tensor_encoding/core/core_encoder.py::Encoder.decode_after_sum"]}
{"id": "C140", "title": "Summing clients commutes with decoding, through the flat interface", "statement": "With GatherEncoder around a tree whose stages commute with sums where they declare it, adding up the part-decoded values of any number of clients key by key and calling decode_after_sum with their number gives the sum of the values that decoding each client alone gives; for one client this is exactly what a SimpleEncoder around the same tree decodes from the same random draws, and the updated states agree.", "quantifier": "every tree, every number of clients, every input, state and draw", "why_tests_cant": "relates runs of two different public classes over unbounded trees and client counts", "anchors": ["tensorflow_model_optimization/python/core/internal/tensor_encoding/core/gather_encoder.py::GatherEncoder.decode_before_sum", "tensorflow_model_optimization/python/core/internal/tensor_encoding/core/gather_encoder.py::GatherEncoder.decode_after_sum", "tensorflow_model_optimization/python/core/internal/tensor_encoding/core/simple_encoder.py::SimpleEncoder.decode", "tensorflow_model_optimization/python/core/internal/tensor_encoding/core/core_encoder.py::split_params_by_commuting_structure", "tensorflow_model_optimization/python/core/internal/tensor_encoding/core/core_encoder.py::Encoder._decode_after_sum_impl"]}
{"id": "C141", "title": "The library encoders behind GatherEncoder and SimpleEncoder", "statement": "Every encoder composed of the library stages (identity, flatten, Hadamard rotation, uniform quantization, bit packing) at the keys the composer allows can be given to GatherEncoder and SimpleEncoder for float tensors of any shape its stages accept; no later call fails, and decoding a sum of part-decoded values gives the sum of the decoded values. With common_encoders.uniform_quantization every entry of the decoded sum of n clients is within n quantization steps (n half steps without randomness) of the sum of the entries clipped to the range; with hadamard_quantization every client contributes its value up to a Euclidean error of 2*sqrt(p)*norm/(2^bits-1), p the padded size; the same holds for SimpleEncoder round trips. Hadamard quantization of an empty tensor cannot be set up.", "quantifier": "every tree of library stages, every shape, bit width, range, number of clients, client value, reachable state and random draw", "why_tests_cant": "end-to-end statement over unbounded shapes, client counts and all draws; it joins the numeric stages, the composer, the core encoder and both flat interfaces", "anchors": ["tensorflow_model_optimization/python/core/internal/tensor_encoding/encoders/common_encoders.py::identity", "tensorflow_model_optimization/python/core/internal/tensor_encoding/encoders/common_encoders.py::uniform_quantization", "tensorflow_model_optimization/python/core/internal/tensor_encoding/encoders/common_encoders.py::hadamard_quantization", "tensorflow_model_optimization/python/core/internal/tensor_encoding/stages/stages_impl.py::UniformQuantizationEncodingStage", "tensorflow_model_optimization/python/core/internal/tensor_encoding/stages/stages_impl.py::BitpackingEncodingStage", "tensorflow_model_optimization/python/core/internal/tensor_encoding/stages/stages_impl.py::HadamardEncodingStage", "tensorflow_model_optimization/python/core/internal/tensor_encoding/stages/stages_impl.py::FlattenEncodingStage", "tensorflow_model_optimization/python/core/internal/tensor_encoding/core/gather_encoder.py::GatherEncoder.from_encoder", "tensorflow_model_optimization/python/core/internal/tensor_encoding/core/simple_encoder.py::SimpleEncoder.encode"]}
{"id": "C142", "title": "The pruning benchmark tool: flags, file names, files left on disk", "statement": "The block_size flag is accepted exactly if it is two comma-separated Python integers, and these are the sizes used; refused flags leave everything untouched. A run changes at most two paths, unpruned_model.tflite and the pruned model's file in output_dir; the latter only once the former holds the converted input model. A successful element-wise run leaves the converted model and the converted one-shot pruned model (exact mask of C97) and prints the true archive sizes and the truncated percentage. The pruned file name tells apart all block sizes and all sparsities that differ in hundredths, and never equals the unpruned name. Not guaranteed (proved): positive block sizes are not checked (the run dies after writing the first file), sparsities equal to two decimals overwrite each other, a failing conversion empties the file that was there, and the printed percentage counts the archive's copies of the file name.", "quantifier": "every flag text, sparsity, block size, output directory, model, file system and point of failure", "why_tests_cant": "quantifies over all strings, all file systems and every crash point", "anchors": ["tensorflow_model_optimization/python/core/tensorflow_model_optimization/python/core/sparsity/keras/tools/evaluate_pruning.py::_parse_block_size_flag", "tensorflow_model_optimization/python/core/tensorflow_model_optimization/python/core/sparsity/keras/tools/evaluate_pruning.py::_check_block_size", "tensorflow_model_optimization/python/core/tensorflow_model_optimization/python/core/sparsity/keras/tools/evaluate_pruning.py::convert_to_tflite", "tensorflow_model_optimization/python/core/tensorflow_model_optimization/python/core/sparsity/keras/tools/evaluate_pruning.py::get_gzipped_size", "tensorflow_model_optimization/python/core/tensorflow_model_optimization/python/core/sparsity/keras/tools/evaluate_pruning.py::pruned_model_filename", "tensorflow_model_optimization/python/core/tensorflow_model_optimization/python/core/sparsity/keras/tools/evaluate_pruning.py::run", "tensorflow_model_optimization/python/core/tensorflow_model_optimization/python/core/sparsity/keras/tools/evaluate_pruning.py::main"]}
{"id": "C143", "title": "What each stage of an encoder tree receives and where its results go", "statement": "In every call of a core Encoder, each stage of the tree is called on exactly its own data: update_state on its own state and update tensors (the result being its next state), get_params on its own state, encode on the value its parent wrote under its key with its own parameters (the update tensors and, if asked for, the input shape being kept for it), decode on its own parameters and shape with the children's decoded values in place of theirs. decode_before_sum leaves untouched what commuting stages encoded and decodes every first non-commuting stage to a single tensor; decode_after_sum decodes the rest with the number of summands.", "quantifier": "every encoder tree, state, value, random draw and nested dictionary", "why_tests_cant": "ranges over trees of any depth and all dictionary contents", "anchors": ["tensorflow_model_optimization/python/core/internal/tensor_encoding/core/core_encoder.py::Encoder.update_state", "tensorflow_model_optimization/python/core/internal/tensor_encoding/core/core_encoder.py::Encoder.get_params", "tensorflow_model_optimization/python/core/internal/tensor_encoding/core/core_encoder.py::Encoder.encode", "tensorflow_model_optimization/python/core/internal/tensor_encoding/core/core_encoder.py::Encoder.decode", "tensorflow_model_optimization/python/core/internal/tensor_encoding/core/core_encoder.py::Encoder.decode_before_sum", "tensorflow_model_optimization/python/core/internal/tensor_encoding/core/core_encoder.py::Encoder.decode_after_sum"]}
{"id": "C144", "title": "The pruning mask update in float32 keeps the documented number of weights", "statement": "With the arithmetic the code really uses (IEEE binary32, rounding to nearest), a magnitude-pruning mask update of any tensor keeps at least one weight and at most all of them, the number kept is size*(1-sparsity) rounded up to float32 rounding errors - exactly the documented count unless that product is next to a half-integer -, it never rises when the sparsity rises, everything is kept at sparsity zero, and the mask keeps exactly the weights at least as large as the k-th largest magnitude. The range claims hold up to 2^24 weights, or from sparsity 2^-22 on.", "quantifier": "every tensor of at most 2^31 entries and every float32 sparsity in [0,1)", "why_tests_cant": "ranges over all sizes and all float32 sparsities; rounding goes wrong only at sizes no test uses", "anchors": ["tensorflow_model_optimization/python/core/tensorflow_model_optimization/python/core/sparsity/keras/pruning_impl.py::Pruning._update_mask"]}
{"id": "C145", "title": "The target sparsity in float32 follows the documented schedule", "statement": "With the arithmetic the code really uses (Python floats for the arguments, float32 for the schedule), the constructors accept exactly the floats in [0,1); the target of PolynomialDecay is exactly that of ConstantSparsity(final) from the end step on, the initial sparsity up to rounding (exactly when it is 0) up to the begin step, never turns back in between, is always a number in [0,1] and within (n+2)*2^-22 of the documented formula for an integral power n; it is below 1 if the arguments are at most 1-2^-22, and then, with rising sparsity, no tensor ever keeps more weights at a later step.", "quantifier": "every accepted pair of sparsities, begin and end step less than 2^63 apart, step, and every monotone float32 power function", "why_tests_cant": "ranges over all float pairs, steps and horizons; rounding effects appear only at extreme arguments", "anchors": ["tensorflow_model_optimization/python/core/tensorflow_model_optimization/python/core/sparsity/keras/pruning_schedule.py::PolynomialDecay.__call__", "tensorflow_model_optimization/python/core/tensorflow_model_optimization/python/core/sparsity/keras/pruning_schedule.py::ConstantSparsity.__call__", "tensorflow_model_optimization/python/core/tensorflow_model_optimization/python/core/sparsity/keras/pruning_schedule.py::PruningSchedule._validate_sparsity", "tensorflow_model_optimization/python/core/tensorflow_model_optimization/python/core/sparsity/keras/pruning_impl.py::Pruning._update_mask"]}
{"id": "C146", "title": "Uniform quantization in float32 stays within its bits and its error bound", "statement": "With the arithmetic the code really uses (float32), UniformQuantizationEncodingStage encodes every tensor of numbers of at most 2^126 as integers in [0,2^bits-1], stochastic or not, whatever the random draws; the least value (or the lower limit) gets code 0 and the greatest the greatest code; deterministic codes respect the order of the values; and decoding returns numbers within one step (half a step if deterministic) plus 3*2^-22 of the range limits' magnitude of the (clipped) values, the least value and constant tensors exactly. Greater numbers overflow, and the greatest value need not come back exactly.", "quantifier": "all tensors, given or found ranges, bits 1-16, both modes and all random draws", "why_tests_cant": "continuum of inputs and draws; rounding effects need specific values", "anchors": ["tensorflow_model_optimization/python/core/internal/tensor_encoding/stages/stages_impl.py::UniformQuantizationEncodingStage.encode", "tensorflow_model_optimization/python/core/internal/tensor_encoding/stages/stages_impl.py::UniformQuantizationEncodingStage.decode"]}
{"id": "C147", "title": "Clustering in float32 uses the nearest centroid, up to rounding", "statement": "With the arithmetic the code really uses (float32), for every non-empty list of centroids and every tensor of weights of at most 2^126 above -1000000, the clustered weight has the value of one of the centroids, and no other centroid is nearer by more than 2^-22 of the distance (so it is the nearest whenever the competition is not that close); a weight equal to a centroid (zero, say) keeps its value, there are at most as many different values as centroids, and clustering a second time changes nothing. It need not be the nearest: 1 is put on -16777216 rather than -16777215; and greater distances overflow.", "quantifier": "all lists of centroids and all weight tensors", "why_tests_cant": "continuum of inputs; rounding effects need specific values", "anchors": ["tensorflow_model_optimization/python/core/clustering/keras/clustering_algorithm.py::ClusteringAlgorithm.get_pulling_indices", "tensorflow_model_optimization/python/core/clustering/keras/clustering_algorithm.py::ClusteringAlgorithm.get_clustered_weight", "tensorflow_model_optimization/python/core/clustering/keras/clustering_algorithm.py::ClusteringAlgorithm.add_gradient_to_original_weight"]}
{"id": "C148", "title": "Quantization ranges are sound in float32 too", "statement": "With the arithmetic the code really uses (float32), for quantizers of 2 to 16 bits and any history of calls with tensors of numbers of at most 2^126: the stored range consists of numbers and contains 0; AllValues' range contains everything seen and, unless symmetric, its limits are exactly 0 or values seen; LastValue's does so for the last batch, and a symmetric one has the documented ratio of limits up to rounding; each MovingAverage limit moves to a value between its old one and that of the batch, exactly, so it never leaves the hull of (-6, 6) and the values seen, and symmetric narrow ranges stay exactly symmetric; inference changes nothing. Near the greatest float32 a symmetric limit is infinite, and the moving average stops short of a batch range that repeats forever.", "quantifier": "all histories of batches of any size, all three range quantizers, symmetric or not, narrow or not", "why_tests_cant": "unbounded histories; rounding effects need specific values", "anchors": ["tensorflow_model_optimization/python/core/quantization/keras/quant_ops.py::LastValueQuantize", "tensorflow_model_optimization/python/core/quantization/keras/quant_ops.py::MovingAvgQuantize", "tensorflow_model_optimization/python/core/quantization/keras/quant_ops.py::AllValuesQuantize"]}
{"id": "C149", "title": "Adding up quantized tensors works in float32", "statement": "With the arithmetic the code really uses (float32), for clients that quantize vectors uniformly in the same given range to 1 to 16 bits: as long as (number of clients) * (2^bits - 1) is at most 2^24, adding up the codes of a coordinate is exact in whatever order and bracketing the additions happen, and decoding the sum with that number of summands returns, for each coordinate, the sum of the (clipped) values of the clients up to one quantization step per client (half a step if deterministic) plus a relative 3/4194304 of the range per client. A single tensor is decoded as without summands. Beyond 2^24 the sum depends on the order of the additions.", "quantifier": "any number of clients, any vectors, ranges, draws, orders of additions", "why_tests_cant": "all orders of additions and numbers of clients; rounding effects need specific values", "anchors": ["tensorflow_model_optimization/python/core/internal/tensor_encoding/stages/stages_impl.py::UniformQuantizationEncodingStage"]}
{"id": "C150", "title": "The Hadamard rotation works in float32", "statement": "With the arithmetic the code really uses (float32): for a vector of at most 2^24 finite values of magnitude at most 2^60, the fast Walsh-Hadamard transform returns the exact transform up to a relative error of (k+3)/2^23 in the Euclidean norm (plus 2^k/2^150 for underflow), where 2^k is the padded length; encoding changes the norm of the vector by at most that; decoding returns the vector up to a relative (k+3)/2^22 of its norm (plus 2^k/2^148). Decoding is not exact: a component that is tiny compared with another can be lost.", "quantifier": "every vector, every draw of the signs (other than exactly 1/2), every length", "why_tests_cant": "rounding errors of log2(n) stages for all vectors and lengths; lost components need specific values", "anchors": ["tensorflow_model_optimization/python/core/internal/tensor_encoding/stages/stages_impl.py::HadamardEncodingStage", "tensorflow_model_optimization/python/core/internal/tensor_encoding/utils/tf_utils.py::fast_walsh_hadamard_transform"]}
