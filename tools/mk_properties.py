import json
P=[]
def p(id,title,statement,quant,why,anchors):
    P.append(dict(id=id,title=title,statement=statement,quantifier=quant,why_tests_cant=why,anchors=anchors))
B='tensorflow_model_optimization/python/core/'
def a(f,*syms): return [B+f+'::'+s for s in syms] if syms else [B+f]
# ---------------- pruning
S='sparsity/keras/pruning_schedule.py'
p('C01','A pruning schedule fires exactly on its declared steps',
 'For every ConstantSparsity or PolynomialDecay object the constructor accepts, calling it with a training step reports "prune now" exactly when step = begin_step + k*frequency for some k >= 0 and, unless end_step is -1 (no end), step <= end_step.',
 'all integer begin/end/frequency accepted by the constructor and all integer steps (including negative ones)',
 'tests sample a few steps of a few schedules; boundary steps and unreachable end_step values (not begin + k*frequency) form an infinite family',
 a(S,'PruningSchedule._should_prune_in_step','ConstantSparsity.__call__','PolynomialDecay.__call__'))
p('C02','Schedule constructors accept exactly the documented argument ranges',
 'ConstantSparsity/PolynomialDecay construction succeeds iff every sparsity is in [0,1), begin_step >= 0, frequency > 0 and either end_step = -1 (ConstantSparsity only) or end_step >= max(begin_step,0); otherwise ValueError.',
 'all integer step arguments and all rational sparsities','the rejected set is an infinite union of half spaces; tests check single points',
 a(S,'PruningSchedule._validate_step','PruningSchedule._validate_sparsity'))
p('C03','Polynomial decay stays between the two sparsities, is monotone and hits both ends',
 'For an accepted PolynomialDecay with begin_step < end_step and power > 0 the target sparsity equals initial_sparsity for every step <= begin_step and final_sparsity for every step >= end_step, always lies between the two, is monotone in the step, and so always is in [0,1).',
 'all accepted parameters (real power > 0) and all steps','continuum of exponents and unbounded steps',
 a(S,'PolynomialDecay.__call__'))
p('C04','Every accepted polynomial schedule yields a number at every step',
 'Every PolynomialDecay object the constructor accepts returns a finite target sparsity (never NaN) on every step on which it asks to prune.',
 'all accepted parameters, all steps','a NaN needs the degenerate begin_step == end_step case at exactly one step, which no sampled test hits',
 a(S,'PolynomialDecay.__call__','PruningSchedule._validate_step'))
I='sparsity/keras/pruning_impl.py'
p('C05','A magnitude mask keeps the largest-magnitude weights',
 'After a (non m-by-n, block 1x1) mask update at sparsity s every kept weight has magnitude >= every pruned weight, strictly greater in fact; the mask is exactly the set of weights whose magnitude is >= the k-th largest magnitude, where k = max(1, round(size*(1-s))); the stored threshold is that k-th largest magnitude.',
 'all weight tensors of any size >= 1 and all sparsities in [0,1)','must hold for every weight vector, including ties, zeros and negative values',
 a(I,'Pruning._update_mask','Pruning._maybe_update_block_mask'))
p('C06','A magnitude mask reaches the requested sparsity and never removes everything',
 'The number of kept weights is at least k = max(1, round(size*(1-s))) (so at least one weight always survives), and is exactly k when no two weights have equal magnitude; k differs from size*(1-s) by at most 1/2 unless it was raised to 1.',
 'all weight tensors, all sparsities in [0,1)','counting statement over all tensors and rounding boundaries',
 a(I,'Pruning._update_mask'))
p('C07','The requested sparsity is reached for every weight tensor',
 'For every weight tensor and sparsity s the mask update leaves exactly max(1, round(size*(1-s))) weights.',
 'all weight tensors including tensors with equal magnitudes','random float tensors in tests have no ties, so tests cannot see the failure on tied magnitudes',
 a(I,'Pruning._update_mask'))
U='sparsity/keras/pruning_utils.py'
p('C08','Block pruning prunes whole blocks, chosen by pooled magnitude',
 'With a block size (bh,bw) the mask has the shape of the weight, is constant on every aligned bh x bw block, and a block is kept iff its pooled (AVG or MAX) magnitude is >= the k-th largest pooled magnitude; when a pooled dimension collapses to 1 the update is rejected with an error instead of producing a wrong mask.',
 'all 2-D weight shapes (also not divisible by the block), all blocks, all sparsities','shape arithmetic over all sizes and non-divisible borders',
 a(I,'Pruning._maybe_update_block_mask')+a(U,'expand_tensor','factorized_pool'))
p('C09','Mask expansion replicates every entry over its block',
 'expand_tensor(t,[bh,bw]) has shape (bh*rows, bw*cols) and entry (i,j) equals t[i//bh, j//bw], i.e. it is the Kronecker product with an all-ones block; kronecker_product itself satisfies the index law for every pair of matrices.',
 'all matrices and positive block sizes','index law over unbounded shapes', a(U,'expand_tensor','kronecker_product'))
p('C10','An m-by-n mask removes at least m of every n consecutive weights and keeps the largest',
 'In each row of the 2-D arrangement, every aligned group of n consecutive entries has exactly n-m kept positions (counting padding), the kept entries have magnitude >= the dropped ones, and a group lying inside the row has exactly m dropped weights. On the weight itself the groups run over consecutive input channels, separately for every output channel and kernel position.',
 'all 2-D weights, all 0 < m < n','all row lengths, divisible or not by n, all ties', a(U,'generate_m_by_n_mask'))
p('C11','The m-by-n checker accepts every weight tensor the m-by-n pruner produced',
 'For every rank-2 or rank-4 weight w and 0<m<n, multiplying w by the mask produced by the pruner gives a tensor on which is_pruned_m_by_n returns True (with the matching last_channel); and in general is_pruned_m_by_n returns True exactly when every aligned group of n consecutive input channels has at most n-m non-zero weights.',
 'all rank 2/4 shapes and contents, all m<n','cross-checks two separate index computations over all shapes', a(U,'generate_m_by_n_mask','is_pruned_m_by_n','weights_rearrange','m_by_n_sparsity_mask_prepare'))
p('C12','Rearranging to 2-D and back is lossless',
 'm_by_n_sparsity_mask_prepare(weights_rearrange(w), shape(w)) = w for every rank-2 and rank-4 tensor, so each mask entry lands on the weight it was computed from; other ranks raise ValueError.',
 'all rank 2/4 shapes and contents','permutation identity over all shapes', a(U,'weights_rearrange','m_by_n_sparsity_mask_prepare'))
W='sparsity/keras/pruning_wrapper.py'; CB='sparsity/keras/pruning_callbacks.py'
p('C13','The pruning step counts training batches, across any number of fit calls',
 'With the UpdatePruningStep callback, after any sequence of fit calls, training batches, evaluations, epoch ends the step of a wrapped layer equals the number of training batches run since the first fit; evaluation never advances it and a later fit never resets it.',
 'all histories of fit/epoch/batch/evaluate events','histories are unbounded', a(W,'PruneLowMagnitude.call','PruneLowMagnitude.build')+a(CB,'UpdatePruningStep.on_train_begin'))
p('C14','Training without the callback is an error, never silent',
 'A training batch on a wrapped layer raises the "must add UpdatePruningStep" error whenever no training begin was signalled before it, and never raises it afterwards.',
 'all histories','needs every history', a(W,'PruneLowMagnitude.call')+a(CB,'UpdatePruningStep.on_train_begin'))
p('C15','Pruned weights are zero wherever the mask is zero after every forward pass and every epoch end',
 'After any forward pass, and after each epoch end with the callback, every weight whose mask entry is 0 is exactly 0, whatever the optimizer did in between; weights whose mask entry is 1 are unchanged by masking. Hence stripping after fit yields weights at least as sparse as the mask.',
 'all histories with arbitrary optimizer updates','arbitrary interleaving of optimizer writes and masking', a(I,'Pruning.weight_mask_op','Pruning._weight_assign_objs')+a(CB,'UpdatePruningStep.on_epoch_end'))
p('C16','Masks change only on scheduled training steps',
 'Between scheduled steps, during evaluation, and after end_step, the mask and threshold of a wrapped layer never change, whatever happens to the weights; on a scheduled training step the new mask is the one determined by the current weights and the schedule sparsity. In m-by-n mode the mask is computed on the first training step only.',
 'all histories','unbounded histories', a(I,'Pruning.conditional_mask_update')+a(W,'PruneLowMagnitude.call'))
p('C17','Starting to train initialises every pruned layer',
 'After on_train_begin of UpdatePruningStep every pruned layer has a step >= 0 and no layer that already has a step loses it.',
 'all models, including ones mixing freshly wrapped and already trained pruned layers','needs models whose layers have different training histories',
 a(CB,'UpdatePruningStep.on_train_begin'))
PR='sparsity/keras/prune.py'
p('C18','strip_pruning undoes prune_low_magnitude, keeping the weights',
 'For every (arbitrarily nested) Sequential/functional model made of supported layers, strip_pruning(prune_low_magnitude(m)) is m: same layers in the same nesting and order, same weights; stripping removes every wrapper at every depth.',
 'all finite nestings of models and layers','unbounded nesting depth and layer sequences', a(PR,'prune_low_magnitude','strip_pruning'))
p('C19','Pruning is idempotent and wraps exactly what it may',
 'prune_low_magnitude wraps every plain supported layer (allowed by the policy, when one is given), leaves already wrapped layers and input layers alone, so applying it twice equals applying it once; an unsupported layer makes the call fail with an error and nothing is silently skipped.',
 'all nested models and all policies','unbounded nesting', a(PR,'prune_low_magnitude')+a(W,'PruneLowMagnitude.__init__'))
p('C20','Saving and reloading a pruning wrapper preserves its configuration',
 'from_config(get_config(w)) has the same schedule, block size, pooling type and m-by-n setting as w.',
 'all wrapper configurations','must hold for every configuration, tests use a few', a(W,'PruneLowMagnitude.get_config','PruneLowMagnitude.from_config')+a(S,'ConstantSparsity.get_config','PolynomialDecay.get_config'))
PO='sparsity/keras/pruning_policy.py'
p('C21','The latency policy search finds exactly the frontier layers or gives up',
 '_lookup: starting from the input layers and following the model graph, the search of PruneForLatencyOnXNNPack returns precisely the set of first layers satisfying the stop criterion on paths from the start, and returns the empty set iff some path leaves the model through a layer that does not satisfy it; it terminates on every acyclic graph.',
 'all finite DAG models','graphs of every size', a(PO,'PruneForLatencyOnXNNPack._lookup_layers','PruneForLatencyOnXNNPack.ensure_model_supports_pruning'))
# ---------------- clustering
CA='clustering/keras/clustering_algorithm.py'; CW='clustering/keras/cluster_wrapper.py'; CC='clustering/keras/clustering_centroids.py'; CM='clustering/keras/cluster.py'
p('C22','Every clustered weight is a nearest centroid',
 'The clustered value of a weight is one of the centroids and no other centroid is strictly closer to the original weight (lowest index on ties); hence a clustered tensor has at most number_of_clusters distinct values, and clustering an already clustered tensor with the same centroids changes nothing.',
 'all weight tensors with entries above -1e6 (see C26 for the others), non-empty centroid vectors, and any history of updates','for all tensors, including ties and duplicate centroids', a(CA,'ClusteringAlgorithm.get_pulling_indices','ClusteringAlgorithm.get_clustered_weight'))
p('C23','Per-channel clustering clusters every channel with its own centroids',
 'With cluster_per_channel each output channel of a Conv2D kernel only contains values of that channel’s centroid row, each nearest to its original weight, so each channel has at most number_of_clusters distinct values.',
 'all channel counts, kernels, centroids','unbounded shapes', a(CA,'ClusteringAlgorithmPerChannel'))
p('C24','Sparsity is preserved by clustering for any training history',
 'With preserve_sparsity, every weight that was exactly zero when the wrapper was built is exactly zero in the clustered weights used in every later forward pass, whatever gradient updates hit the centroids and the original weights.',
 'all weights, centroids and unbounded sequences of arbitrary updates','unbounded adversarial histories', a(CW,'ClusterWeights.build','ClusterWeights.update_clustered_weights_associations'))
p('C25','Centroid gradients aggregate exactly the gradients of the member weights',
 'The gradient reaching centroid j is the sum (SUM) or the mean (AVG) of the upstream gradients of the weights assigned to j and 0 when the cluster is empty; every weight contributes to exactly one centroid.',
 'all gradients and assignments','sums over all tensors', a(CA,'ClusteringAlgorithm.average_centroids_gradient_by_cluster_size','ClusteringAlgorithm.get_clustered_weight'))
p('C26','The straight-through estimator passes gradients to the original weights unchanged',
 'The forward value produced by the straight-through step is the clustered weight and the gradient to the original weight is the upstream gradient, for every weight value.',
 'all real weights','tests use weights of order 1; the failure needs |w| >= 1e6', a(CA,'ClusteringAlgorithm.add_gradient_to_original_weight'))
p('C27','Zero-centroid initialisation returns the requested number of centroids with exactly one zero among them',
 'For sparsity-preserving initialisation of a tensor that has both zero and non-zero weights the returned vector has number_of_clusters entries, arranged as negative-side centroids, 0, positive-side centroids, with the non-zero budget split in proportion to the number of negative and positive weights (a side without weights gets none).',
 'all weight tensors, all cluster counts >= 3','rounding boundaries and one-sided tensors', a(CC,'AbstractCentroidsInitialisation._zero_centroid_initialization'))
p('C28','Linear initialisation spans the weight range evenly',
 'Linear initialisation returns number_of_clusters equally spaced values from min(w) to max(w), inclusive.',
 'all tensors and cluster counts','all sizes', a(CC,'LinearCentroidsInitialisation._calculate_centroids_for_interval'))
p('C29','Density-based initialisation interpolates the empirical distribution',
 'Each density-based centroid is obtained by linear interpolation of the CDF between two neighbouring grid points.',
 'all weight tensors','the interpolation only degenerates algebraically; no numerical test compares it with the grid', a(CC,'TFLinearEquationSolver','DensityBasedCentroidsInitialisation'))
p('C30','strip_clustering puts every weight back in its original position',
 'strip_clustering restores a layer whose weight list has the original order, with each clusterable weight replaced by its clustered value and every other weight unchanged.',
 'all layers, all registration orders of clusterable weights','depends on the order of positions, unbounded lists', a(CM,'strip_clustering','_strip_clustering_wrapper'))
p('C31','Clustering arguments are rejected exactly when documented',
 'A layer is wrapped, with exactly the requested settings, iff it is supported and number_of_clusters is an int >= 2 (>= 3 with preserve_sparsity); otherwise an error is raised. Exceptions: cluster_per_channel is ignored for layers other than Conv2D; a Conv2D whose clustering unit has no more weights than clusters is left as it is; a Conv2D without trainable weights is rejected; wrapped layers are left as they are and input layers are cloned.',
 'all argument combinations','infinite argument space', a(CW,'ClusterWeights.__init__')+a(CM,'_cluster_weights'))
p('C32','Clustering wrapper configuration round-trips',
 'from_config(get_config(w)) has the same clusters, initialiser, sparsity flag, gradient aggregation and per-channel flag.',
 'all configurations','all configurations', a(CW,'ClusterWeights.get_config','ClusterWeights.from_config'))
# ---------------- quantization
QO='quantization/keras/quant_ops.py'; QZ='quantization/keras/quantizers.py'
p('C33','Fake quantization is a clamped rounding to at most 2^bits levels containing zero',
 'For min < 0 < max (or touching 0) fake quantization maps every input to one of the 2^bits (2^bits-1 when narrow) equally spaced levels of the nudged range, maps 0 to exactly 0, is monotone, moves inputs inside the nudged range by at most half a step, clamps the others to the ends, and is idempotent.',
 'all rational inputs, ranges and bit widths >= 2','continuum of inputs and ranges', a(QO,'_FakeQuantWithMinMaxVars'))
p('C34','Quantization ranges always include zero, whatever batches were seen',
 'For LastValue, MovingAverage and AllValues quantizers, after any sequence of training and inference calls the stored range satisfies min <= 0 <= max; with symmetric=True a training call of LastValue stores max = -min*(…) with the documented ratio.',
 'all sequences of batches of any size','unbounded history of arbitrary tensors', a(QO,'LastValueQuantize','MovingAvgQuantize','AllValuesQuantize')+a(QZ,'_QuantizeHelper._add_range_weights'))
p('C35','AllValues range covers everything seen and only grows; LastValue range is that of the last batch; the moving average stays in the hull',
 'After any history of training calls AllValues’ range is exactly [min(0,all values seen), max(0,all values seen)]; LastValue’s is determined by the last training batch alone; each MovingAverage bound is the exponential average old - (old-batch)*(1-decay), hence always between its initial value and the batch extremes seen.',
 'all histories','unbounded history', a(QO,'AllValuesQuantize','LastValueQuantize','MovingAvgQuantize'))
p('C36','Inference never changes quantizer state',
 'Calling any quantizer with training=False leaves its range untouched and its output depends only on the input and the stored range.',
 'all states and inputs','all histories', a(QO,'LastValueQuantize','MovingAvgQuantize','AllValuesQuantize'))
p('C37','Per-axis quantization treats channels independently',
 'With per_axis the range of channel c is computed from channel c only and values of channel c are quantized with that range only, for weights of rank 1, 2 and 4; other ranks are rejected.',
 'all shapes and contents','all shapes', a(QO,'LastValueQuantize'))
p('C38','num_bits is honoured by every quantizer',
 'A quantizer constructed with num_bits=b produces at most 2^b distinct output levels.',
 'all quantizer classes and bit widths','FixedQuantizer is only tested at 8 bits', a(QZ,'FixedQuantizer')+a(QO,'FixedQuantize'))
p('C39','Every constructible quantizer can be built and called',
 'Any quantizer whose constructor accepts per_axis can quantize a rank 2 or 4 tensor after build.',
 'all quantizer configurations','MovingAverageQuantizer(per_axis=True) is never called in tests', a(QZ,'MovingAverageQuantizer.build')+a(QO,'_FakeQuantWithMinMaxVars','MovingAvgQuantize'))
p('C40','Quantizer configurations round-trip and equality means equal configuration',
 'from_config(get_config(q)) == q for every quantizer, and two quantizers/QuantizeConfigs compare equal iff all their settings are equal.',
 'all configurations','all configurations', a(QZ,'LastValueQuantizer.__eq__')+a('quantization/keras/default_8bit/default_8bit_quantize_registry.py','Default8BitQuantizeConfig.__eq__'))
QW='quantization/keras/quantize_wrapper.py'
p('C41','Quantization-aware forward passes never modify the trained weights',
 'A QuantizeWrapper computes its effective weights as quantizer(stored weight) afresh in every call; any number of forward passes leaves the stored weights unchanged (no accumulation of quantization error) and the trainable weight list contains each stored weight exactly once.',
 'all numbers and modes of calls','unbounded call histories', a(QW,'QuantizeWrapper.call','QuantizeWrapper.build','QuantizeWrapperV2.trainable_weights'))
QA='quantization/keras/quantize_aware_activation.py'
p('C42','Activations are fake-quantized before or after exactly as declared',
 'QuantizeAwareActivation quantizes the input iff the activation is in the pre list, the output iff in the post list, does nothing for NoOp activations and rejects others; training and inference use the same decision.',
 'all activation names','all names', a(QA,'QuantizeAwareActivation'))
Q='quantization/keras/quantize.py'
p('C43','quantize_annotate_model annotates every layer exactly once and nothing else',
 'Annotation wraps every layer except already annotated ones and Lambda layers, keeps order, is idempotent, and fails on nested models.',
 'all layer sequences','unbounded models', a(Q,'quantize_annotate_model'))
p('C44','quantize_apply quantizes exactly the annotated layers, keeps all others and all weights',
 'In the model returned by quantize_apply every annotated layer (other than SeparableConv, which is decomposed) occurs exactly once, wrapped under the prefixed name, with its class, name, weights and configuration up to the activation, and with its own config, the registry config of its class or a library no-op/output config; every un-annotated layer keeps class, name, configuration, weights and connections and stays unwrapped unless it is the sole un-annotated producer of an annotated layer with a registered class, in which case only its output is quantized; nothing else is added except QuantizeLayers and the parts of SeparableConvs; models without annotation or unbuilt raise ValueError, unsupported annotated layers never give a result, and the call returns.',
 'all annotated models','unbounded models', a(Q,'quantize_apply'))
p('C45','A user-supplied QuantizeConfig is never overridden',
 'If a layer is annotated with a custom QuantizeConfig, that config is the one used in the quantized model.',
 'all models and configs','needs the interplay of annotation with every layout transform', a('quantization/keras/default_8bit/default_8bit_transforms.py','LayerReLUQuantize','Conv2DBatchNormQuantize'))
MT='quantization/keras/graph_transformations/model_transformer.py'
p('C46','Graph transformation terminates, touches only candidate layers and preserves weights',
 'ModelTransformer.transform terminates for transforms that introduce finitely many layer names; it modifies only matches whose candidate layers are all allowed; weights of layers present before and after are equal; rewritten graphs keep every consumer of a replaced layer connected to its replacement.',
 'all models and match sets','unbounded rewriting', a(MT,'ModelTransformer.transform','ModelTransformer._replace'))
p('C47','ModelTransformer.transform always terminates','For every model and every list of transforms transform() returns.','all models, all transforms','needs a transform that renames what it matches', a(MT,'ModelTransformer.transform'))
p('C48','fix_input_output_range and remove_input_range accept every quantized model and change only the two ranges','fix_input_output_range works on every quantized model (Sequential with at least one layer, or functional): it changes exactly the quantizers fed by model inputs and the configs of the output layers; remove_input_range likewise.','all Sequential models','single-layer models are not tested', a(Q,'fix_input_output_range'))
PP='quantization/keras/collab_opts/prune_preserve/prune_preserve_quantize_registry.py'; CP='quantization/keras/collab_opts/cluster_preserve/cluster_preserve_quantize_registry.py'
p('C49','Prune-preserving QAT keeps every pruned weight at zero',
 'With the prune-preserving scheme every weight that was zero when the quantizer was built is exactly zero in the quantized kernel of every later call, for any training updates to the float weights.',
 'all weights, all unbounded update histories','unbounded adversarial histories', a(PP,'PrunePreserveDefaultWeightsQuantizer'))
p('C50','Cluster-preserving QAT keeps the number of distinct weights and, with preserve_sparsity, the zeros',
 'After any training call the layer kernel only contains centroid values (at most as many as the kernel had distinct values at build), and with preserve_sparsity positions that were zero stay zero.',
 'all kernels and update histories','unbounded histories', a(CP,'ClusterPreserveDefaultWeightsQuantizer','get_unique'))
p('C51','preserve_sparsity of one layer does not depend on other layers',
 'Whether a layer’s sparsity is preserved under preserve_sparsity depends only on that layer containing zeros.',
 'all multi-layer models','needs a model mixing layers with and without zeros', a(CP,'ClusterPreserveDefaultWeightsQuantizer._build_clusters','ClusterPreserveQuantizeRegistry.__init__'))
# ---------------- tensor encoding
TU='internal/tensor_encoding/utils/tf_utils.py'; ST='internal/tensor_encoding/stages/stages_impl.py'; CE='internal/tensor_encoding/core/core_encoder.py'
p('C52','Bit packing is lossless for every bit width and shape',
 'unpack_from_int(pack_into_int(v,b,28),b,28,shape(v)) = v for every b in 1..16 and every tensor of integers in [0,2^b); packed integers are in [0,2^28) and, for statically known shapes, their number is ceil(b*size/28).',
 'all tensors, all bit widths','all lengths modulo the packing period and all values', a(TU,'pack_into_int','unpack_from_int')+a(ST,'BitpackingEncodingStage'))
p('C53','Uniform quantization error is at most one step, half a step when deterministic, and codes fit in the declared bits',
 'Encoding then decoding with UniformQuantizationEncodingStage moves each (clipped) value by less than (max-min)/(2^bits-1), at most half of that with stochastic=False; codes are integers in [0,2^bits-1]; extremes are reproduced exactly; a constant tensor is reproduced exactly.',
 'all tensors, ranges, random draws','continuum of inputs and random draws', a(ST,'UniformQuantizationEncodingStage'))
p('C54','The fast Walsh-Hadamard transform is its own inverse and the Hadamard stage is lossless',
 'Applying the normalised transform twice is the identity for every power-of-two dimension; the Hadamard stage decodes to its input for every dimension (padding included) whenever the random signs are +-1.',
 'all dimensions and vectors','all power-of-two sizes', a(TU,'fast_walsh_hadamard_transform')+a(ST,'HadamardEncodingStage'))
p('C55','random_signs returns only +1/-1','Every entry of random_signs is +1 or -1 for every value the underlying uniform generator on [0,1) can return.','all uniform draws','the failing draw has probability 2^-23', a(TU,'random_signs'))
p('C56','Kashin encoding without final clipping is lossless',
 'With last_iter_clip=False the Kashin-Hadamard stage decodes to its input exactly for every number of iterations, every eta, delta and clip level.',
 'all vectors, iterations, parameters','unbounded iterations, real parameters', a('internal/tensor_encoding/stages/research/kashin.py','KashinHadamardEncodingStage'))
p('C57','Sparse splitting and integer differencing are exact',
 'SplitBySmallValue decodes to the input with entries of magnitude <= threshold replaced by zero; DifferenceBetweenIntegers decodes to its input.',
 'all vectors and thresholds','all lengths', a('internal/tensor_encoding/stages/research/misc.py'))
p('C58','A tree of lossless stages is lossless','For every encoder tree whose stages satisfy decode(encode(x)) = x, Encoder.decode(Encoder.encode(x)) = x, for any nesting.','all finite trees of stages','unbounded trees', a(CE,'Encoder'))
p('C59','decode_after_sum o decode_before_sum is decode, and sums may be taken in between',
 'For a single summand the two-phase decoding equals decode for every tree; for n summands of a tree, summing the part-decoded structures and decoding after the sum equals the sum of the full decodings, provided stages that declare commutes_with_sum do commute; before/after phases only use the parameters assigned to them by the commuting structure.',
 'all trees, all numbers of summands','unbounded trees and summands', a(CE,'Encoder.decode_before_sum','Encoder.decode_after_sum','split_params_by_commuting_structure'))
p('C60','GatherEncoder.fully_commutes_with_sum is true iff every stage commutes','The property is truthy iff every stage of the encoder tree commutes with sum (agreeing with Encoder.fully_commutes_with_sum).','all trees','needs a mixed tree', a('internal/tensor_encoding/core/gather_encoder.py','GatherEncoder.fully_commutes_with_sum')+a(CE,'Encoder.fully_commutes_with_sum'))
p('C61','Splitting Python and TensorFlow values and merging them back loses nothing','merge_dicts(split_dict_py_tf(d)) has the same value at every path as d, for arbitrarily nested dictionaries; merge_dicts rejects dictionaries of conflicting structure.','all nested dictionaries','unbounded nesting', a('internal/tensor_encoding/utils/py_utils.py','split_dict_py_tf','merge_dicts'))
p('C62','SimpleEncoder/GatherEncoder reassemble every tensor at its own key','Flattening an encoded structure to joined string keys and repacking it (both in sorted key order) puts every tensor back at its own path.','all nested key structures','depends on the collation of separator and key characters', a('internal/tensor_encoding/core/simple_encoder.py','SimpleEncoder')+a('internal/tensor_encoding/utils/py_utils.py','flatten_with_joined_string_paths'))
p('C63','Shared-seed quantization recovers each value to half a step','PRNGUniformQuantization decodes each value to within half a quantization step of the input for every random draw (and may leave the input range only by that much).','all tensors, draws','continuum', a('internal/tensor_encoding/stages/research/quantization.py','PRNGUniformQuantizationEncodingStage'))
# ---------------- compression
OP='common/keras/compression/internal/optimize.py'
p('C64','The compression PolynomialDecay scheduler matches its documented piecewise definition','value = start for step < begin, end for step > begin+decay_steps, and end+(start-end)*(1-t)^exponent in between; continuous at both ends, between start and end, monotone.','all parameters with decay_steps>0, exponent>0','continuum', a('common/keras/compression/schedules.py','PolynomialDecay'))
p('C65','Creating the inference layer carries over every trained weight','create_layer_for_inference sets the compressed weights of each compressible weight and leaves every other trained weight unchanged, for every Dense/Conv2D layer.','all layers (with or without bias) and algorithms','needs layers without bias / bias-compressing algorithms', a(OP,'_map_to_inference_weights','create_layer_for_inference'))
p('C66','compress_model keeps the weights of layers it does not compress','Layers with no compressible weights keep their trained weights in the compressed model.','all models','needs models with other weighted layers', a(OP,'create_layer_for_training'))
p('C67','The periodic SVD rank goes monotonically from the full rank to the target rank','At update steps during warm-up the rank used is between the target (capped) and full rank, non-increasing in the step, starts at full rank and equals the target after warm-up; the training step counter advances by exactly one per call.','all ranks, steps, warm-ups','unbounded steps', a('common/keras/compression/algorithms/periodical_update_and_scheduling.py','SVD.project_training_weights'))
# ---------------- misc
p('C68','Generated object names never collide','unique_object_name returns a name not in avoid_names and never returned before (for the same namespace and no conflicting user names), for any sequence of requests.','all request sequences','unbounded sequences', a('keras/compat.py','unique_object_name'))
p('C69','API usage gauges record exactly one outcome and never swallow errors','A function decorated with MonitorBoolGauge returns the wrapped result and sets the success gauge iff it returned, sets the failure gauge and re-raises iff it raised.','all functions, results, exceptions','all outcomes', a('keras/metrics.py','MonitorBoolGauge'))
p('C70','Pruning schedules survive serialization','For every schedule object a constructor accepts, from_config(get_config(s)) is an equal schedule (same class, same parameters).','all accepted schedules','all parameter combinations, incl. end_step = -1 and fractional powers', a('sparsity/keras/pruning_schedule.py','ConstantSparsity.get_config','PolynomialDecay.get_config','PruningSchedule.from_config'))
p("C71","XNNPack policy accepts only supported models",
  "PruneForLatencyOnXNNPack.ensure_model_supports_pruning returns without error only if every path from the inputs meets a start layer, every path back from the outputs meets an end layer, and every layer between them is supported.",
  "all finite model graphs, all set iteration orders",
  "A test fixes one graph and one set.pop order.",
  a("sparsity/keras/pruning_policy.py","PruneForLatencyOnXNNPack"))

p("C72","Stages that declare they commute with sums do",
  "For every encoding stage whose commutes_with_sum is true, decoding the sum of n encoded tensors with num_summands=n equals the sum of the n separately decoded tensors.",
  "all stages declaring commutes_with_sum, all tensors, all n",
  "unbounded number of summands, continuum of values",
  a("internal/tensor_encoding/stages/stages_impl.py","UniformQuantizationEncodingStage","FlattenEncodingStage","HadamardEncodingStage")+a("internal/tensor_encoding/stages/research/kashin.py","KashinHadamardEncodingStage"))

p("C73","Rotations preserve Euclidean norms",
  "The normalised Walsh-Hadamard transform and the Hadamard stage (signs +-1) preserve the Euclidean norm of every row; a Kashin representation with a clipped last iteration is rescaled to the norm of the input unless it is all zero, and with one iteration it is the rotated vector truncated to the clip level, times a common factor.",
  "all vectors, dimensions, iterations",
  "continuum of vectors, unbounded dimension",
  a("internal/tensor_encoding/utils/tf_utils.py","fast_walsh_hadamard_transform")+a("internal/tensor_encoding/stages/research/kashin.py","KashinHadamardEncodingStage.encode"))

p("C74","Composed encoders are well formed and never fail on structure",
  "After any sequence of EncoderComposer operations (new, add_child, add_parent; failing ones included) make() of any composer object terminates and yields an encoder whose children sit at distinct compressible keys of their parent's stage; initial_state, update_state, get_params and encode of such an encoder never raise a KeyError; add_child/add_parent raise KeyError exactly for non-compressible or already used keys.",
  "all operation sequences on shared composer objects, all encoders so built",
  "unbounded histories of a mutable object graph",
  a("internal/tensor_encoding/core/core_encoder.py","EncoderComposer","Encoder"))

p("C75","Transposed-convolution weights are quantized exactly like plain weights",
  "Quantizing a Conv2DTranspose kernel (swap the last two axes, quantize with one global range, swap back) gives the same stored range and the same value at every position as quantizing the kernel without swapping.",
  "all rank 4 kernels, all stored ranges, both modes",
  "Tests compare shapes of one small kernel; the identity must hold for every kernel.",
  a("quantization/keras/default_8bit/default_8bit_quantizers.py","Default8BitConvTransposeWeightsQuantizer"))

p("C76","Freezing a quantized layer removes its weights from the trainable list",
  "Setting trainable = False on a quantization-aware layer (QuantizeWrapper or QuantizeWrapperV2) makes its trainable_weights empty, as for every Keras layer.",
  "all layers, configs and call histories",
  "Existing tests never freeze a wrapped layer; the list depends on which weights the wrapper re-tracked in build and on earlier calls.",
  a("quantization/keras/quantize_wrapper.py","QuantizeWrapper.trainable_weights","QuantizeWrapperV2.trainable_weights"))

p("C77","Sparsity-preserving per-channel clustering works for every pruned kernel",
  "Initialising the centroids of a Conv2D kernel with preserve_sparsity and cluster_per_channel succeeds for every kernel that has a non-zero weight, whatever the positions of its zeros.",
  "all kernels, initialisers, cluster counts",
  "The failure needs a channel that pruning removed entirely; tests use kernels without one.",
  a("clustering/keras/clustering_centroids.py","AbstractCentroidsInitialisation.get_cluster_centroids","AbstractCentroidsInitialisation._get_centroids"))

p("C78","A Conv2D layer with enough weights per channel is clustered per channel",
  "cluster_weights with cluster_per_channel wraps every Conv2D layer that has more weights per output channel than clusters, with or without a bias, for both data formats.",
  "all Conv2D layers, cluster counts, data formats",
  "The channel count is read from the last weight of the layer, which is the bias only if there is one; tests use layers with a bias.",
  a("clustering/keras/cluster.py","_cluster_weights"))

p("C79","A clustered model can be deserialized inside cluster_scope",
  "Every wrapper class that cluster_weights can put into a model is known inside cluster_scope().",
  "all layer kinds and arguments",
  "needs all wrapper classes that can be created, whatever the layer",
  a("clustering/keras/cluster.py","cluster_scope","_cluster_weights")+a("clustering/keras/cluster_wrapper.py","ClusterWeightsRNN","ClusterWeightsMHA"))

p("C80","strip_clustering of a MultiHeadAttention layer restores trainable kernels",
  "After strip_clustering the projection kernels of a MultiHeadAttention layer are the variables of the layer: later updates of the variables change the values the layer uses.",
  "all clustered values, all later updates",
  "tests compare the outputs right after stripping, never after further training",
  a("clustering/keras/cluster.py","strip_clustering","_strip_clustering_wrapper")+a("clustering/keras/cluster_wrapper.py","ClusterWeightsMHA"))

p("C81","Exactly the kernels of built-in layers are pruned",
  "For every supported built-in layer the pruned weights are kernels or embeddings, never biases or normalisation parameters; every convolution, locally connected and dense layer has its kernel pruned; in a recurrent layer both kernels of every built-in cell are pruned, whatever the number of cells; a recurrent layer is supported iff each of its cells is a built-in cell or a PrunableLayer.",
  "all layers, all numbers of cells",
  "all registry entries and all lists of cells",
  a("sparsity/keras/prune_registry.py","PruneRegistry.make_prunable","PruneRegistry.supports"))

p("C82","The pruning callback reaches every wrapped layer at any nesting depth",
  "The layers on which the callback sets the step and applies masks are exactly the pruning wrappers occurring in the model, in nested models at any depth too; after prune_low_magnitude without a policy every layer of the original model is among them.",
  "all nested models",
  "unbounded nesting",
  a("sparsity/keras/pruning_wrapper.py","collect_prunable_layers")+a("sparsity/keras/pruning_callbacks.py","UpdatePruningStep"))

p('C83','The kernel of every annotated Dense or Conv2D layer is quantized','After quantize_apply every annotated Dense/Conv2D layer without a custom config is wrapped with a config that quantizes its kernel.','all models','needs the interplay of all layout transforms',a('quantization/keras/default_8bit/default_8bit_transforms.py','LayerReLUQuantize','LayerReluActivationQuantize')+a('quantization/keras/quantize.py','quantize_apply'))
p('C84','quantize_apply keeps the order of every layer’s inputs','Each layer of the quantized model reads the same layers in the same order as before.','all models and layer orders','depends on the order of the layers in the model config',a('quantization/keras/graph_transformations/model_transformer.py','ModelTransformer._get_layers','ModelTransformer._match_layer_with_inputs','ModelTransformer._replace_functional'))
p('C85','The default 8-bit layout transform terminates on every model','Applying the default 8-bit transforms ends after finitely many replacements, for every model, metadata and naming.','all models','termination is not testable',a('quantization/keras/default_8bit/default_8bit_quantize_layout_transform.py','Default8BitQuantizeLayoutTransform.apply')+a('quantization/keras/default_8bit/default_8bit_transforms.py','ConcatTransform','Conv2DBatchNormQuantize'))
p('C86','A layer pattern matches exactly the classes it lists','A pattern "A|B|C" matches a layer iff its class is A, B or C.','all class names','unbounded set of class names',a('quantization/keras/graph_transformations/model_transformer.py','ModelTransformer._match_pattern'))
p('C87','Nothing is fake-quantized between Dense/Conv2D, BatchNormalization and ReLU','When the three are annotated in a chain, the batch normalization output is not quantized.','all models with such a chain','depends on the order of the transforms',a('quantization/keras/default_8bit/default_8bit_transforms.py','DenseBatchNormReLUQuantize','DenseBatchNormQuantize')+a('quantization/keras/default_8bit/default_8bit_quantize_layout_transform.py','Default8BitQuantizeLayoutTransform.apply'))

p('C88','The first cluster-preserving training pass leaves the weights as they are',
 'Right after quantize_apply with a cluster-preserving scheme, the first training forward pass does not change the value of any kernel entry.',
 'all kernels, layer classes and both values of preserve_sparsity','ranges over all kernels; depends on how values are distributed over channels', a(CP,'ClusterPreserveDefaultWeightsQuantizer.__call__','get_centroids'))
p('C89','A preserving scheme preserves every annotated trainable Dense and Conv2D layer, and treats all other layers as the default scheme',
 'After quantize_apply with the prune- or cluster-preserving scheme each annotated Dense/Conv2D layer with trainable weights and no custom config has the preserving weight quantizer, no other layer has, and apart from that the model is the one of the default scheme.',
 'all models, annotations and layer orders','interaction of the layout transforms with the registry, for all graphs', a(CP,'ClusterPreserveQuantizeRegistry.get_quantize_config')+a(PP,'PrunePreserveQuantizeRegistry.get_quantize_config')+a('quantization/keras/quantize.py','quantize_apply'))
p('C90','quantize_apply with a preserving scheme works whenever it works with the default scheme',
 'If quantize_apply succeeds with the default 8-bit scheme then it succeeds with the prune- and the cluster-preserving scheme.',
 'all models and annotations','universal over models', a(CP,'ClusterPreserveQuantizeRegistry.supports')+a(PP,'PrunePreserveQuantizeRegistry.supports')+a('quantization/keras/quantize.py','quantize_apply'))
p('C91','A reloaded prune-preserving model keeps the pruned weights at zero',
 'Saving a prune-preserving model, loading it and training on keeps every pruned weight at zero.',
 'all kernels, initial values and later updates','needs the initial values of the rebuilt model', a(PP,'PrunePreserveDefaultWeightsQuantizer._build_sparsity_mask'))

CM='common/keras/compression/'
p('C92','A layer wrapped for compression-aware training starts from the trained weights','Right after optimize_training/create_layer_for_training the forward pass of the wrapped layer uses the trained weights: exactly (SVD with separate inference graph, periodical SVD), up to the rank limit (SVD with one graph; exactly at full rank), the mean of the bias (BiasOnly) or each kernel entry replaced by its nearest centroid (WeightClustering).','all Dense/Conv2D layers with kernel and bias, all trained values, ranks and cluster counts','all weight values and shapes', a(OP,'create_layer_for_training','_map_to_training_weights')+a(CM+'algorithms/weight_clustering.py','WeightClustering.init_training_weights'))
p('C93','A clustering-compressed kernel keeps at most number_of_clusters distinct values throughout training','After any interleaving of forward passes and weight updates the kernel the WeightClustering layer computes with has at most number_of_clusters distinct values.','all training histories','unbounded histories', a(CM+'algorithms/weight_clustering.py','WeightClustering.project_training_weights','WeightClustering.decompress_weights'))
p('C94','The inference layer computes with the compressed form of what was trained','The inference layer built from a training layer decompresses to a kernel of rank at most the target, equal to the trained kernel at full rank, storing rank*(rows+columns) numbers per matrix; when the training variables are already the compressed form, training and inference forward passes agree.','all kernels, ranks, algorithms of that form','all tensors', a(CM+'algorithms/same_training_and_inference.py','SVD')+a(CM+'algorithms/different_training_and_inference.py','SVD')+a(OP,'create_layer_for_inference'))
p('C95','Evaluating a compression-wrapped layer does not change its weights','Calling the wrapped layer leaves every variable of the layer unchanged.','all algorithms, layers and states','all states', a(OP,'_TrainingWrapper.call')+a(CM+'algorithms/periodical_update_and_scheduling.py','SVD.project_training_weights'))
p('C96','The order in which an algorithm lists its compressible weights does not matter','create_layer_for_training gives the same outcome whichever order get_compressible_weights returns the weights in.','all algorithms and orders','all orders', a(OP,'_map_to_training_weights','create_layer_for_training'))

p('C97','prune_for_benchmark prunes every prunable weight to the target sparsity at once','prune_for_benchmark(model, target_sparsity in [0,1], block_size) returns the model with every prunable weight multiplied by a mask that keeps the round(size*(1-target)) largest magnitudes, without any training step.','all models, targets and weight values','all weights and targets', a('sparsity/keras/tools/sparsity_tooling.py','prune_for_benchmark','_apply_pruning','StepIndependentConstantSparsity'))
p('C98','PruningSummaries logs the true sparsity and threshold of every pruned weight','At every epoch the callback logs, for every pruned weight of the model (at any nesting depth), the fraction of zeros in its mask and its threshold under names of their own.','all models and masks','all models, nested models', a('sparsity/keras/pruning_callbacks.py','PruningSummaries.on_epoch_begin'))
p('C99','ClusteringSummaries writes histograms at the requested cadence for every clustered layer','With cluster_update_freq=n a summary of every clustered layer is written exactly after batches n, 2n, 3n, ... counted across epochs and fit calls (once per epoch for "epoch"), whatever the fit settings.','all numbers of epochs, batches, cadences, steps_per_execution','unbounded histories', a('clustering/keras/clustering_callbacks.py','ClusteringSummaries'))
p('C100','The sparsity report states the true sparsity and m-by-n verdict','check_sparsity_m_by_n reports for every non-ignored tensor the fraction of zero entries and whether every group of n has at least m zeros.','all tensors and names','all tensors', a('sparsity/keras/tools/check_sparsity_m_by_n.py','calculate_sparsity','ignore_tensor','run'))

NB='quantization/keras/experimental/default_n_bit/'
p('C101','An n-bit registry quantizes with the bits it was asked for','DefaultNBitQuantizeRegistry(num_bits_weight=b, num_bits_activation=c) returns configs whose weight quantizers have b bits and whose activation and output quantizers have c bits, whatever other registries are made before or after it; so do the configs quantize_apply attaches.','all histories of registry constructions, layer classes and bit widths','unit tests make one registry at a time', a(NB+'default_n_bit_quantize_registry.py','DefaultNBitQuantizeRegistry.__init__','_get_quantize_config'))
p('C102','A QuantizeConfig keeps its quantizers through serialization','A model that is saved and loaded, or cloned, has the same weight, activation and output quantizers on every layer as before, also on layers whose output quantization the layout transforms switched off.','all library config objects, constructed or switched off by a Concatenate transform, in both schemes','all configs and transform histories', a('quantization/keras/quantize_config.py','OutputOnlyConfig','FixedQuantizeConfig')+a(NB+'default_n_bit_transforms.py','ConcatTransform._disable_output_quantize')+a('quantization/keras/default_8bit/default_8bit_transforms.py','ConcatTransform._disable_output_quantize'))
p('C103','The n-bit scheme at 8/8 bits is the 8-bit scheme','Applying DefaultNBitQuantizeScheme with 8-bit weights and activations wraps the same layers with the same quantizers as Default8BitQuantizeScheme.','all layer classes, activation functions and models','all models', a(NB+'default_n_bit_quantize_registry.py','DefaultNBitQuantizeRegistry','DefaultNBitActivationQuantizeConfig')+a(NB+'default_n_bit_quantize_layout_transform.py','DefaultNBitQuantizeLayoutTransform.apply'))
p('C104','A serialized QuantizeConfig can be loaded any number of times','from_config leaves the dict it is given usable: loading the same serialized config again and again gives the same config each time.','all library config objects and any number of loads','all histories of loads', a('quantization/keras/quantize_config.py','FixedQuantizeConfig.from_config','OutputOnlyConfig.from_config'))
p('C105','disable_per_axis switches per-channel weight quantization off everywhere','With a scheme constructed with disable_per_axis=True, quantize_apply attaches no per-channel weight quantizer to any layer.','all models, both schemes','all models and graph shapes', a('quantization/keras/default_8bit/default_8bit_quantize_scheme.py','Default8BitQuantizeScheme')+a('quantization/keras/default_8bit/default_8bit_transforms.py','ConcatTransform.replacement'))

AN='quantization/keras/quantize_annotate.py'; QL='quantization/keras/quantize_layer.py'
p('C106','Wrapping a layer passes its call arguments on','A layer wrapped for pruning, quantization, annotation or clustering is called with exactly the arguments of the call of the wrapper; in particular a layer that accepts training gets the flag of the call (or the learning phase), and one that does not is called without it.','all signatures of the wrapped call method and all calls','all signatures and argument combinations', a('sparsity/keras/pruning_wrapper.py','PruneLowMagnitude.call')+a(QW,'QuantizeWrapper.call')+a(AN,'QuantizeAnnotate.call')+a('clustering/keras/cluster_wrapper.py','ClusterWeights.call'))
p('C107','Annotating a layer changes nothing before quantize_apply','A program that uses a layer (calls it, reads and sets weights and trainable, reads losses and updates, asks for shapes) observes the same when the layer is wrapped by quantize_annotate_layer.','all layers and all programs using them','all programs', a(AN,'QuantizeAnnotate.__init__','QuantizeAnnotate.call','QuantizeAnnotate.trainable','QuantizeAnnotate.set_weights'))
p('C108','A QuantizeLayer is its quantizer','QuantizeLayer(None) returns its input unchanged for ever; QuantizeLayer(q) returns what q returns, updating the range only in training mode (explicit flag, else the learning phase); both survive saving and loading; anything that is not a Quantizer is rejected.','all quantizers and all histories of calls','all call histories', a(QL,'QuantizeLayer.__init__','QuantizeLayer.call','QuantizeLayer.from_config'))
p('C109','Freezing a clustered layer removes its weights from the trainable list','The trainable weights of a clustered layer are the weights of the layer and its centroids, each once; after trainable=False there are none.','all layers and histories of forward passes, updates and (un)freezing','all histories', a('clustering/keras/cluster_wrapper.py','ClusterWeights.build','ClusterWeights.trainable','ClusterWeights.trainable_weights'))
p('C110','get_weights and set_weights of a wrapped layer restore it','Weights read with get_weights from a wrapped layer can be put back with set_weights at any later time, and are then the weights of the layer.','all layers and all histories of training between the two calls','all histories', a('clustering/keras/cluster_wrapper.py','ClusterWeights.get_weights','ClusterWeights.set_weights')+a('sparsity/keras/pruning_wrapper.py','PruneLowMagnitude.get_weights')+a(AN,'QuantizeAnnotate.get_weights'))

CU2='quantization/keras/collab_opts/cluster_preserve/cluster_utils.py'; EU='sparsity/keras/estimator_utils.py'
p('C111','strip_clustering_cqat removes exactly the clustering variables','strip_clustering_cqat returns the model in which every quantized Conv2D and Dense layer has lost the variables cluster-preserving training added (centroids, original weights, indices) and nothing else; the model passed in keeps them.','all models (Sequential, functional, subclassed, nested), layers, variable and layer names','all models and names', a(CU2,'strip_clustering_cqat'))
p('C112','A stripped CQAT layer behaves like a plain quantized layer','After strip_clustering_cqat a layer computes what the quantized layer without clustering computes with the same kernel and ranges, in inference and in further training.','all layers, kernels and histories of training after stripping','all histories', a(CU2,'strip_clustering_cqat')+a('quantization/keras/collab_opts/cluster_preserve/cluster_preserve_quantize_registry.py','ClusterPreserveDefaultWeightsQuantizer.__call__'))
p('C113','PruningEstimatorSpec advances pruning once per training step','Training an Estimator with PruningEstimatorSpec advances the pruning step of every pruned layer by exactly one per training step (or sets it to the given step) and updates the masks for that step, however the runtime schedules the ops; the first step after initialisation succeeds.','all schedules of the ops of every training step, all step values and run lengths','all interleavings', a(EU,'PruningEstimatorSpec')+a('sparsity/keras/pruning_wrapper.py','PruneLowMagnitude.call'))

ENC='internal/tensor_encoding/encoders/common_encoders.py'; RQ='internal/tensor_encoding/stages/research/quantization.py'; RC='internal/tensor_encoding/stages/research/clipping.py'
p('C114','The uniform_quantization encoder round-trips within a step and sends the promised number of bits','uniform_quantization(bits, min_max, stochastic) accepts exactly bits in 1..16 and ranges [a,b] with a < b; whatever non-empty tensor is encoded and decoded keeps its shape, every entry is within one step (half a step without randomness) of the entry clipped into the range and exact at the ends; ceil(bits*n/28) 28-bit integers are sent, plus the two extremes if no range was given.','all arguments, tensors, shapes and random draws','all reals, shapes and draws', a(ENC,'uniform_quantization')+a(ST,'UniformQuantizationEncodingStage','BitpackingEncodingStage','FlattenEncodingStage')+a(CE,'Encoder'))
p('C115','Summing encoded values is summing their decodings','For every encoder tree made of the library stages and any number of clients, part-decoding each encoded value, adding them and decoding the sum equals the sum of the decoded values; with uniform_quantization and a given range the server adds integer codes and the result is within one step per client of the sum of the clipped values.','all encoder trees of library stages, numbers of clients, tensors and draws','all trees and numbers of summands', a(CE,'Encoder.decode_before_sum','Encoder.decode_after_sum')+a(ENC,'uniform_quantization')+a(ST,'HadamardEncodingStage','UniformQuantizationEncodingStage'))
p('C116','The hadamard_quantization encoder has a Euclidean error bound','hadamard_quantization(bits) decodes every non-empty tensor to one of the same shape at Euclidean distance at most 2*sqrt(p)*|x|/(2^bits-1), p the number of elements rounded up to a power of two, whatever the random draws (no sign draw being exactly 1/2).','all tensors, shapes, bit widths and draws','all reals and draws', a(ENC,'hadamard_quantization')+a(ST,'HadamardEncodingStage'))
p('C117','Per-channel quantization errs by at most a step of its own channel','PerChannelUniformQuantization moves every value by less than (max-min)/(2^bits-1) of its own channel (half of it when deterministic, exact at the channel extremes); PerChannelPRNGUniformQuantization by at most half a channel step; codes are integers below 2^bits.','all tensors of rank >= 1, bit widths, draws and seeds','all reals, shapes, draws', a(RQ,'PerChannelUniformQuantizationEncodingStage','PerChannelPRNGUniformQuantizationEncodingStage'))
p('C118','Clipping stages project onto their range or ball','ClipByValue decodes every value to the nearest point of [min, max]; ClipByNorm decodes a tensor to the nearest tensor of norm at most clip_norm (itself when already inside); invalid bounds are rejected.','all tensors and bounds','all reals', a(RC,'ClipByNormEncodingStage','ClipByValueEncodingStage'))

EP='common/keras/compression/algorithms/epr.py'; OPI='common/keras/compression/internal/optimize.py'
p('C119','EPR trains with weights rounded to the learned step','The forward pass of an EPR / FastEPR training layer computes with every dense weight and bias rounded to the nearest multiple of the learned quantization step (within half a step), and with convolution kernels whose Fourier coefficients are so rounded; right after the training model is made, dense weights are within half of exp(-4) of the pretrained ones and convolution kernels within a fixed multiple of sqrt(spatial size)*exp(-4).','all weights, latent weights, steps, shapes of rank 1 to 4, both algorithms','all tensors, shapes and learned steps', a(EP,'_transform_dense_weight','_transform_conv_weight','EPR.project_training_weights','FastEPR.project_training_weights','EPRBase._init_training_weights_reparam'))
p('C120','An EPR-compressed weight decompresses to the weight of the training model','Compressing the training weights of a layer and decompressing them gives exactly the weight the training forward pass used.','all training weights, steps and shapes','exactness over all learned steps; fails only for steps float16 cannot hold and very large dimensions', a(EP,'EPR.compress_training_weights','EPR.decompress_weights','FastEPR.compress_training_weights','FastEPR.decompress_weights'))
p('C121','EPR compresses every layer it lists as compressible','For every model made of Dense, Conv1D and Conv2D layers (with or without bias) and any other layers, a training model and, after any training, an inference model exist, and the inference model computes with the weights of the training forward pass.','all models, layers, weights, and training histories','all models and histories', a(EP,'EPRBase.get_compressible_weights','EPRBase.get_training_model')+a(OPI,'create_layer_for_training','create_layer_for_inference'))
p('C122','EPR replaces exactly the compressed attributes and weighs the penalty per parameter','The training wrapper overwrites exactly those attributes of the layer that hold a compressed weight; the entropy penalty of each weight is multiplied by regularization_weight / number of parameters of the model, for every model.','all attribute lists and models','all layers and attribute orders', a(OPI,'_TrainingWrapper.build')+a(EP,'EPRBase.get_training_model'))

D8T='quantization/keras/default_8bit/default_8bit_transforms.py'
p('C123','Breaking up separable convolutions for quantization keeps the function, weights and settings','The layers quantize_apply puts in place of a SeparableConv2D (DepthwiseConv2D then 1x1 Conv2D) and of a SeparableConv1D (expand dims, SeparableConv2D, squeeze) compute, with the weights of the original layer, exactly the documented separable convolution: for every kernel size, stride, dilation, depth multiplier, padding, data format, bias and activation. Initializers, regularizers, constraints, trainability and dtype go to the layer that receives the weight; causal padding is rejected.','all configurations, weights and inputs','an equality of two convolution formulas over all shapes, strides, dilations and weights', a(D8T,'SeparableConv1DQuantize.replacement','SeparableConvQuantize.replacement'))

GE='internal/tensor_encoding/core/gather_encoder.py'; SE='internal/tensor_encoding/core/simple_encoder.py'; PYU='internal/tensor_encoding/utils/py_utils.py'
p('C124','GatherEncoder computes what its Encoder computes','A GatherEncoder hides the nested dictionaries of the Encoder behind flat tuples and slash-keyed dictionaries of tensors, with the Python values kept inside. Created for any Encoder whose dictionaries keep a fixed structure (same keys, Python values, shapes and dtypes for every state, random draw and input of the tensorspec), it is created without error, and for every state reached, every input and every order of the keys of the encoded dictionary, get_params, encode, decode_before_sum, decode_after_sum and update_state return exactly the tensors the Encoder produces on the corresponding nested dictionaries, in the order of their paths or under their slash-joined paths. An encoder whose encoded shapes depend on the data is created but, executing eagerly, rejects its own encoded values.','every Encoder with structure-preserving methods, every nesting, state, random draw, input, number of summands and key order','tests use a few encoders with one or two stages; the correspondence of flat positions with nested paths must hold for every tree and every key naming',a(GE,'GatherEncoder.from_encoder','GatherEncoder.get_params','GatherEncoder.encode','GatherEncoder.decode_before_sum','GatherEncoder.decode_after_sum','GatherEncoder.update_state')+a(PYU,'split_dict_py_tf','merge_dicts','flatten_with_joined_string_paths','assert_compatible'))
p('C125','Each state-update tensor is aggregated by its own mode','The i-th entry of state_update_aggregation_modes of a GatherEncoder is the mode declared for the i-th state-update tensor returned by encode: the two flat tuples have the same length and equal positions come from the same path of the encoder tree.','every Encoder tree, every input and state','the two tuples are flattened separately; a test with one update tensor cannot show that they line up in every tree',a(GE,'GatherEncoder.from_encoder','GatherEncoder.state_update_aggregation_modes')+a(CE,'Encoder.state_update_aggregation_modes'))
p('C126','SimpleEncoder round trips are the Encoder round trips','SimpleEncoder.decode of what SimpleEncoder.encode returned (its keys in any order) is Encoder.decode of the encoded tensors, decode parameters and input shapes the Encoder produced for that input and state, and the returned state is the state of the Encoder after update_state with the update tensors of that call.','every Encoder of fixed structure, every input, state and random draw, every key order','the flat dictionary, the recorded Python values and the recorded structure come from different calls; that they fit together for every later call cannot be tested case by case',a(SE,'SimpleEncoder.__init__','SimpleEncoder.encode','SimpleEncoder.decode')+a(PYU,'flatten_with_joined_string_paths'))

p('C127','GatherEncoder rejects values that do not fit','Whatever flat values are passed to get_params, encode, decode_before_sum, decode_after_sum and update_state of a GatherEncoder, either they are exactly the flat view of dictionaries with the structure, shapes and dtypes fixed at construction (and then the call does what the Encoder does), or the call raises ValueError: missing, extra or renamed keys, wrong counts, shapes or dtypes never get through. Update tensors are only counted.','every tuple and dictionary of tensors passed to every method of every GatherEncoder','the documentation promises ValueError for everything that does not fit; tests try a handful of misfits',a(GE,'GatherEncoder.get_params','GatherEncoder.encode','GatherEncoder.decode_before_sum','GatherEncoder.decode_after_sum','GatherEncoder.update_state')+a(PYU,'assert_compatible'))

CR='clustering/keras/clustering_registry.py'; CWR='clustering/keras/cluster_wrapper.py'; CKC='clustering/keras/cluster.py'
p('C128','Every registered RNN weight name means the weight it was registered with','make_clusterable gives the weights of an RNN (single cell or StackedRNNCells) or Bidirectional layer names such as kernel/1. For every such layer the wrapper resolves each registered name to exactly the weight it was registered with; the registered weights are exactly the kernel and recurrent kernel of every cell the layer runs, each under the position of the cell; and the names are distinct whenever no cell object occurs twice (a stack that contains the same cell object twice registers one name twice).','every RNN/Bidirectional layer, every number of cells, every sharing of cell objects','the index is recomputed with list.index, printed in decimal and parsed again; tests use two cells',a(CR,'ClusteringRegistry.make_clusterable','ClusteringRegistry._get_rnn_cells')+a(CWR,'ClusterWeightsRNN.get_weight_from_layer','ClusterWeightsRNN.get_weight_name_without_index'))
p('C129','A clustered RNN cell computes with the clustering of its own weights','For every built Keras RNN or Bidirectional layer (cells LSTM, GRU or SimpleRNN, with or without bias) wrapped by cluster_weights, after any history of training steps and forward passes a forward pass makes every cell use, as kernel and as recurrent kernel, the clustering of the current value of its own kernel and recurrent kernel variable (each entry the nearest of at most number_of_clusters centroids); the bias stays the cell own variable and cells outside the layer are untouched.','all layers with any number of cells, all weight values, all histories','a swapped index between forward and backward or between stacked cells only shows for particular cells and values',a(CWR,'ClusterWeightsRNN.set_weight_to_layer','ClusterWeightsRNN.get_return_layer_cell','ClusterWeights.build','ClusterWeights.update_clustered_weights_associations'))
p('C130','strip_clustering of an RNN layer keeps the weights the cells used','strip_clustering turns a wrapped RNN or Bidirectional layer into a clean layer with one cell per cell, the same weight names, and in each of them exactly the tensor that the wrapped cell computes with after its last forward pass.','all layers with any number of cells, all histories','weights are removed from and re-inserted into a flat list by position; the positions depend on the number of cells and their biases',a(CKC,'strip_clustering')+a(CWR,'ClusterWeightsRNN.get_weight_from_layer'))
p('C131','A recurrent layer that cluster_weights accepts can be built','Whenever cluster_weights accepts an RNN-like layer, building the wrapped layer succeeds; a layer it cannot cluster is rejected at once with ValueError.','all RNN-like layers and cells','acceptance and building look at different parts of the layer; tests build only plain layers',a(CR,'ClusteringRegistry.supports','ClusteringRegistry.make_clusterable')+a(CWR,'ClusterWeights.__init__','ClusterWeightsRNN.get_weight_name_without_index'))

D8R='quantization/keras/default_8bit/default_8bit_quantize_registry.py'
p('C132','A quantized RNN layer quantizes exactly the declared weights and activations of each of its cells','The RNN quantize configs (8-bit and n-bit) carry one list of weight attributes and one list of activation attributes per cell. For every layer with one such list per cell, building the quantize wrapper and every forward pass succeed, in training and in inference and after any history of updates; then every declared weight attribute of every cell holds the quantized current value of the variable it held originally, every declared activation attribute a quantize-aware version of the original activation, and no other attribute of any cell changes. A config that does not fit the layer is rejected, and a failing set leaves the layer as it was.','every number of cells (shared or not), every attribute lists, weights and histories of forward passes and updates','the loops zip two lists and count an index through nested lists; tests use two cells and two attributes each',a(D8R,'Default8BitQuantizeConfigRNN.get_weights_and_quantizers','Default8BitQuantizeConfigRNN.set_quantize_weights','Default8BitQuantizeConfigRNN.set_quantize_activations','_RNNHelper._get_rnn_cells')+a(NB+'default_n_bit_quantize_registry.py','DefaultNBitQuantizeConfigRNN')+a(QW,'QuantizeWrapper.call'))

p('C133','The deterministic random generator returns the requested number of values in [0,1), and signs of +1/-1','random_floats_cmwc and random_signs_cmwc terminate for every int64 seed and every positive count, return exactly that many values, depend on nothing but the seed and the count, and give values in [0, 1) (respectively +1 or -1); a shorter request with the same seed gives a prefix of a longer one; different seeds give different sequences, and the values of one sequence do not repeat bits of each other. Non-positive counts are a ValueError and other dtypes a TypeError.','every int64 seed, every count, float32 and float64','the loop has data-dependent exits and wrapping 64-bit arithmetic; the failing seeds have density 2^-25 and less, so sampling does not meet them',a(TU,'_cmwc_random_sequence','random_signs_cmwc','random_floats_cmwc'))

p('C134','set_quantize_weights accepts exactly the tensors that fit the declared weight attributes','Calling set_quantize_weights of the default 8-bit config on any layer: when there is one tensor per declared weight attribute and each has the shape of the value currently held, every attribute then holds its own tensor and nothing else of the layer changes; a wrong number of tensors or a tensor of another shape is a ValueError, a missing attribute an AttributeError.','every layer, every list of distinct weight attributes, every list of tensors','the attributes and tensors are matched by position with zip, over all list lengths and shapes',a(D8R,'Default8BitQuantizeConfig.set_quantize_weights'))

p('C135','A replacement proposed by a transform takes effect unless it equals the layers it replaces','When a transform matches part of a model, its replacement is carried out whenever it differs from the match in any layer, connection, weight or metadata; if it does not, the model is left as it is and the run is not prolonged. A set of transforms that never changes anything returns the model it was given.','every model, every list of transforms (arbitrary replacement functions), every point of the run','equality is a hand-written recursive comparison over arbitrary trees of layers, and the loop depends on it',a(MT,'ModelTransformer.transform')+a('quantization/keras/graph_transformations/transforms.py','LayerNode.__eq__'))

p('C136','The layers of a match are connected in the model as the pattern says','When a transform finds its pattern, the matched input layers of each matched layer are exactly the layers that feed it: the layers its call takes inputs from in a functional model, the layer just before it in a Sequential one; and a replacement that keeps those layers keeps their roles as operands.','every model, every pattern of any depth, every matched layer','the match is a recursive search over arbitrary graphs; tests use a few small models',a(MT,'ModelTransformer._match_layer_with_inputs','ModelTransformer._get_input_layer_names','ModelTransformer._get_layers','ModelTransformer._replace_functional'))

p('C137','Each default layout transform changes only the quantization it is meant to change','For every match: Conv2D/Dense + BatchNormalization (+ ReLU) loses the inner quantization and keeps all layers, weights and other settings, unless one of them has a config; a Concatenate layer takes over the output quantization of its inputs; a layer in front of a ReLU is not quantized; an input gets a QuantizeLayer; a separable convolution is broken up with its settings and weights; causal padding is refused.','every transform of both default lists (8-bit, n-bit), every matched tree of layers with any configuration, weights and metadata','the transforms act on arbitrary trees; tests compare a handful of literal models',a(D8T,'Conv2DBatchNormQuantize','Conv2DBatchNormReLUQuantize','LayerReLUQuantize','ConcatTransform','SeparableConvQuantize','SeparableConv1DQuantize','InputLayerQuantize'))

p('C138','Supported layers get exactly the documented quantizers','The config the registry returns for a supported layer class quantizes the kernels of Dense and convolution layers with the requested bits, symmetrically and in narrow range, per channel only for Conv2D and DepthwiseConv2D; it quantizes their activation attribute, and the outputs of the listed classes, with asymmetric moving-average ranges; nothing else is quantized. After quantize_apply each wrapper uses those quantizers.','both schemes, every class, every bit width, per-axis on or off, every annotated model','the statement is about every layer of every model; tests look at one class at a time',a(D8R,'Default8BitQuantizeRegistry','Default8BitQuantizeConfig','Default8BitActivationQuantizeConfig')+a(Q,'quantize_apply'))

p('C139','The flat encoders work around every well-behaved encoder tree','For every tree of encoding stages that read their dictionaries by key and whose outputs have a structure independent of data, state and random draws, GatherEncoder and SimpleEncoder can be created, and afterwards no call fails: in every state reachable by update_state, get_params, encode, decode_before_sum, decode_after_sum and update_state succeed on every input of the declared shape and dtype, the decoded value has that shape and dtype, and the i-th aggregation mode belongs to the i-th state-update tensor.','every tree (any depth and branching), every stage satisfying the stage contract, every history of state updates, every input and random draw','trees, states and dictionaries are unbounded; tests run a few fixed trees',a(GE,'GatherEncoder.from_encoder')+a(SE,'SimpleEncoder.__init__')+a(CE,'Encoder.encode','Encoder.decode_before_sum','Encoder.decode_after_sum'))
p('C140','Summing clients commutes with decoding, through the flat interface','With GatherEncoder around a tree whose stages commute with sums where they declare it, adding up the part-decoded values of any number of clients key by key and calling decode_after_sum with their number gives the sum of the values that decoding each client alone gives; for one client this is exactly what a SimpleEncoder around the same tree decodes from the same random draws, and the updated states agree.','every tree, every number of clients, every input, state and draw','relates runs of two different public classes over unbounded trees and client counts',a(GE,'GatherEncoder.decode_before_sum','GatherEncoder.decode_after_sum')+a(SE,'SimpleEncoder.decode')+a(CE,'split_params_by_commuting_structure','Encoder._decode_after_sum_impl'))

p('C141','The library encoders behind GatherEncoder and SimpleEncoder','Every encoder composed of the library stages (identity, flatten, Hadamard rotation, uniform quantization, bit packing) at the keys the composer allows can be given to GatherEncoder and SimpleEncoder for float tensors of any shape its stages accept; no later call fails, and decoding a sum of part-decoded values gives the sum of the decoded values. With common_encoders.uniform_quantization every entry of the decoded sum of n clients is within n quantization steps (n half steps without randomness) of the sum of the entries clipped to the range; with hadamard_quantization every client contributes its value up to a Euclidean error of 2*sqrt(p)*norm/(2^bits-1), p the padded size; the same holds for SimpleEncoder round trips. Hadamard quantization of an empty tensor cannot be set up.','every tree of library stages, every shape, bit width, range, number of clients, client value, reachable state and random draw','end-to-end statement over unbounded shapes, client counts and all draws; it joins the numeric stages, the composer, the core encoder and both flat interfaces',a(ENC,'identity','uniform_quantization','hadamard_quantization')+a(ST,'UniformQuantizationEncodingStage','BitpackingEncodingStage','HadamardEncodingStage','FlattenEncodingStage')+a(GE,'GatherEncoder.from_encoder')+a(SE,'SimpleEncoder.encode'))

p('C142','The pruning benchmark tool: flags, file names, files left on disk','The block_size flag is accepted exactly if it is two comma-separated Python integers, and these are the sizes used; refused flags leave everything untouched. A run changes at most two paths, unpruned_model.tflite and the pruned model\'s file in output_dir; the latter only once the former holds the converted input model. A successful element-wise run leaves the converted model and the converted one-shot pruned model (exact mask of C97) and prints the true archive sizes and the truncated percentage. The pruned file name tells apart all block sizes and all sparsities that differ in hundredths, and never equals the unpruned name. Not guaranteed (proved): positive block sizes are not checked (the run dies after writing the first file), sparsities equal to two decimals overwrite each other, a failing conversion empties the file that was there, and the printed percentage counts the archive\'s copies of the file name.','every flag text, sparsity, block size, output directory, model, file system and point of failure','quantifies over all strings, all file systems and every crash point',a('tensorflow_model_optimization/python/core/sparsity/keras/tools/evaluate_pruning.py','_parse_block_size_flag','_check_block_size','convert_to_tflite','get_gzipped_size','pruned_model_filename','run','main'))

p('C143','What each stage of an encoder tree receives and where its results go','In every call of a core Encoder, each stage of the tree is called on exactly its own data: update_state on its own state and update tensors (the result being its next state), get_params on its own state, encode on the value its parent wrote under its key with its own parameters (the update tensors and, if asked for, the input shape being kept for it), decode on its own parameters and shape with the children\'s decoded values in place of theirs. decode_before_sum leaves untouched what commuting stages encoded and decodes every first non-commuting stage to a single tensor; decode_after_sum decodes the rest with the number of summands.','every encoder tree, state, value, random draw and nested dictionary','ranges over trees of any depth and all dictionary contents',a(CE,'Encoder.update_state','Encoder.get_params','Encoder.encode','Encoder.decode','Encoder.decode_before_sum','Encoder.decode_after_sum'))

p('C144','The pruning mask update in float32 keeps the documented number of weights','With the arithmetic the code really uses (IEEE binary32, rounding to nearest), a magnitude-pruning mask update of any tensor keeps at least one weight and at most all of them, the number kept is size*(1-sparsity) rounded up to float32 rounding errors - exactly the documented count unless that product is next to a half-integer -, it never rises when the sparsity rises, everything is kept at sparsity zero, and the mask keeps exactly the weights at least as large as the k-th largest magnitude. The range claims hold up to 2^24 weights, or from sparsity 2^-22 on.','every tensor of at most 2^31 entries and every float32 sparsity in [0,1)','ranges over all sizes and all float32 sparsities; rounding goes wrong only at sizes no test uses',a('tensorflow_model_optimization/python/core/sparsity/keras/pruning_impl.py','Pruning._update_mask'))

p('C145','The target sparsity in float32 follows the documented schedule','With the arithmetic the code really uses (Python floats for the arguments, float32 for the schedule), the constructors accept exactly the floats in [0,1); the target of PolynomialDecay is exactly that of ConstantSparsity(final) from the end step on, the initial sparsity up to rounding (exactly when it is 0) up to the begin step, never turns back in between, is always a number in [0,1] and within (n+2)*2^-22 of the documented formula for an integral power n; it is below 1 if the arguments are at most 1-2^-22, and then, with rising sparsity, no tensor ever keeps more weights at a later step.','every accepted pair of sparsities, begin and end step less than 2^63 apart, step, and every monotone float32 power function','ranges over all float pairs, steps and horizons; rounding effects appear only at extreme arguments',a('tensorflow_model_optimization/python/core/sparsity/keras/pruning_schedule.py','PolynomialDecay.__call__','ConstantSparsity.__call__','PruningSchedule._validate_sparsity')+a('tensorflow_model_optimization/python/core/sparsity/keras/pruning_impl.py','Pruning._update_mask'))

p('C146','Uniform quantization in float32 stays within its bits and its error bound','With the arithmetic the code really uses (float32), UniformQuantizationEncodingStage encodes every tensor of numbers of at most 2^126 as integers in [0,2^bits-1], stochastic or not, whatever the random draws; the least value (or the lower limit) gets code 0 and the greatest the greatest code; deterministic codes respect the order of the values; and decoding returns numbers within one step (half a step if deterministic) plus 3*2^-22 of the range limits\' magnitude of the (clipped) values, the least value and constant tensors exactly. Greater numbers overflow, and the greatest value need not come back exactly.','all tensors, given or found ranges, bits 1-16, both modes and all random draws','continuum of inputs and draws; rounding effects need specific values',a(ST,'UniformQuantizationEncodingStage.encode','UniformQuantizationEncodingStage.decode'))

p('C147','Clustering in float32 uses the nearest centroid, up to rounding','With the arithmetic the code really uses (float32), for every non-empty list of centroids and every tensor of weights of at most 2^126 above -1000000, the clustered weight has the value of one of the centroids, and no other centroid is nearer by more than 2^-22 of the distance (so it is the nearest whenever the competition is not that close); a weight equal to a centroid (zero, say) keeps its value, there are at most as many different values as centroids, and clustering a second time changes nothing. It need not be the nearest: 1 is put on -16777216 rather than -16777215; and greater distances overflow.','all lists of centroids and all weight tensors','continuum of inputs; rounding effects need specific values',a(CA,'ClusteringAlgorithm.get_pulling_indices','ClusteringAlgorithm.get_clustered_weight','ClusteringAlgorithm.add_gradient_to_original_weight'))

p('C148','Quantization ranges are sound in float32 too','With the arithmetic the code really uses (float32), for quantizers of 2 to 16 bits and any history of calls with tensors of numbers of at most 2^126: the stored range consists of numbers and contains 0; AllValues\' range contains everything seen and, unless symmetric, its limits are exactly 0 or values seen; LastValue\'s does so for the last batch, and a symmetric one has the documented ratio of limits up to rounding; each MovingAverage limit moves to a value between its old one and that of the batch, exactly, so it never leaves the hull of (-6, 6) and the values seen, and symmetric narrow ranges stay exactly symmetric; inference changes nothing. Near the greatest float32 a symmetric limit is infinite, and the moving average stops short of a batch range that repeats forever.','all histories of batches of any size, all three range quantizers, symmetric or not, narrow or not','unbounded histories; rounding effects need specific values',a(QO,'LastValueQuantize','MovingAvgQuantize','AllValuesQuantize'))

p('C149','Adding up quantized tensors works in float32','With the arithmetic the code really uses (float32), for clients that quantize vectors uniformly in the same given range to 1 to 16 bits: as long as (number of clients) * (2^bits - 1) is at most 2^24, adding up the codes of a coordinate is exact in whatever order and bracketing the additions happen, and decoding the sum with that number of summands returns, for each coordinate, the sum of the (clipped) values of the clients up to one quantization step per client (half a step if deterministic) plus a relative 3/4194304 of the range per client. A single tensor is decoded as without summands. Beyond 2^24 the sum depends on the order of the additions.','any number of clients, any vectors, ranges, draws, orders of additions','all orders of additions and numbers of clients; rounding effects need specific values',a(ST,'UniformQuantizationEncodingStage'))

p('C150','The Hadamard rotation works in float32','With the arithmetic the code really uses (float32): for a vector of at most 2^24 finite values of magnitude at most 2^60, the fast Walsh-Hadamard transform returns the exact transform up to a relative error of (k+3)/2^23 in the Euclidean norm (plus 2^k/2^150 for underflow), where 2^k is the padded length; encoding changes the norm of the vector by at most that; decoding returns the vector up to a relative (k+3)/2^22 of its norm (plus 2^k/2^148). Decoding is not exact: a component that is tiny compared with another can be lost.','every vector, every draw of the signs (other than exactly 1/2), every length','rounding errors of log2(n) stages for all vectors and lengths; lost components need specific values',a(ST,'HadamardEncodingStage')+a(TU,'fast_walsh_hadamard_transform'))

if __name__=='__main__':
    with open('/verif/properties.jsonl','w') as f:
        for q in P: f.write(json.dumps(q,ensure_ascii=False)+'\n')
    print(len(P))
