{
 "C03": "Exact real arithmetic (Rpower), power > 0; float rounding not modelled.",
 "C04": "REFUTED as stated: begin_step = end_step is accepted and yields NaN (0/0) on the only pruning step (C04_refuted), a negative power is accepted and has no finite value from end_step on. Exact boundary proved: for power > 0 a non-number occurs on a pruning step iff begin_step = end_step; complete values proved for the empty interval, power 0 and negative powers.",
 "C07": "REFUTED: ties at the threshold keep more weights (C07_refuted). The exact count for distinct magnitudes and the lower bound are C06.",
 "C08": "Proved when both weight sides are multiples of the block sides; constancy on blocks and the rejection condition proved for all shapes. REFUTED otherwise: SAME pooling centres the padding while the mask is expanded from 0, so blocks are judged by shifted windows (C08_refuted).",
 "C13": "For models whose layers share one step (all freshly wrapped, or all saved at the same step), one replica.",
 "C14": "REFUTED as stated: the assertion runs after the step was incremented, so a second training batch without the callback passes (C14_refuted_second_batch_passes), and after a failed batch on a 2-layer model the error is raised even though fit began with the callback (C14_refuted_raised_after_begin). Proved: the first such batch always raises; from a state with uniform steps the error never occurs after on_train_begin.",
 "C17": "REFUTED for mixed models: on_train_begin only consults the first layer (C17_refuted_step_lost, C17_refuted_step_missing). Proved for models with uniform steps.",
 "C18": "clone_model of keras is modelled as a map over layers keeping the graph; object identity as record equality.",
 "C19": "Proved for models and lists. REFUTED in two corners: a single already-wrapped layer is rejected (C19_refuted_single_wrapped_layer); a policy is silently ignored for lists/single layers (C19_refuted_policy_ignored_on_lists).",
 "C20": "REFUTED: sparsity_m_by_n is not serialized (C20_refuted). Exact boundary proved: round trip is faithful iff it is None.",
 "C71": "REFUTED: an early return on a consumer-less layer skips the remaining checks, depending on set.pop order (C71_refuted). Proved: acceptance implies all the claimed facts or the existence of such a dead end.",
 "C55": "Refuted: a uniform draw of exactly 0.5 gives the sign 0 (C55_zero_sign_refuted), which loses the coordinate in the Hadamard stage; C55_signs_partial characterises all draws.",
 "C60": "REFUTED (C60_gather_flag_refuted): GatherEncoder.fully_commutes_with_sum sums the flags and is truthy as soon as the root commutes. C60_flags_partial gives the exact meaning and proves Encoder.fully_commutes_with_sum right.",
 "C62": "REFUTED for keys with characters below '/' (C62_..._refuted: 'a' and 'a-b' swap tensors); C62_..._partial proves it for all structures whose key characters collate above '/'.",
 "C38": "REFUTED for FixedQuantizer, which never passes num_bits to the op (17 values from a 4-bit quantizer); proved for every other class after any history.",
 "C39": "REFUTED: MovingAverageQuantizer(per_axis=True) builds scalar variables and fails on every call; proved for all other documented uses, for call histories of any length.",
 "C40": "REFUTED: (1) Default8BitConv*WeightsQuantizer.from_config(get_config()) raises TypeError, (2) Default8BitQuantizeConfig.__eq__ ignores activation_attrs and (3) equates ConvTranspose configs with plain ones. Proved for the base classes, plus an exact characterisation of the config equality.",
 "C41": "Proved for all histories (weights, effective weights, no exceptions, V2 trainable list). REFUTED only for the legacy QuantizeWrapper between build and the first call, where quantized weights are listed twice.",
 "C76": "REFUTED (C76_freezing_refuted gives the exact list): quantized weights (V1) or all weights (V2) stay in trainable_weights after trainable=False.",
 "C22": "Exact rational arithmetic. Stated for weights > -1e6; at or below that the straight-through factor sign(w+1e6) is 0 or -1 (C26_forward_refuted).",
 "C23": "REFUTED for data_format channels_first: Keras kernels are (h,w,in,out) for both formats, so axis 1 of the kernel is its width and not the output channel (C23_channels_first_refuted). Proved for channels_last; the per-slice claim is proved for both.",
 "C24": "Arbitrary values after each training step for centroids, original weights and the other weights.",
 "C25": "tape.gradient of the custom-gradient functions is the documented chain rule; the unsorted segment sum is modelled.",
 "C26": "REFUTED for weights <= -1e6: the forward value is 0 or the negated centroid. Proved above -1e6.",
 "C27": "kmeans++ op and the random generator are parameters constrained by sound_initialiser.",
 "C29": "REFUTED: solve_for_x is applied to y1 of the line, so every centroid but the last one is a grid point (C29_interpolation_refuted). The value and ordering are proved.",
 "C30": "REFUTED when the layer registers weights in another order than its weight list (C30_order_refuted). Proved when registered in order.",
 "C77": "REFUTED: an all-zero channel gets one centroid, the others number_of_clusters, and the ragged list cannot be converted to a tensor.",
 "C78": "REFUTED for use_bias=False: the last trainable weight is the kernel, so channels_last layers are silently never clustered and channels_first raises IndexError. Proved with bias.",
 "C79": "REFUTED for RNN and MultiHeadAttention wrappers: cluster_scope registers ClusterWeights only.",
 "C80": "REFUTED: strip puts the clustered tensors into the sub-layers and never the variables back.",
 "C43": "SeparableConv etc. are ordinary layers here; Keras clone_model is modelled as a map over the non-input layers.",
 "C44": "Hypotheses: distinct layer names / well-formed graph (model_ok) and fresh generated names; both shown to hold of a literal model. SeparableConv layers, InputLayers and QuantizeLayers are excluded from the per-layer statements.",
 "C45": "REFUTED: LayerReLUQuantize replaces any config by NoOpQuantizeConfig; ConcatTransform switches the output quantizers off. Proved when no ReLU/Activation (resp. Concatenate) is annotated or the class is not a ReLU feeder.",
 "C48": "REFUTED: one-layer Sequential raises IndexError (the check reads layers[1] when len >= 1); a functional model whose input feeds an un-annotated layer raises TypeError. Exact effect proved otherwise.",
 "C83": "REFUTED: Dense/Conv2D followed by an annotated ReLU gets NoOpQuantizeConfig, so its kernel is not quantized. Proved when no ReLU/Activation is annotated.",
 "C84": "REFUTED: inputs are looked up in config order, so Concatenate([b, a]) becomes Concatenate([a, b]). Proved for un-annotated layers.",
 "C86": "REFUTED: '^A|B$' anchors only the first and the last alternative. Exact characterization proved.",
 "C87": "REFUTED for Dense: DenseBatchNormQuantize is listed before the variants with ReLU, so the BN output is fake-quantized. Proved for Conv2D / DepthwiseConv2D / Conv2DTranspose (C87_conv_partial): in every functional model with such a chain, under either scheme, the BN ends with the config that quantizes nothing and the convolution ends with its activation quantization suppressed.",
 "C50": "Dense and channels_last Conv2D proved, for every history; refuted: a Conv2D whose channels have equally many values may get more values in the whole kernel (per-channel centroids); channels_first kernels cannot be built.",
 "C51": "Refuted: the quantizer object is shared by all layers of a class, one layer without zeros switches the flag off for all. Exact condition proved.",
 "C88": "Refuted for Conv2D with preserve_sparsity and a channel without zeros (its smallest value is zeroed); proved in all other cases.",
 "C89": "Refuted for layers feeding an annotated ReLU (NoOp config) or Concatenate (explicit default config); proved without these; uniqueness and agreement with the default scheme proved for all models.",
 "C90": "Refuted: annotated trainable layers of other classes (RuntimeError), unsupported weightless producers (ValueError). These are the only causes (C90_exactly).",
 "C91": "Refuted: the mask is not a variable and is rebuilt from freshly initialised weights.",
 "C64": "Exact real arithmetic (Rpower) for float exponents and exact powers for integer exponents.",
 "C65": "REFUTED: _map_to_inference_weights indexes with an exhausted position, so a layer without bias raises IndexError, BiasOnly always raises ValueError and any other layer is accepted only with 0 or 2 weights. Proved for kernel+bias layers with kernel-compressing algorithms, after any training, and for whole SVD models.",
 "C66": "REFUTED: layers without compressible weights are rebuilt from their config and lose their trained weights. Proved: the other weights of compressed layers are kept.",
 "C67": "svd is a parameter constrained by its documented shapes.",
 "C92": "svd constrained by svd_shapes/svd_exact, for which an instance is given.",
 "C93": "kmeans++/random initialisers are constrained by sound_initialiser.",
 "C95": "REFUTED for the periodical SVD, whose project step assigns the kernel and the counter also in evaluation. Proved for the other algorithms.",
 "C96": "REFUTED (bias listed before kernel raises ValueError). Proved for the order of the layer's weights.",
 "C68": "REFUTED in two corners: avoid_observed_names=True always raises NameError (OBSERVED_NAMES is not defined), and zero-based requests can repeat a name ('dense' twice then 'dense_1', or a one-based before a zero-based request). Proved: one-based names never repeat within (map, namespace) for any program; zero-based collisions need one requested name to be another plus _N; avoid_names always respected; the loop terminates.",
 "C69": "REFUTED only for non-Exception BaseExceptions (KeyboardInterrupt), which record nothing. Setting a gauge cell is assumed not to raise.",
 "C97": "Proved for every target >= 0. REFUTED on the documented interval's end and outside: target 1.0 leaves one weight, 1.5 is accepted, negative values fail inside TensorFlow (no validation).",
 "C98": "REFUTED when two masks have the same variable name (equal layer names in nested models): only the last is logged. Proved for distinct names.",
 "C99": "REFUTED with steps_per_execution >= 2 (AssertionError in the first epoch: the callback counts executions) and for clustered layers inside nested models. Proved for steps_per_execution=1, top-level layers. Keras' fit loop is modelled from its documented behaviour.",
 "C100": "casefold modelled for ASCII names; the m-by-n verdict itself is C11.",
 "C101": "Refuted in general: __init__ writes the bit widths into the class-level _QuantizeInfo objects shared by all registries, so a registry made later changes earlier ones (C101_bits_refuted; exactly when for Dense: C101_dense_partial). Holds for the dedicated classes, when later registries ask for the same bits, and for everything quantize_apply attaches (C101_apply).",
 "C102": "Refuted: the n-bit ConcatTransform only replaces get_output_quantizers on the instance, which serialization drops; the 8-bit one also sets quantize_output. Exact characterisation in C102_switched_partial; constructed objects round-trip exactly.",
 "C103": "Registry level proved (all classes, all activations except gelu, which only the 8-bit scheme accepts); layout level refuted: a Concatenate fed by a model input.",
 "C104": "Refuted for FixedQuantizeConfig: from_config replaces config['config'] in its argument, the second load raises ValueError (C104_fixed_partial: exactly the first succeeds); all other configs load any number of times.",
 "C105": "Refuted: ConcatTransform builds its own registry without disable_per_axis, so Conv2D feeding a Concatenate stays per-channel. Proved for every annotated layer if no Concatenate is annotated.",
 "C106": "REFUTED: ClusterWeights.call takes training and never passes it on; the other wrappers look only at getfullargspec(...).args and drop the flag for layers that take it keyword-only or in **kwargs. Proved for ordinary parameters, with all other arguments, and that the flag never makes a call fail. The Keras __call__ machinery around call is not modelled.",
 "C107": "Proved as a bisimulation for programs whose calls pass training only to layers declaring it as a parameter; REFUTED for keyword-only training.",
 "C108": "Exact arithmetic; the configuration claim uses C40 (base classes).",
 "C109": "REFUTED: the wrapper's own list (original weights and centroids) ignores the flag; before the first forward pass the clustered weights are listed twice. Exact lists proved for every history.",
 "C110": "Proved when the wrapped layer keeps tracking the same variables (pruning, annotation). REFUTED for clustering: the first forward pass replaces the kernel attribute by a tensor, so get_weights no longer contains it.",
 "C111": "Proved exactly for models with the usual names. REFUTED: the argument is stripped too (its layers are mutated); layers whose name contains 'depthwise' are skipped, variables are matched by substring; nested subclassed models raise ValueError, subclassed models without an attribute model AttributeError.",
 "C112": "Inference proved. REFUTED for training: the quantizer keeps the clustering variables, so further training passes restore the same kernel for ever.",
 "C113": "REFUTED: two unordered updates of the step race (advance of one or two), the assertion races with them (the first step may fail), nested wrappers always fail. Exact bounds proved for every schedule. Assumes TF1 graph-mode Keras layers, which collect updates.",
 "C114": "Real arithmetic (no float rounding); stages, bit packing and composition as modelled in M_CommonEncoders/M_Bitpack/M_Composer.",
 "C115": "First theorem for any tree; second computes the codes, the sum and the error bound.",
 "C116": "Random signs drawn exactly at 1/2 (tf.sign gives 0) are excluded; see C54.",
 "C117": "random_floats is any function of the seed with values in [0,1).",
 "C118": "Projection proved for valid bounds. REFUTED: min > max and negative norms are accepted.",
 "C119": "exp, sqrt and the real FFT are operations with the contracts of S_Epr (positivity; inverse, shapes and error amplification of the FFT).",
 "C120": "Exact when float16 holds the logarithm of the step. REFUTED in general: otherwise every non-zero weight of the layer changes; a dimension >= 65536 is lost in the uint16 shape. The entropy coder is an operation with a decode(encode)=id contract.",
 "C121": "Proved for Dense/Conv2D with bias and small dimensions. REFUTED: Conv1D models cannot be trained, layers without bias and other layers with one or more than two weights have no inference layer.",
 "C122": "Proved when no unreadable attribute directly follows one holding a weight. REFUTED: such an attribute is overwritten by the weight; a model without parameters divides by zero.",
 "C123": "Proved (partial: activations applied elementwise, exact arithmetic; valid and same padding, both data formats). REFUTED: dtype is not passed on, so under the default policy the new layers compute in float32 whatever the dtype of the original layer.",
 "C124": "Proved for Encoders whose methods read dictionaries by key (by_key) and whose results keep a fixed structure (fixed_structure); keys must be slash-safe (no key continued in a sibling key by '/' or a character before it). REFUTED outside: data-dependent encoded shapes are rejected by decode_before_sum in eager execution. Name scopes and tf.function tracing are not modelled.",
 "C125": "Proved for Encoders whose modes are declared exactly for their update tensors.",
 "C126": "Proved under by_key and fixed_simple; tf.function signatures are not modelled beyond the input spec check.",
 "C127": "Proved under the hypotheses of C124 (update tensors are only counted by the code, and by the theorem).",
 "C128": "Proved for all library layers, also with shared cells; distinctness of names needs distinct cell objects (REFUTED otherwise).",
 "C129": "Proved for built Keras cells with variables of their own; per-channel clustering never applies to RNN layers (C31). Nearest-centroid holds for weights above -1000000 (C26).",
 "C130": "Proved when every cell object occurs once; REFUTED for a stack that runs one cell object twice (set_weights gets too few weights, ValueError). from_config is modelled as making a new cell for each occurrence.",
 "C131": "Proved for Keras layers (linear initialisation, non-empty weights); C131_refused: exactly which RNN layers are refused at once. REFUTED: Bidirectional over stacked or custom cells, nested stacks, cells used as layers, and user ClusterableLayer subclasses of RNN are accepted and fail in build with AttributeError, ValueError, KeyError or IndexError.",
 "C132": "First part proved for every layer with one list per cell. REFUTED second part: with more lists than cells every forward pass raises, with fewer the last cells are silently left unquantized, a wrong shape raises after earlier attributes were replaced, and Bidirectional layers (no cell attribute) raise AttributeError.",
 "C133": "Termination, count, range [0,1) in float64, refusal and the prefix property (for counts that use the same number of parallel sequences) are proved for all seeds and counts. Refuted (exact seeds): float32 values are < 1 (a seed whose first value rounds to 1.0); signs are never 0; 100- and 101-element requests share a prefix; distinct seeds give distinct sequences (all multiples of 2048 coincide); values are independent (for every seed the leading 21 bits of the third value are the trailing 21 bits of the second plus d, |d| <= 1024). math.sqrt is taken without rounding.",
 "C134": "Proved. On a refusal the model does not describe the layer left behind: as in C132, attributes before the offending one have already been replaced.",
 "C135": "Proved for differences in layers, connections, weights by name and metadata (compared by the configs' own equality). REFUTED for names_and_weights, which LayerNode.__eq__ does not compare: a replacement that changes only the weights of a layer two of whose weights share a name is dropped.",
 "C136": "Proved: the inputs of a matched layer are exactly the layers its first call is connected to (functional) or the preceding layer (Sequential). REFUTED for operand order: the inputs are listed in the order of the model configuration, so a pattern on an ordered operation matches the swapped operands and a replacement that keeps its inputs swaps them (dense - conv becomes conv - dense); an operand used twice is kept once. The code has a TODO on the order.",
 "C137": "Exact result of every default transform on every match, stated on layer, configuration, weights and metadata. A transform that gives up on a Concatenate still switches off the QuantizeLayers it has already passed (stated as fed_kept).",
 "C138": "Exact table for every class and scheme; and for every wrapper of every quantized model (Activation layers stated separately because their output quantizer depends on the activation function).",
 "C139": "Proved by induction over the tree from the stage contract of S_CoreTree (stage_by_key, stage_fixed); eager execution, static shapes.",
 "C140": "All on flat values; the nested dictionaries occur only in the proof. Uses C139.",
 "C141": "Library stages are proved to meet the stage contract of C139/C140 (none is assumed); the numeric bounds come from a refinement of the nested-dictionary encoder (M_CoreTree) to the typed one (M_Encoder) along chains. Float tensors; exact real arithmetic; random streams are arbitrary functions into [0,1).",
 "C142": "load_model, the TFLite converter and the archive size are arbitrary functions (any may raise); directories and disk errors are not modelled; NaN sparsity is outside the rationals. Several sub-claims of the English property are refuted by theorems (code bugs).",
 "C143": "Trees as made by EncoderComposer (child keys of a stage distinct); eager execution; name scopes left out. complete says every child finds a value under its key, which C143_encoded_is_complete shows of everything encode makes.",
 "C144": "Float arithmetic from Flocq (binary32, round to nearest even); kernels that flush subnormals to zero are not modelled. C144_refuted: tensors with 2^24 < n < 2^25, n = 3 mod 4 entries at sparsity 0 ask for n+1 weights, so tf.gather fails (CPU).",
 "C145": "tf.math.pow is a parameter with a contract (monotone on [0,1], keeps 0 and 1), which the float32 cube is shown to meet. C145_refuted: an accepted sparsity above 1-2^-25 becomes the float32 1.0.",
 "C146": "Finite float32 inputs; num_summands None. C146_overflow_refuted: a range wider than the greatest float32 encodes its maximum as NaN. C146_greatest_value_refuted: the maximum need not be reproduced exactly in float32.",
 "C147": "Finite float32 inputs, one vector of centroids. C147_nearest_refuted: distances equal after rounding. C147_overflow_refuted: distances beyond the greatest float32 are all infinity and the first centroid wins.",
 "C148": "Finite float32 inputs, one range per tensor. C148_overflow_refuted: symmetric range of a tensor near the greatest float32 has an infinite limit. C148_stalls_refuted: the moving average stops moving within rounding of a thousandth of its distance to the batch limit.",
 "C149": "Given range (the case that commutes with sums), finite moderate values. C149_order_refuted: 259 clients with 16 bits, the sum of the codes differs with the order of the additions. Sums by tf.add or tf.reduce_sum are any tree of float32 additions.",
 "C47": "REFUTED: a transform that replaces a layer by a renamed one that it matches again runs for ever. Proved (C47_terminates_partial) whenever the replacements only use the names of the matched layers or names from some finite list; C85_layout_terminates proves termination of the layout transforms of the library on every model.",
 "C150": "One vector (rows of a batch are transformed independently). Lengths up to 2^24, values of magnitude at most 2^60, draws other than exactly 1/2 (C55). The products of tf.matmul with [[1,1],[1,-1]] are exact and each sum of two is rounded once. C150_exact_refuted: [1, 2^-25] decodes to [1, 0]."
}