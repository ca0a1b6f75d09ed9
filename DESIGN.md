# Formal model of tensorflow/model-optimization in Rocq (Coq 8.16.1)

## 1. Shape of the development

`rocq/theories/` (logical name `Verif`) holds, per area of the code base:

* `M_<Area>.v` – the **model**: total Gallina functions written branch by branch after the Python,
  each definition citing file and lines in /repo. No proofs in these files.
* `S_<Area>.v` (when a property needs one) – the **specification**: short definitions that do not use
  the model's helpers.
* `L_<Area>.v` – lemmas and proofs.
* `P_<Area>.v` – the **properties**: nothing but `Theorem … Proof. exact …. Qed.`, `Print Assumptions`
  and an `Example` per theorem that exhibits a concrete non-trivial case meeting the hypotheses.

Suffixes: `_partial` = strictly weaker than the English claim (missing part stated in a comment),
`_refuted` = the English claim is false of the faithful model; the witness is the finding.
Python exceptions are values (`Err <kind>` of the type `res`), so "raises" is a statement about results.

## 2. Numbers

* Weights, masks, activations, ranges, sparsity targets, gradients and codes are exact rationals (`Q`, compared with
  `==`): every finite float is one, and comparison, `abs`, negation, selection and multiplication by a 0/1 mask are
  exact, so for the code that only compares and copies nothing is lost. For the code that does arithmetic (fake
  quantization, uniform quantization, interpolation, moving averages) the model is the mathematics of the code, not its
  float32 rounding; each such claim is about exact arithmetic (C144 and later redo some of them in binary32). NaN and infinities are excluded, except where the code
  itself divides by zero (then the result is an explicit non-number, C04).
* Code with square roots or real powers (Hadamard normalisation, Kashin, polynomial decay with a real exponent) is
  modelled over the stdlib `R` (axioms of the stdlib reals appear in `Print Assumptions`).
* Python ints are `Z`; shapes, counts and indices are `nat`.

## 3. What is modelled, what is not

Paths below are relative to `/repo/tensorflow_model_optimization/python/core/`.

| model | code |
|-------|------|
| M_Schedule | sparsity/keras/pruning_schedule.py (both schedules, validation, configs) |
| M_Mask | sparsity/keras/pruning_impl.py mask computation; pruning_utils.py (pooling, expansion, kronecker, m-by-n, rearrangement, checker) |
| M_PruneWrapper | pruning_wrapper.py build/call, pruning_impl.py conditional_mask_update and weight updates, pruning_callbacks.py UpdatePruningStep |
| M_PruneModel | prune.py (prune_low_magnitude, strip_pruning), prune_registry.py, pruning_policy.py, wrapper configs |
| M_Tools | tools/sparsity_tooling.py (prune_for_benchmark), tools/check_sparsity_m_by_n.py, PruningSummaries, ClusteringSummaries |
| M_Cluster, M_ClusterWrapper | clustering/keras: algorithm (plain, per-channel, gradients), centroid initialisers, wrapper, cluster/strip, registry, config |
| M_Quant | quantization/keras/quant_ops.py, quantizers.py, default_8bit quantizers, per-axis, histories, configs |
| M_QWrapper | quantize_wrapper.py (V1 and V2), quantize_aware_activation.py |
| M_Transform | graph_transformations/model_transformer.py, transforms.py (generic pattern engine) |
| M_Layout8 | default_8bit and n-bit layout transforms and their transform lists, registries as used by them |
| M_QuantizeApply | quantize.py: annotate, apply, fix_input_output_range, remove_input_range |
| M_NBit | n-bit registries, QuantizeConfig objects and their serialization, repeated loads |
| M_Preserve | collab_opts: prune-preserve and cluster-preserve quantizers, registries and schemes |
| M_Bitpack, M_Stages, M_Hadamard | internal/tensor_encoding utils (bit packing, FWHT, random signs), stages and research stages (uniform quantization, PRNG, Hadamard, Kashin, misc) |
| M_Encoder, M_Composer, M_Dicts | tensor_encoding/core encoders, composers, dictionary utilities, joined keys |
| M_Compress, M_CompSchedule | common/keras/compression: optimizer, algorithms (SVD, periodical, clustering, bias only), schedules |
| M_Compat, M_Metrics | keras/compat.py unique_object_name, keras/metrics.py MonitorBoolGauge |
| M_Wrappers | call forwarding of the wrappers (quantize_annotate.py, quantize_wrapper.py, pruning_wrapper.py, cluster_wrapper.py), quantize_layer.py, get/set_weights and trainable lists |
| M_StripCqat | collab_opts/cluster_preserve/cluster_utils.py strip_clustering_cqat |
| M_Estimator | sparsity/keras/estimator_utils.py PruningEstimatorSpec: one training step as a schedule of atomic reads and writes |
| M_CommonEncoders, M_Research | tensor_encoding/encoders/common_encoders.py end to end (over R); per-channel quantization and clipping stages |
| M_Epr | common/keras/compression/algorithms/epr.py (exp, sqrt, FFT, half cast, entropy coder as operations with contracts) |
| M_SepConv | the arithmetic of the separable-convolution transforms of default_8bit_transforms.py |
| M_CoreTree | tensor_encoding/core/core_encoder.py on the nested dictionaries it exchanges, encoding_stage.py (as_adaptive_encoding_stage, conversions); stages as records with a contract |
| M_CommonFlat | the library stages' methods on dictionaries of Python values and tensors (stages_impl.py), common_encoders.py on M_CoreTree; tensors are float or int32, a random stream is its seed |
| M_EvalPruning | sparsity/keras/tools/evaluate_pruning.py: flag parsing (int(), split), file names (%.2f, %d, os.path.join), run over a file system; load_model/converter/archive size are parameters |
| M_Float32 | binary32 arithmetic (Flocq BinarySingleNaN 24 128, ties to even, gradual underflow; kernels flushing subnormals not modelled) for sparsity/keras/pruning_impl.py:71-124 |
| M_FloatSchedule | Python floats (binary64), casts to binary32, sparsity/keras/pruning_schedule.py:97-100, 163-166, 229-242 |
| M_FloatQuant | internal/tensor_encoding/stages/stages_impl.py:333-398 in binary32, num_summands None |
| M_FloatCluster | clustering/keras/clustering_algorithm.py:82-194 (forward value, one vector of centroids) in binary32 |
| M_FloatRange | quantization/keras/quant_ops.py:48-309 (the new values of the range variables, one range per tensor), quantizers.py:131-148, 318-327 in binary32 |
| M_FloatSum | internal/tensor_encoding/stages/stages_impl.py:307-314, 375-398 (decoding of sums) in binary32 |
| M_FloatHadamard | internal/tensor_encoding/utils/tf_utils.py:27-114, 226-245, stages/stages_impl.py:175-233 in binary32, one vector |
| M_Gather | tensor_encoding/core/gather_encoder.py, simple_encoder.py, py_utils flattening (the core encoder as a parameter with stated hypotheses) |
| M_ClusterRnn | clustering_registry.py RNN part, ClusterWeightsRNN |
| M_QRnn | Default8BitQuantizeConfigRNN and DefaultNBitQuantizeConfigRNN with the wrapper parts they use |
| M_Cmwc | tf_utils.py deterministic generator (wrapping int64) |


Not modelled: TensorFlow/Keras kernels (taken at their documented meaning: `tf.math.top_k` returns the k largest in
descending order with lower index first on ties, `argmin`/`argmax` return the first extremum, `tf.round` rounds half to
even, `floormod` is Python's `%`, `pool` with SAME padding, `einsum`, `nest.flatten` sorts dictionary keys …; `svd`,
random initialisers and random draws are parameters constrained by their documented contract), distribution strategies
and replica aggregation, graph vs eager modes, file formats, device placement, float rounding (except in M_Float32), NaN/infinity inputs, and
everything under `*/examples`, `benchmarks`, `testing`. Keras itself (`clone_model`, `from_config`, the `fit` loop,
weight tracking) is modelled only as far as the code relies on it, and each definition that does so says what it assumes.

## 4. Plan per property

| id | modelled | method |
|----|----------|--------|
| C01 | `_should_prune_in_step`, both schedules' `__call__` | iff with `exists k`, via `Z.div_mod` |
| C02 | `_validate_step`, `_validate_sparsity`, both `__init__` | case analysis, both directions |
| C03 | PolynomialDecay `__call__`, real exponent (`Rpower` with 0^p = 0) | real analysis |
| C04 | same, division with explicit NaN result | refuted (begin=end accepted); proved when begin<end |
| C05–C07 | `_update_mask` over Z with an explicit stable descending sort for `top_k` | threshold characterisation, counting; C07 refuted by ties |
| C08 | `_maybe_update_block_mask`, pooling SAME, `expand_tensor`, slice | index laws + C05 on the pooled matrix |
| C09 | `kronecker_product`, `expand_tensor` | index law for all matrices |
| C10–C12 | `generate_m_by_n_mask`, `is_pruned_m_by_n`, `weights_rearrange`, `m_by_n_sparsity_mask_prepare` | induction over blocks; permutation index laws |
| C13–C17 | `PruneLowMagnitude.call/build`, `conditional_mask_update`, `UpdatePruningStep` as a state machine over a list of layers | invariants over event lists; C17 refuted for mixed models |
| C18,C19 | `prune_low_magnitude`, `strip_pruning`, registry on nested layer trees | nested induction |
| C20 | wrapper `get_config`/`from_config` | round trip; refuted for m-by-n |
| C21 | `_lookup_layers` worklist on a finite graph | reachability invariant, termination by a measure |
| C22–C26 | `ClusteringAlgorithm*` | argmin lemmas, sums, invariants over histories; C26 refuted for w <= -1e6 |
| C27–C29 | centroid initialisers | list arithmetic; C29 refuted |
| C30–C32 | `ClusterWeights`, `strip_clustering`, config | list position lemmas; C30 refuted in general |
| C33 | `FakeQuantWithMinMaxVars` as called by `_FakeQuantWithMinMaxVars` | Q arithmetic |
| C34–C37 | `AllValuesQuantize`, `LastValueQuantize`, `MovingAvgQuantize`, `FixedQuantize` | invariants over call histories |
| C38–C40 | quantizer classes, configs | refuted with witnesses + proved parts |
| C41,C42 | `QuantizeWrapper.call`, `QuantizeAwareActivation` | state machine |
| C43–C45 | `quantize_annotate_model`, `quantize_apply` decision logic, 8-bit layout transforms on quantize configs | list induction; C45 refuted |
| C46,C47 | `ModelTransformer` match/replace/transform loop | termination measure; C47 refuted |
| C48 | `fix_input_output_range` | refuted + proved part |
| C49–C51 | prune-preserve and cluster-preserve quantizers, registries | invariants over histories; C51 refuted |
| C52 | `pack_into_int`/`unpack_from_int` all widths | digit arithmetic |
| C53,C63 | `UniformQuantizationEncodingStage`, PRNG variant | Q arithmetic |
| C54–C56 | FWHT, Hadamard stage, `random_signs`, Kashin stage | linear algebra over R; C55 refuted |
| C57 | misc stages | list induction |
| C58–C60 | `Encoder` trees | nested induction over trees; C60 refuted |
| C61,C62 | dictionary utilities, joined keys | nested induction, string order; C62 refuted in general |
| C64,C67 | compression schedules, periodical SVD rank | arithmetic; `svd` a parameter with its shapes |
| C65,C66 | compression optimizer weight mapping | refuted with witnesses + proved parts |
| C68 | `unique_object_name` | invariant over request histories; refuted corners |
| C69 | `MonitorBoolGauge` | case analysis, histories |
| C70 | schedule `get_config`/`from_config` | round trip |
| C71 | XNNPack policy checks | worklist invariant; refuted by the early return |
| C72,C73 | commuting stages, norms | linearity, induction on the transform's recursion |
| C74 | Encoder composers | induction over composer programs |
| C75 | Conv2DTranspose weights quantizer | index permutation lemma |
| C76 | `trainable = False` on both wrappers | exact list; refuted |
| C77–C80 | per-channel sparsity, ClusterWeights build, cluster_scope, MHA strip | refuted with witnesses + proved parts |
| C81,C82 | prune registry weight lists; callbacks over nested trees | nested induction |
| C83–C87 | the full 8-bit/n-bit layout transform over arbitrary graphs | a simulation invariant (`Iv`) kept by each of the transforms, termination measure; findings as literal graphs |
| C88–C91 | preserving quantizers and schemes | histories; agreement with the default scheme by simulation |
| C92–C96 | compression-aware training | histories of training steps and evaluations |
| C97–C100 | tools and callbacks | list lemmas, the documented `fit` loop as an event trace |
| C101–C105 | n-bit registries as mutable shared objects, config objects | invariants over programs that create registries and configs |
| C106–C110 | wrappers as Python call forwarders; variable lists of wrapped layers | case analysis on argument dictionaries; permutation lemmas for weight lists; refuted corners |
| C111,C112 | strip_clustering_cqat on nested models; a stripped layer's forward pass | nested induction; simulation with the plain quantized layer |
| C113 | every schedule of the reads and writes that the tf.group allows | invariant over schedules; refuted by an interleaving |
| C114–C118 | common encoders and research stages over R | composition of per-stage error bounds along the encoder tree |
| C119–C122 | EPR training, compression, decompression | contracts of the coder; index lemmas; refuted corners |
| C123 | separable convolution = depthwise then pointwise | sum exchange over all shapes, strides and paddings |
| C124–C127 | GatherEncoder/SimpleEncoder over an abstract core encoder | flattening is injective on sorted keys; refuted collisions |
| C128–C131 | RNN cells as heap objects, registered names, wrapper build, strip | index-of-name lemmas, heap invariants; refuted by shared cells |
| C132 | RNN quantize config over lists of cells | loop invariants on the attribute store |
| C133 | CMWC generator in wrapping int64 | invariant on the state vector; exact seeds refute |
| C134 | QuantizeWrapper set_quantize_weights | exact characterisation of acceptance |
| C135,C136 | transform loop: skipped and carried-out replacements, connectivity of a match | recursive equality lemma; match-tree inversion; operand order refuted |
| C137 | each default layout transform: what a match changes | exact per-transform lemmas |
| C138 | n-bit and 8-bit registries: the exact quantizers per class | table, then every wrapper of every quantized model |
| C141 | library stages behind GatherEncoder/SimpleEncoder: contract, totality, end-to-end error bounds | stage contract proved for every library stage; refinement of M_CoreTree to M_Encoder along chains |
| C142 | evaluate_pruning.py: flag grammar, file names, files after any outcome | grammar (S_EvalPruning) = parser by induction; every branch of run; injectivity of decimal notation |
| C143 | core_encoder.py methods on nested dictionaries (M_CoreTree): what every stage is called on | stage_at/node paths (S_CoreTree2); induction on the tree, functions from paths to values built from finitely many children |
| C144 | pruning_impl.py `_update_mask` in IEEE binary32 (M_Float32, on Flocq): integer conversion, subtraction, product, round, max, cast | relative error of the three roundings, monotonicity of rounding; sorting lemmas of C06; refuted above 2^24 entries |
| C145 | pruning_schedule.py targets with binary64 arguments and binary32 arithmetic (M_FloatSchedule), pow as a parameter with a contract met by the cube | monotonicity and absolute error of roundings; refuted for sparsities that round to 1 |
| C146 | stages_impl.py uniform quantization encode/decode in binary32 (M_FloatQuant), given or found range, both roundings | relative errors of the operations (sums have no underflow), monotonicity of rounding; refuted for overflowing ranges and for exactness of the greatest value |
| C147 | clustering_algorithm.py pulling indices and clustered weight in binary32 (M_FloatCluster) | relative error of differences (no underflow), sign of a sum is exact; refuted for exact nearness and for overflow |
| C148 | quant_ops.py range updates in binary32 (M_FloatRange) over any history of calls | induction over the history; the rounded step of the moving average is at most the difference (least subnormal, relative error), rounding is monotone and odd; refuted for overflow and for convergence |
| C149 | sums of codes as arbitrary trees of float32 additions (S_FloatSum.added_up), decode with num_summands (M_FloatSum) | integers up to 2^24 add exactly (induction on the tree); error of a code per client, summed by induction over clients; relative errors of the decoding; refuted beyond 2^24 |
| C150 | butterflies, division by the rounded square root, signs as float32 operations (M_FloatHadamard), against the exact transform of M_Hadamard | relative error in the Euclidean norm per butterfly step (induction over the steps, triangle inequality), error of square root and division, norm preservation and involution of the exact transform; exactness refuted |
| C139,C140 | encoder trees behind GatherEncoder/SimpleEncoder: totality, sums, one client = SimpleEncoder | induction over trees; frames of nested dictionaries; lookups by key |

Later properties: see `properties.jsonl` and the notes in `MANIFEST.json`.

## 5. Trusted base

* Coq's kernel (8.16.1) and the stdlib. No other library is imported. No axioms, parameters, functors or module types
  of ours; no kernel check is switched off.
* `Print Assumptions` of every theorem is in `ASSUMPTIONS.md` (generated by `tools/mk_assumptions.py`). The only axioms are
  those of the standard library: `ClassicalDedekindReals.sig_not_dec`, `ClassicalDedekindReals.sig_forall_dec`,
  `FunctionalExtensionality.functional_extensionality_dep` (the real numbers: C03, C04, C54–C56, C64, C72, C73) and
  `Classical_Prop.classic` (C03, C04, C64; and C21, C71 for reachability). All others are closed under the global context.
* The reading of the code: each definition cites the lines it models; the code is not executed here.

## 6. Method of checking

* Each property theorem is followed by an `Example` with a concrete non-trivial instance of its hypotheses.
* `seeded/LOG.jsonl` records wrong programs (edits of the model) with the theorems that failed; survivors led to
  strengthened theorems, or are recorded there as gaps.
* Refuted properties: the theorem named `…_refuted` is the negation (or the exact wrong behaviour) with its witness; the
  property stays `partial` in MANIFEST.json even where the exact boundary is proved.
