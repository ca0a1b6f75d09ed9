(** The default 8-bit and n-bit layout transforms.  Sources: quantization/keras/default_8bit/default_8bit_transforms.py,
    default_8bit_quantize_layout_transform.py and their counterparts in quantization/keras/experimental/default_n_bit/, which
    are the same code except where a definition takes the scheme.  Unqualified line numbers are those of the 8-bit files.  Layer configs are lists of (key, str(value)); a replacement that copies
    config entries of the matched layer copies the listed keys. *)
From Coq Require Import String.
From Verif Require Import Base M_Tensor M_Transform.
Open Scope string_scope.
Open Scope nat_scope.

(** 87-96: metadata.get('quantize_config') is not None. *)
Definition meta_config (m : meta) : option qcfg := match m_cfg m with Some c => c | None => None end.
Definition has_custom (ns : list node) : bool := existsb (fun n => match meta_config (n_meta n) with Some _ => true | None => false end) ns.
Definition set_config (n : node) (c : qcfg) : node :=
  match n with Node l w nw m i => Node l w nw (mkMeta (Some (Some c)) (m_noquant m)) i end.
Definition set_inputs (n : node) (i : list node) : node := match n with Node l w nw m _ => Node l w nw m i end.
(** node.input_layers[0]. *)
Definition input0 (n : node) : res node := match n_inputs n with a :: _ => Ok a | [] => Err IndexError end.
Definition set_input0 (n a : node) : node := match n_inputs n with _ :: r => set_inputs n (a :: r) | [] => n end.
(** layer['config']['activation'] = serialize_activation(NoOpActivation()). *)
Fixpoint dict_set (k v : string) (l : list (string * string)) : list (string * string) :=
  match l with [] => [(k, v)] | (k', v') :: r => if String.eqb k' k then (k, v) :: r else (k', v') :: dict_set k v r end.
Definition noop_activation (n : node) : node :=
  match n with Node l w nw m i => Node (mkLc (lc_class l) (lc_name l) (dict_set "activation" "NoOpActivation" (lc_cfg l)) (lc_inbound l)) w nw m i end.

(** ** Conv2D / Dense followed by BatchNormalization (and ReLU) *)
Definition BN : string := "BatchNormalization|SyncBatchNormalization".
Definition pat_conv_bn : pat := Pat BN [] [Pat "Conv2D|DepthwiseConv2D" [("activation", "linear")] []].
Definition pat_conv_reshape_bn : pat :=
  Pat BN [] [Pat "Lambda" [("name", "sepconv1d_squeeze.*")] [Pat "Conv2D|DepthwiseConv2D" [("activation", "linear")] []]].
Definition pat_dense_bn : pat := Pat BN [] [Pat "Dense" [("activation", "linear")] []].
Definition pat_relu (p : pat) : pat := Pat "ReLU" [] [p].
Definition pat_act_relu (p : pat) : pat := Pat "Activation" [("activation", "relu")] [p].

(** 118-135, 245-262: x <- BN <- (Reshape <-) Conv: the convolution loses its activation, BN gets an output-only config. *)
Definition repl_bn (_ : nat) (bn : node) : res node :=
  do conv <- input0 bn ;;
  Ok (if has_custom [bn; conv] then bn else set_config (set_input0 bn (noop_activation conv)) (OutputCfg false)).
Definition repl_reshape_bn (_ : nat) (bn : node) : res node :=
  do sq <- input0 bn ;; do conv <- input0 sq ;;
  Ok (if has_custom [bn; conv] then bn else set_config (set_input0 bn (set_input0 sq (noop_activation conv))) (OutputCfg false)).
(** 182-206, 284-310: with a ReLU on top BN gets a NoOp config. *)
Definition repl_bn_relu (_ : nat) (relu : node) : res node :=
  do bn <- input0 relu ;; do conv <- input0 bn ;;
  Ok (if has_custom [relu; bn; conv] then relu else set_input0 relu (set_config (set_input0 bn (noop_activation conv)) NoOpCfg)).
Definition repl_reshape_bn_relu (_ : nat) (relu : node) : res node :=
  do bn <- input0 relu ;; do sq <- input0 bn ;; do conv <- input0 sq ;;
  Ok (if has_custom [relu; bn; conv] then relu
      else set_input0 relu (set_config (set_input0 bn (set_input0 sq (noop_activation conv))) NoOpCfg)).

(** ** SeparableConv *)
Definition copy_keys (ks : list (string * string)) (l : list (string * string)) : list (string * string) :=
  map (fun p => (snd p, match assoc (fst p) l with Some v => v | None => "None" end)) ks.
Definition cfg_meta_none : meta := mkMeta (Some None) false.
Definition cfg_meta (c : qcfg) : meta := mkMeta (Some (Some c)) false.
Definition expand0 (t : tensor Q) : tensor Q := mkT (1 :: shape t) (data t).
Definition use_bias (l : layerc) : bool := String.eqb (config_get l "use_bias") "True".
(** 354-469 [SeparableConv1DQuantize]: expand dims -> SeparableConv2D -> squeeze.  [gen prefix k] is the name the naming
    service returns for this replacement.  kernel_size, strides and dilation_rate become 2D (385-391): opaque here. *)
Definition repl_sepconv1d (gen : string -> nat -> string) (k : nat) (n : node) : res node :=
  if has_custom [n] then Ok n
  else
    let l := n_layer n in
    if String.eqb (config_get l "padding") "causal" then Err ValueError
    else match map snd (n_weights n) with
    | w0 :: w1 :: rest =>
        do ws <- (if use_bias l then match rest with b :: _ => Ok [("depthwise_kernel:0", expand0 w0); ("pointwise_kernel:0", expand0 w1); ("bias:0", b)]
                                     | [] => Err IndexError end
                  else Ok [("depthwise_kernel:0", expand0 w0); ("pointwise_kernel:0", expand0 w1)]) ;;
        let conv2d := mkLc "SeparableConv2D" (lc_name l ++ "_QAT_SepConv2D") (lc_cfg l) [] in
        let expand := mkLc "Lambda" (gen "sepconv1d_expand" k) [] [] in
        let squeeze := mkLc "Lambda" (gen "sepconv1d_squeeze" k) [] [] in
        Ok (Node squeeze [] None (cfg_meta NoOpCfg)
              [Node conv2d ws None cfg_meta_none [Node expand [] None (cfg_meta NoOpCfg) []]])
    | _ => Err IndexError
    end.
(** 490-564 [SeparableConvQuantize]: DepthwiseConv2D -> Conv2D. *)
Definition repl_sepconv (gen : string -> nat -> string) (k : nat) (n : node) : res node :=
  if has_custom [n] then Ok n
  else
    let l := n_layer n in
    match map snd (n_weights n) with
    | w0 :: w1 :: rest =>
        do ws <- (if use_bias l then match rest with b :: _ => Ok [("kernel:0", w1); ("bias:0", b)] | [] => Err IndexError end
                  else Ok [("kernel:0", w1)]) ;;
        let same := map (fun s => (s, s)) in
        let dconv := mkLc "DepthwiseConv2D" (gen "depthwise_conv2d" k)
          (("activation", "linear") :: ("use_bias", "False") ::
           copy_keys (same ["kernel_size"; "strides"; "padding"; "depth_multiplier"; "data_format"; "dilation_rate"; "depthwise_initializer";
                            "depthwise_regularizer"; "depthwise_constraint"; "trainable"]) (lc_cfg l)) [] in
        let conv := mkLc "Conv2D" (gen "conv2d" k)
          (("kernel_size", "(1, 1)") :: ("strides", "(1, 1)") :: ("padding", "valid") :: ("groups", "1") ::
           copy_keys (same ["filters"; "data_format"; "dilation_rate"; "activation"; "use_bias"] ++
                      [("pointwise_initializer", "kernel_initializer"); ("bias_initializer", "bias_initializer"); ("pointwise_regularizer", "kernel_regularizer");
                       ("bias_regularizer", "bias_regularizer"); ("activity_regularizer", "activity_regularizer"); ("pointwise_constraint", "kernel_constraint");
                       ("bias_constraint", "bias_constraint"); ("trainable", "trainable")])%list (lc_cfg l)) [] in
        Ok (Node conv ws None cfg_meta_none [Node dconv [("depthwise_kernel:0", w0)] None cfg_meta_none []])
    | _ => Err IndexError
    end.

(** ** 567-606 LayerReLUQuantize, LayerReluActivationQuantize *)
Definition repl_layer_relu (_ : nat) (relu : node) : res node :=
  do add <- input0 relu ;; Ok (set_input0 relu (set_config add NoOpCfg)).

(** ** 609-634 InputLayerQuantize *)
Definition repl_input (gen : string -> nat -> string) (k : nat) (n : node) : res node :=
  Ok (Node (mkLc "QuantizeLayer" (gen "quantize_layer" k) [] []) [] None meta_empty [n]).

(** ** 637-748 ConcatTransform *)
(** 643-650 [_disable_output_quantize]. *)
Definition disable_output (c : qcfg) : qcfg :=
  match c with UserCfg i _ => UserCfg i true | NoOpCfg => NoOpCfg | OutputCfg _ => OutputCfg true | RegistryCfg s _ => RegistryCfg s true end.
(** default_8bit_quantize_registry.py:78-189: classes the registry has an entry for. *)
Definition supported_classes : list string :=
  ["ReLU"; "Softmax"; "LeakyReLU"; "Concatenate"; "Cropping1D"; "Cropping2D"; "Cropping3D"; "UpSampling2D"; "ZeroPadding1D"; "ZeroPadding2D";
   "ActivityRegularization"; "Dense"; "Dropout"; "Flatten"; "Permute"; "Reshape"; "SpatialDropout1D"; "SpatialDropout2D"; "SpatialDropout3D";
   "AveragePooling1D"; "AveragePooling2D"; "GlobalAveragePooling1D"; "GlobalAveragePooling2D"; "GlobalAveragePooling3D"; "GlobalMaxPooling1D";
   "GlobalMaxPooling2D"; "GlobalMaxPooling3D"; "MaxPooling2D"; "Add"; "Activation"; "Conv2DTranspose"; "Conv2D"; "DepthwiseConv2D"].
Definition is_supported_class (c : string) : bool := inb c supported_classes.
(** The two default schemes. *)
Inductive scheme := EightBit | NBit.
(** 649-652 [_get_layer_type] returns QuantizeLayer for its class name; default_n_bit_transforms.py:702-707 does not (and Keras
    has no such class, so the n-bit transform gives up on it). *)
Definition quant_known (sch : scheme) (cls : string) : bool := match sch with EightBit => String.eqb cls "QuantizeLayer" | NBit => false end.
(** 660-691: the loop over the feeding layers: [None] is the early "return match_layer"; the configs to disable are the
    ones of the feeders that are neither Concatenate nor QuantizeLayer. *)
Fixpoint concat_feeds (sch : scheme) (is_keras_layer : string -> bool) (feeds : list node) : list node * bool :=
  match feeds with
  | [] => ([], true)
  | n :: r =>
      let cls := lc_class (n_layer n) in
      match meta_config (n_meta n) with
      | Some _ => let '(r', ok) := concat_feeds sch is_keras_layer r in (n :: r', ok)
      | None =>
          if negb (quant_known sch cls || is_keras_layer cls)%bool then (n :: r, false)
          else if String.eqb cls "Concatenate" then
            let '(r', ok) := concat_feeds sch is_keras_layer r in (set_config n NoOpCfg :: r', ok)
          else if quant_known sch cls then
            let '(r', ok) := concat_feeds sch is_keras_layer r in
            ((match n with Node l w nw m i => Node l w nw (mkMeta (m_cfg m) true) i end) :: r', ok)
          else if negb (is_supported_class cls) then (n :: r, false)
          else let '(r', ok) := concat_feeds sch is_keras_layer r in (set_config n (RegistryCfg cls false) :: r', ok)
      end
  end.
(** 693-703.  A Concatenate feeder that already had a config is disabled too; disabling NoOpCfg changes nothing. *)
Definition disable_node (n : node) : node := match meta_config (n_meta n) with Some c => set_config n (disable_output c) | None => n end.
Definition repl_concat (sch : scheme) (is_keras_layer : string -> bool) (_ : nat) (n : node) : res node :=
  let '(feeds, ok) := concat_feeds sch is_keras_layer (n_inputs n) in
  if negb ok then Ok (set_inputs n feeds)
  else
    let n' := set_inputs n (map disable_node feeds) in
    Ok (match meta_config (n_meta n) with Some _ => n' | None => set_config n' (OutputCfg false) end).
Definition pat_concat (k : nat) : pat := Pat "Concatenate" [] (repeat (Pat ".*" [] []) k).

(** ** default_8bit_quantize_layout_transform.py:53-73: the list, in order. *)
Definition default_8bit_transforms (gen : string -> nat -> string) (is_keras_layer : string -> bool) : list transform :=
  [ mkTr "InputLayerQuantize" (Pat "InputLayer" [] []) (repl_input gen);
    mkTr "SeparableConv1DQuantize" (Pat "SeparableConv1D" [] []) (repl_sepconv1d gen);
    mkTr "SeparableConvQuantize" (Pat "SeparableConv2D" [] []) (repl_sepconv gen);
    mkTr "Conv2DReshapeBatchNormReLUQuantize" (pat_relu pat_conv_reshape_bn) repl_reshape_bn_relu;
    mkTr "Conv2DReshapeBatchNormActivationQuantize" (pat_act_relu pat_conv_reshape_bn) repl_reshape_bn_relu;
    mkTr "Conv2DBatchNormReLUQuantize" (pat_relu pat_conv_bn) repl_bn_relu;
    mkTr "Conv2DBatchNormActivationQuantize" (pat_act_relu pat_conv_bn) repl_bn_relu;
    mkTr "Conv2DReshapeBatchNormQuantize" pat_conv_reshape_bn repl_reshape_bn;
    mkTr "Conv2DBatchNormQuantize" pat_conv_bn repl_bn;
    mkTr "ConcatTransform6Inputs" (pat_concat 6) (repl_concat EightBit is_keras_layer);
    mkTr "ConcatTransform5Inputs" (pat_concat 5) (repl_concat EightBit is_keras_layer);
    mkTr "ConcatTransform4Inputs" (pat_concat 4) (repl_concat EightBit is_keras_layer);
    mkTr "ConcatTransform3Inputs" (pat_concat 3) (repl_concat EightBit is_keras_layer);
    mkTr "ConcatTransform" (pat_concat 2) (repl_concat EightBit is_keras_layer);
    mkTr "DenseBatchNormQuantize" pat_dense_bn repl_bn;
    mkTr "DenseBatchNormReLUQuantize" (pat_relu pat_dense_bn) repl_bn_relu;
    mkTr "DenseBatchNormActivationQuantize" (pat_act_relu pat_dense_bn) repl_bn_relu;
    mkTr "LayerReLUQuantize" (Pat "ReLU" [] [Pat "Add|Conv2D|DepthwiseConv2D|Dense" [] []]) repl_layer_relu;
    mkTr "LayerReluActivationQuantize" (Pat "Activation" [("activation", "relu")] [Pat "Add|Conv2D|DepthwiseConv2D|Dense" [] []]) repl_layer_relu ].
(** default_n_bit_quantize_layout_transform.py:57-134: the list, in order: the ReLU transforms come before the Dense ones. *)
Definition default_n_bit_transforms (gen : string -> nat -> string) (is_keras_layer : string -> bool) : list transform :=
  [ mkTr "InputLayerQuantize" (Pat "InputLayer" [] []) (repl_input gen);
    mkTr "SeparableConv1DQuantize" (Pat "SeparableConv1D" [] []) (repl_sepconv1d gen);
    mkTr "SeparableConvQuantize" (Pat "SeparableConv2D" [] []) (repl_sepconv gen);
    mkTr "Conv2DReshapeBatchNormReLUQuantize" (pat_relu pat_conv_reshape_bn) repl_reshape_bn_relu;
    mkTr "Conv2DReshapeBatchNormActivationQuantize" (pat_act_relu pat_conv_reshape_bn) repl_reshape_bn_relu;
    mkTr "Conv2DBatchNormReLUQuantize" (pat_relu pat_conv_bn) repl_bn_relu;
    mkTr "Conv2DBatchNormActivationQuantize" (pat_act_relu pat_conv_bn) repl_bn_relu;
    mkTr "Conv2DReshapeBatchNormQuantize" pat_conv_reshape_bn repl_reshape_bn;
    mkTr "Conv2DBatchNormQuantize" pat_conv_bn repl_bn;
    mkTr "ConcatTransform6Inputs" (pat_concat 6) (repl_concat NBit is_keras_layer);
    mkTr "ConcatTransform5Inputs" (pat_concat 5) (repl_concat NBit is_keras_layer);
    mkTr "ConcatTransform4Inputs" (pat_concat 4) (repl_concat NBit is_keras_layer);
    mkTr "ConcatTransform3Inputs" (pat_concat 3) (repl_concat NBit is_keras_layer);
    mkTr "ConcatTransform" (pat_concat 2) (repl_concat NBit is_keras_layer);
    mkTr "LayerReLUQuantize" (Pat "ReLU" [] [Pat "Add|Conv2D|DepthwiseConv2D|Dense" [] []]) repl_layer_relu;
    mkTr "LayerReluActivationQuantize" (Pat "Activation" [("activation", "relu")] [Pat "Add|Conv2D|DepthwiseConv2D|Dense" [] []]) repl_layer_relu;
    mkTr "DenseBatchNormQuantize" pat_dense_bn repl_bn;
    mkTr "DenseBatchNormReLUQuantize" (pat_relu pat_dense_bn) repl_bn_relu;
    mkTr "DenseBatchNormActivationQuantize" (pat_act_relu pat_dense_bn) repl_bn_relu ].
Definition layout_transforms (sch : scheme) (gen : string -> nat -> string) (is_keras_layer : string -> bool) : list transform :=
  match sch with EightBit => default_8bit_transforms gen is_keras_layer | NBit => default_n_bit_transforms gen is_keras_layer end.
(** Equality of metadata dicts after a deep copy: configs without __eq__ compare by identity, so a copy differs;
    Default8BitQuantizeConfig (the registry's, except Activation's) has a structural __eq__
    (default_8bit_quantize_registry.py:363-372) which compares quantize_output; in the n-bit scheme switching the output off
    leaves quantize_output alone (default_n_bit_transforms.py:709-712), so __eq__ does not see it.  For the user's class [ueq] says whether it has one. *)
Definition default_meq (sch : scheme) (ueq : bool) (a b : meta) : bool :=
  (Bool.eqb (m_noquant a) (m_noquant b) &&
   match m_cfg a, m_cfg b with
   | None, None | Some None, Some None => true
   | Some (Some (UserCfg i d)), Some (Some (UserCfg j e)) => ueq && Nat.eqb i j && Bool.eqb d e
   | Some (Some (RegistryCfg c d)), Some (Some (RegistryCfg c' e)) => negb (String.eqb c "Activation") && String.eqb c c' && match sch with EightBit => Bool.eqb d e | NBit => true end
   | _, _ => false
   end)%bool.
