(** C137: what the default layout transforms do to the layers they match (8-bit and n-bit). *)
From Coq Require Import String.
From Verif Require Import Base M_Tensor M_Transform M_Layout8 S_Transform S_Layout8 S_Layout8b L_Layout8e.
Open Scope string_scope.
Open Scope list_scope.
Open Scope nat_scope.

(** Conv2D or Dense followed by BatchNormalization: the kernel layer loses its activation quantization, the batch normalization gets the output-only config; if either carries a config already, nothing changes. *)
Theorem C137_conv_bn : forall sch gen ik t name, layout_transform sch gen ik name t -> In name ["Conv2DBatchNormQuantize"; "DenseBatchNormQuantize"] -> forall i bn conv rest, n_inputs bn = conv :: rest -> exists r, t_repl t i bn = Ok r /\
  (unconfigured (n_meta bn) /\ unconfigured (n_meta conv) -> same_layer bn r /\ with_config (OutputCfg false) (n_meta bn) (n_meta r) /\
     exists conv', n_inputs r = conv' :: rest /\ activation_removed conv conv') /\
  (~ (unconfigured (n_meta bn) /\ unconfigured (n_meta conv)) -> r = bn).
Proof. intros sch gen ik t name T N. destruct (names_of _ _ _ _ _ T) as (N1 & N2 & N3 & N4 & N5 & N6 & N7 & N8 & N9). rewrite (N1 N). intros. eapply bn_exact; eauto. Qed.
Print Assumptions C137_conv_bn.
(** The same with the squeeze layer of a broken-up SeparableConv1D in between. *)
Theorem C137_conv_reshape_bn : forall sch gen ik t name, layout_transform sch gen ik name t -> name = "Conv2DReshapeBatchNormQuantize" -> forall i bn sq conv r1 r2, n_inputs bn = sq :: r1 -> n_inputs sq = conv :: r2 -> exists r, t_repl t i bn = Ok r /\
  (unconfigured (n_meta bn) /\ unconfigured (n_meta conv) -> same_layer bn r /\ with_config (OutputCfg false) (n_meta bn) (n_meta r) /\
     exists sq' conv', n_inputs r = sq' :: r1 /\ same_layer sq sq' /\ n_meta sq' = n_meta sq /\ n_inputs sq' = conv' :: r2 /\ activation_removed conv conv') /\
  (~ (unconfigured (n_meta bn) /\ unconfigured (n_meta conv)) -> r = bn).
Proof. intros sch gen ik t name T N. destruct (names_of _ _ _ _ _ T) as (N1 & N2 & N3 & N4 & N5 & N6 & N7 & N8 & N9). rewrite (N2 N). intros. eapply reshape_exact; eauto. Qed.
Print Assumptions C137_conv_reshape_bn.
(** With a ReLU on top: neither the kernel layer nor the batch normalization is quantized at its output, the ReLU keeps its own treatment. *)
Theorem C137_conv_bn_relu : forall sch gen ik t name, layout_transform sch gen ik name t -> In name ["Conv2DBatchNormReLUQuantize"; "Conv2DBatchNormActivationQuantize"; "DenseBatchNormReLUQuantize"; "DenseBatchNormActivationQuantize"] -> forall i relu bn conv r1 r2, n_inputs relu = bn :: r1 -> n_inputs bn = conv :: r2 -> exists r, t_repl t i relu = Ok r /\
  (unconfigured (n_meta relu) /\ unconfigured (n_meta bn) /\ unconfigured (n_meta conv) -> same_layer relu r /\ n_meta r = n_meta relu /\
     exists bn' conv', n_inputs r = bn' :: r1 /\ same_layer bn bn' /\ with_config NoOpCfg (n_meta bn) (n_meta bn') /\ n_inputs bn' = conv' :: r2 /\ activation_removed conv conv') /\
  (~ (unconfigured (n_meta relu) /\ unconfigured (n_meta bn) /\ unconfigured (n_meta conv)) -> r = relu).
Proof. intros sch gen ik t name T N. destruct (names_of _ _ _ _ _ T) as (N1 & N2 & N3 & N4 & N5 & N6 & N7 & N8 & N9). rewrite (N3 N). intros. eapply bn_relu_exact; eauto. Qed.
Print Assumptions C137_conv_bn_relu.
(** ... and with both. *)
Theorem C137_conv_reshape_bn_relu : forall sch gen ik t name, layout_transform sch gen ik name t -> In name ["Conv2DReshapeBatchNormReLUQuantize"; "Conv2DReshapeBatchNormActivationQuantize"] -> forall i relu bn sq conv r1 r2 r3, n_inputs relu = bn :: r1 -> n_inputs bn = sq :: r2 -> n_inputs sq = conv :: r3 -> exists r, t_repl t i relu = Ok r /\
  (unconfigured (n_meta relu) /\ unconfigured (n_meta bn) /\ unconfigured (n_meta conv) -> same_layer relu r /\ n_meta r = n_meta relu /\
     exists bn' sq' conv', n_inputs r = bn' :: r1 /\ same_layer bn bn' /\ with_config NoOpCfg (n_meta bn) (n_meta bn') /\
       n_inputs bn' = sq' :: r2 /\ same_layer sq sq' /\ n_meta sq' = n_meta sq /\ n_inputs sq' = conv' :: r3 /\ activation_removed conv conv') /\
  (~ (unconfigured (n_meta relu) /\ unconfigured (n_meta bn) /\ unconfigured (n_meta conv)) -> r = relu).
Proof. intros sch gen ik t name T N. destruct (names_of _ _ _ _ _ T) as (N1 & N2 & N3 & N4 & N5 & N6 & N7 & N8 & N9). rewrite (N4 N). intros. eapply reshape_relu_exact; eauto. Qed.
Print Assumptions C137_conv_reshape_bn_relu.
(** A layer directly in front of a ReLU is not quantized (whatever config it had). *)
Theorem C137_layer_relu : forall sch gen ik t name, layout_transform sch gen ik name t -> In name ["LayerReLUQuantize"; "LayerReluActivationQuantize"] -> forall i relu a rest, n_inputs relu = a :: rest -> exists r, t_repl t i relu = Ok r /\ same_layer relu r /\ n_meta r = n_meta relu /\
  exists a', n_inputs r = a' :: rest /\ same_layer a a' /\ n_inputs a' = n_inputs a /\ with_config NoOpCfg (n_meta a) (n_meta a').
Proof. intros sch gen ik t name T N. destruct (names_of _ _ _ _ _ T) as (N1 & N2 & N3 & N4 & N5 & N6 & N7 & N8 & N9). rewrite (N5 N). intros. eapply layer_relu_exact; eauto. Qed.
Print Assumptions C137_layer_relu.
(** Concatenate: if the transform can deal with every feeding layer, the output of every one of them is no longer quantized and
    the Concatenate layer's is (or keeps the config it has); otherwise no output quantization is switched off - except that
    QuantizeLayers already passed lose their quantizer. *)
Theorem C137_concat : forall sch gen ik t name, layout_transform sch gen ik name t ->
  In name ["ConcatTransform"; "ConcatTransform3Inputs"; "ConcatTransform4Inputs"; "ConcatTransform5Inputs"; "ConcatTransform6Inputs"] ->
  forall i n, exists r, t_repl t i n = Ok r /\ same_layer n r /\
  ((forall f, In f (n_inputs n) -> concat_accepts sch ik f) ->
     Forall2 (fed_off sch) (n_inputs n) (n_inputs r) /\ (unconfigured (n_meta n) -> with_config (OutputCfg false) (n_meta n) (n_meta r)) /\ (~ unconfigured (n_meta n) -> n_meta r = n_meta n)) /\
  ((exists f, In f (n_inputs n) /\ ~ concat_accepts sch ik f) -> Forall2 (fed_kept sch) (n_inputs n) (n_inputs r) /\ n_meta r = n_meta n).
Proof. intros sch gen ik t name T N. destruct (names_of _ _ _ _ _ T) as (_ & _ & _ & _ & _ & _ & _ & _ & N9). rewrite (N9 N). intros. apply concat_exact. Qed.
Print Assumptions C137_concat.
(** An input layer is followed by a new QuantizeLayer, and is itself left alone. *)
Theorem C137_input : forall sch gen ik t, layout_transform sch gen ik "InputLayerQuantize" t -> forall i n, exists q, t_repl t i n = Ok q /\
  lc_class (n_layer q) = "QuantizeLayer" /\ n_name q = gen "quantize_layer" i /\ n_inputs q = [n] /\ n_weights q = [] /\ n_meta q = meta_empty.
Proof. intros sch gen ik t T. destruct (names_of _ _ _ _ _ T) as (_ & _ & _ & _ & _ & N6 & _). rewrite (N6 eq_refl). intros i n. eexists. split; [reflexivity|]. repeat split. Qed.
Print Assumptions C137_input.
(** A SeparableConv2D layer becomes a DepthwiseConv2D and a 1x1 Conv2D layer, with its settings and weights. *)
Theorem C137_sepconv : forall sch gen ik t, layout_transform sch gen ik "SeparableConvQuantize" t -> forall i n dw pw bias, unconfigured (n_meta n) -> sep_weights n dw pw bias ->
  exists c d, t_repl t i n = Ok c /\ n_inputs c = [d] /\ n_inputs d = [] /\
    lc_class (n_layer d) = "DepthwiseConv2D" /\ n_name d = gen "depthwise_conv2d" i /\ lc_class (n_layer c) = "Conv2D" /\ n_name c = gen "conv2d" i /\
    n_weights d = [("depthwise_kernel:0", dw)] /\ n_weights c = ("kernel:0", pw) :: match bias with Some b => [("bias:0", b)] | None => [] end /\
    n_nw d = None /\ n_nw c = None /\ new_meta None (n_meta d) /\ new_meta None (n_meta c) /\
    (forall k, In k ["kernel_size"; "strides"; "padding"; "depth_multiplier"; "data_format"; "dilation_rate"; "depthwise_initializer"; "depthwise_regularizer"; "depthwise_constraint"; "trainable"] ->
       config_get (n_layer d) k = config_get (n_layer n) k) /\ config_get (n_layer d) "activation" = "linear" /\ config_get (n_layer d) "use_bias" = "False" /\
    (forall k, In k ["filters"; "data_format"; "dilation_rate"; "activation"; "use_bias"; "bias_initializer"; "bias_regularizer"; "activity_regularizer"; "bias_constraint"; "trainable"] ->
       config_get (n_layer c) k = config_get (n_layer n) k) /\
    (forall k, In k ["initializer"; "regularizer"; "constraint"] -> config_get (n_layer c) ("kernel_" ++ k)%string = config_get (n_layer n) ("pointwise_" ++ k)%string) /\
    config_get (n_layer c) "kernel_size" = "(1, 1)" /\ config_get (n_layer c) "strides" = "(1, 1)" /\ config_get (n_layer c) "padding" = "valid".
Proof. intros sch gen ik t T. destruct (names_of _ _ _ _ _ T) as (_ & _ & _ & _ & _ & _ & _ & N8 & _). rewrite (N8 eq_refl). intros. now apply sepconv_exact. Qed.
Print Assumptions C137_sepconv.
(** A SeparableConv1D layer becomes expand, SeparableConv2D, squeeze. *)
Theorem C137_sepconv1d : forall sch gen ik t, layout_transform sch gen ik "SeparableConv1DQuantize" t -> forall i n dw pw bias, unconfigured (n_meta n) -> sep_weights n dw pw bias -> config_get (n_layer n) "padding" <> "causal" ->
  exists sq c ex, t_repl t i n = Ok sq /\ n_inputs sq = [c] /\ n_inputs c = [ex] /\ n_inputs ex = [] /\
    lc_class (n_layer sq) = "Lambda" /\ n_name sq = gen "sepconv1d_squeeze" i /\ lc_class (n_layer ex) = "Lambda" /\ n_name ex = gen "sepconv1d_expand" i /\
    lc_class (n_layer c) = "SeparableConv2D" /\ n_name c = (n_name n ++ "_QAT_SepConv2D")%string /\
    new_meta (Some NoOpCfg) (n_meta sq) /\ new_meta None (n_meta c) /\ new_meta (Some NoOpCfg) (n_meta ex) /\ n_weights sq = [] /\ n_weights ex = [] /\
    exists dw' pw', lifted dw dw' /\ lifted pw pw' /\ n_weights c = ("depthwise_kernel:0", dw') :: ("pointwise_kernel:0", pw') :: match bias with Some b => [("bias:0", b)] | None => [] end.
Proof. intros sch gen ik t T. destruct (names_of _ _ _ _ _ T) as (_ & _ & _ & _ & _ & _ & N7 & _). rewrite (N7 eq_refl). intros. now apply sepconv1d_exact. Qed.
Print Assumptions C137_sepconv1d.
(** Causal padding is refused; a separable convolution with a config of its own is left alone. *)
Theorem C137_sepconv_refused : forall sch gen ik t t1, layout_transform sch gen ik "SeparableConvQuantize" t -> layout_transform sch gen ik "SeparableConv1DQuantize" t1 -> forall i n,
  (unconfigured (n_meta n) -> config_get (n_layer n) "padding" = "causal" -> t_repl t1 i n = Err ValueError) /\
  (~ unconfigured (n_meta n) -> t_repl t1 i n = Ok n /\ t_repl t i n = Ok n).
Proof.
  intros sch gen ik t t1 T T1. destruct (names_of _ _ _ _ _ T) as (_ & _ & _ & _ & _ & _ & _ & N8 & _). destruct (names_of _ _ _ _ _ T1) as (_ & _ & _ & _ & _ & _ & N7 & _).
  rewrite (N8 eq_refl), (N7 eq_refl). apply sepconv_refused.
Qed.
Print Assumptions C137_sepconv_refused.
(** A Concatenate of a quantized input, a Dense layer and a layer with a config of its own: all three stop quantizing their outputs. *)
Example C137_ex : let c n := [[mkConn n 0 0 []]] in
  exists t r, layout_transform EightBit (fun p _ => p) (fun _ => true) "ConcatTransform3Inputs" t /\
  t_repl t 0 (Node (mkLc "Concatenate" "cat" [] []) [] None (mkMeta (Some None) false)
    [Node (mkLc "QuantizeLayer" "q" [] (c "in")) [] None meta_empty []; Node (mkLc "Dense" "d" [] (c "in")) [] None (mkMeta (Some None) false) []; Node (mkLc "Custom" "u" [] (c "in")) [] None (mkMeta (Some (Some (UserCfg 3 false))) false) []]) = Ok r /\
  map n_meta (n_inputs r) = [mkMeta None true; mkMeta (Some (Some (RegistryCfg "Dense" true))) false; mkMeta (Some (Some (UserCfg 3 true))) false] /\
  n_meta r = mkMeta (Some (Some (OutputCfg false))) false.
Proof. do 2 eexists. split; [split; [right; right; right; right; right; right; right; right; right; right; right; right; left; reflexivity|reflexivity]|]. vm_compute. auto. Qed.
(** Whether a replacement counts as a change (see C135): in the 8-bit scheme any change of metadata does; in the n-bit scheme
    switching off the output quantization of a registry config does not. *)
Theorem C137_change_seen : forall ueq a b, (default_meq EightBit ueq a b = true <-> a = b /\ comparable ueq a) /\
  (default_meq NBit ueq a b = true <-> equal_but_switch a b /\ comparable ueq a).
Proof. exact meq_exact. Qed.
Print Assumptions C137_change_seen.
