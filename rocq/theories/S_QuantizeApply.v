(** Specification vocabulary for quantize_apply. *)
From Coq Require Import String.
From Verif Require Import Base M_Tensor M_Transform M_Layout8 M_QuantizeApply S_Transform S_Layout8.
Open Scope string_scope.

(** An input to quantize_apply: layer names are distinct, a functional graph is well formed, weights belong to layers. *)
Record model_ok (m : amodel) : Prop := mkMOk {
  mo_graph : wf_model (am_kind m) (initial_state m);
  mo_weights : forall n, In n (map fst (am_weights m)) -> In n (map (fun p => lc_name (fst p)) (am_layers m)) }.
Definition layer_names_of (m : amodel) : list string := map (fun p => lc_name (fst p)) (am_layers m).
Definition annotated (m : amodel) (l : layerc) : Prop := exists c, In (l, Some c) (am_layers m).
(** The only layer feeding an annotated layer, itself not annotated. *)
Definition sole_producer (m : amodel) (n : string) : Prop :=
  exists l, annotated m l /\ inbound_of m l = [n] /\ (am_kind m = Functional -> List.length (lc_inbound l) = 1%nat) /\ ~ (exists p, annotated m p /\ lc_name p = n).
Definition q_layer (q : qlayer) : layerc := match q with Unwrapped l | Wrapped _ l _ | Quant l _ => l end.
(** Ordinary layers: those clone_model hands to the quantizing function and the layout transforms do not dissolve. *)
Definition ordinary (l : layerc) : Prop := lc_class l <> "InputLayer" /\ lc_class l <> "QuantizeLayer" /\ ~ sepconv (lc_class l).
(** [l'] is [l]: class, name, configuration up to the activation, and the weights it had (if Keras names its variables as before). *)
Definition carried_over (m : amodel) (st : state) (l l' : layerc) : Prop :=
  lc_class l' = lc_class l /\ lc_name l' = lc_name l /\ same_but_activation (lc_cfg l) (lc_cfg l') /\
  forall v fresh, assoc (lc_name l) (am_weights m) = Some v -> map fst fresh = map fst v -> final_weights st (lc_name l) fresh = Ok v.

(** Convolution -> batch normalization -> ReLU, all annotated without a config of their own, each reading only the one before,
    and nothing else reading (and the model not returning) the tensors in between. *)
Definition reads_only (l : layerc) (n : string) : Prop := exists c, lc_inbound l = [[c]] /\ c_name c = n.
Definition feeds_only (m : amodel) (n n' : string) : Prop :=
  (forall l a, In (l, a) (am_layers m) -> In n (inbound_layer_names l) -> lc_name l = n') /\ (forall c, In c (am_outputs m) -> c_name c <> n).
Definition linear_conv (l : layerc) : Prop :=
  In (lc_class l) ["Conv2D"; "DepthwiseConv2D"; "Conv2DTranspose"] /\ assoc "activation" (lc_cfg l) = Some "linear" /\ (List.length (lc_inbound l) <= 1)%nat.
Definition batch_norm (l : layerc) : Prop := In (lc_class l) ["BatchNormalization"; "SyncBatchNormalization"].
Definition relu_layer (l : layerc) : Prop := lc_class l = "ReLU" \/ lc_class l = "Activation" /\ assoc "activation" (lc_cfg l) = Some "relu".
Record conv_bn_relu (m : amodel) (conv bn relu : layerc) : Prop := mkCBR {
  cbr_kind : am_kind m = Functional;
  cbr_annotated : In (conv, Some None) (am_layers m) /\ In (bn, Some None) (am_layers m) /\ In (relu, Some None) (am_layers m);
  cbr_classes : linear_conv conv /\ batch_norm bn /\ relu_layer relu;
  cbr_reads : reads_only bn (lc_name conv) /\ reads_only relu (lc_name bn);
  cbr_feeds : feeds_only m (lc_name conv) (lc_name bn) /\ feeds_only m (lc_name bn) (lc_name relu) }.
