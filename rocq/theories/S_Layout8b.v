(** What the default layout transforms do to the layers they match. *)
From Coq Require Import String.
From Verif Require Import Base M_Tensor M_Transform M_Layout8 S_Transform S_Layout8.
Open Scope string_scope.
Open Scope list_scope.

(** The layer's metadata name a quantize config / none. *)
Definition configured (m : meta) (c : qcfg) : Prop := m_cfg m = Some (Some c).
Definition unconfigured (m : meta) : Prop := forall c, ~ configured m c.
(** [m'] is [m] with the quantize config [c]. *)
Definition with_config (c : qcfg) (m m' : meta) : Prop := configured m' c /\ m_noquant m' = m_noquant m.
(** Same layer, same weights, same metadata; the activation is now a no-op. *)
Definition activation_removed (n n' : node) : Prop :=
  lc_class (n_layer n') = lc_class (n_layer n) /\ n_name n' = n_name n /\ lc_inbound (n_layer n') = lc_inbound (n_layer n) /\
  (forall k, k <> "activation" -> assoc k (lc_cfg (n_layer n')) = assoc k (lc_cfg (n_layer n))) /\ assoc "activation" (lc_cfg (n_layer n')) = Some "NoOpActivation" /\
  n_weights n' = n_weights n /\ n_nw n' = n_nw n /\ n_meta n' = n_meta n /\ n_inputs n' = n_inputs n.
(** Same layer and weights. *)
Definition same_layer (n n' : node) : Prop := n_layer n' = n_layer n /\ n_weights n' = n_weights n /\ n_nw n' = n_nw n.
(** Output quantization of a config switched off. *)
Inductive output_off : qcfg -> qcfg -> Prop :=
| off_user : forall i d, output_off (UserCfg i d) (UserCfg i true)
| off_noop : output_off NoOpCfg NoOpCfg
| off_output : forall d, output_off (OutputCfg d) (OutputCfg true)
| off_registry : forall c d, output_off (RegistryCfg c d) (RegistryCfg c true).
(** Layers ConcatTransform can deal with when they have no config: nested Concatenate, (8-bit only) QuantizeLayer, and the Keras
    classes in the registry. *)
Definition is_quantize_layer (sch : scheme) (n : node) : Prop := sch = EightBit /\ lc_class (n_layer n) = "QuantizeLayer".
Definition concat_accepts (sch : scheme) (is_keras : string -> bool) (n : node) : Prop :=
  (exists c, configured (n_meta n) c) \/ is_quantize_layer sch n \/
  (is_keras (lc_class (n_layer n)) = true /\ (lc_class (n_layer n) = "Concatenate" \/ In (lc_class (n_layer n)) supported_classes)).
(** A feeder of a Concatenate layer before and after: its own output is no longer quantized. *)
Definition fed_off (sch : scheme) (n n' : node) : Prop :=
  same_layer n n' /\ n_inputs n' = n_inputs n /\
  ((exists c c', configured (n_meta n) c /\ output_off c c' /\ with_config c' (n_meta n) (n_meta n')) \/
   (unconfigured (n_meta n) /\
      ((lc_class (n_layer n) = "Concatenate" /\ with_config NoOpCfg (n_meta n) (n_meta n')) \/
       (is_quantize_layer sch n /\ n_meta n' = mkMeta (m_cfg (n_meta n)) true) \/
       (lc_class (n_layer n) <> "Concatenate" /\ ~ is_quantize_layer sch n /\ with_config (RegistryCfg (lc_class (n_layer n)) true) (n_meta n) (n_meta n'))))).
(** ... and when the transform gives up: nothing is switched off, except the quantizers of QuantizeLayers it has already passed. *)
Definition fed_kept (sch : scheme) (n n' : node) : Prop :=
  n' = n \/ (same_layer n n' /\ n_inputs n' = n_inputs n /\ unconfigured (n_meta n) /\
     ((lc_class (n_layer n) = "Concatenate" /\ with_config NoOpCfg (n_meta n) (n_meta n')) \/
      (is_quantize_layer sch n /\ n_meta n' = mkMeta (m_cfg (n_meta n)) true) \/
      with_config (RegistryCfg (lc_class (n_layer n)) false) (n_meta n) (n_meta n'))).

(** The transform of this name in the scheme's list. *)
Definition layout_transform (sch : scheme) gen is_keras (name : string) (t : transform) : Prop :=
  In t (layout_transforms sch gen is_keras) /\ t_name t = name.
(** The weights of a separable convolution: depthwise kernel, pointwise kernel and, if it uses one, the bias. *)
Definition sep_weights (n : node) (dw pw : tensor Q) (bias : option (tensor Q)) : Prop :=
  map snd (n_weights n) = [dw; pw] ++ match bias with Some b => [b] | None => [] end /\
  (bias <> None <-> config_get (n_layer n) "use_bias" = "True").
(** The same values with a leading dimension 1. *)
Definition lifted (a b : tensor Q) : Prop := shape b = 1%nat :: shape a /\ data b = data a.
(** A new layer: the library's choice of quantization ([None]) or the given config. *)
Definition new_meta (c : option qcfg) (m : meta) : Prop := m = mkMeta (Some c) false.
(** Configs whose copies compare equal: the registry's (except Activation's), and the user's if their class defines equality. *)
Definition comparable (ueq : bool) (m : meta) : Prop :=
  unconfigured m \/ (ueq = true /\ exists i d, configured m (UserCfg i d)) \/ exists c d, c <> "Activation" /\ configured m (RegistryCfg c d).
(** Equal, except possibly for switched-off output quantization of a registry config. *)
Definition equal_but_switch (a b : meta) : Prop :=
  a = b \/ (m_noquant a = m_noquant b /\ exists c d e, configured a (RegistryCfg c d) /\ configured b (RegistryCfg c e)).
