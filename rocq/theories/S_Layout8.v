(** Specification vocabulary for the default 8-bit layout transforms. *)
From Coq Require Import String.
From Verif Require Import Base M_Tensor M_Transform M_Layout8 S_Transform.
Open Scope string_scope.

(** Configuration [c'] is [c], except possibly that 'activation' has become NoOpActivation. *)
Definition same_but_activation (c c' : list (string * string)) : Prop :=
  (forall k, k <> "activation" -> assoc k c' = assoc k c) /\
  (assoc "activation" c' = assoc "activation" c \/ assoc "activation" c' = Some "NoOpActivation").
(** Two trees of layers of the same shape whose layers have, position by position, the same class, name, connections and
    weights, configurations equal up to the activation, and metadata related by [R]. *)
Inductive sim (R : layerc -> meta -> meta -> Prop) : node -> node -> Prop :=
| sim_node : forall l w nw m ins l' m' ins', lc_class l' = lc_class l -> lc_name l' = lc_name l -> lc_inbound l' = lc_inbound l ->
    same_but_activation (lc_cfg l) (lc_cfg l') -> R l m m' -> Forall2 (sim R) ins ins' -> sim R (Node l w nw m ins) (Node l' w nw m' ins').

(** The names the transforms invent are new: the naming service never returns the same name twice, no layer of the model has
    one of its names, nor a name ending in "_QAT_SepConv2D". *)
Record fresh_naming (gen : string -> nat -> string) (names0 : list string) : Prop := mkFresh {
  fn_inj : forall p i q j, gen p i = gen q j -> p = q /\ i = j;
  fn_new : forall p i, ~ In (gen p i) names0;
  fn_qat : forall x, ~ In (x ++ "_QAT_SepConv2D") names0;
  fn_diff : forall p i x, gen p i <> x ++ "_QAT_SepConv2D" }.
(** Well-formed input model. *)
Definition wf_model (k : mkind) (st : state) : Prop := match k with Functional => wf_graph st | Sequential => NoDup (names st) end.
(** Classes the ReLU transforms accept in front of a ReLU. *)
Definition relu_feeder (c : string) : bool := match_pattern c "Add|Conv2D|DepthwiseConv2D|Dense".
(** No config, or the registry's config for this very class (possibly with output quantization switched off). *)
Definition own_config (l : layerc) (off : Prop) (c : option qcfg) : Prop :=
  c = None \/ c = Some (RegistryCfg (lc_class l) false) \/ (off /\ c = Some (RegistryCfg (lc_class l) true)).
(** What can become of a layer's metadata.  [NC]: no Concatenate layer, [NR]: no ReLU or Activation layer is a candidate. *)
Record meta_after (NC NR : Prop) (l : layerc) (a b : meta) : Prop := mkMA {
  (** it stays quantized; *)
  ma_some : m_cfg a <> None -> m_cfg b <> None;
  (** a user's config stays, except that ReLU transforms overwrite it and Concatenate transforms switch its output off; *)
  ma_user : forall i d, meta_config a = Some (UserCfg i d) -> relu_feeder (lc_class l) = false \/ NR ->
     exists d', meta_config b = Some (UserCfg i d') /\ (d' = d \/ (d' = true /\ ~ NC));
  (** a user's config is never given to another layer, nor a registry config to a layer of another class, or without a candidate Concatenate; *)
  ma_src : forall c, meta_config b = Some c ->
     match c with
     | UserCfg i _ => exists d, meta_config a = Some (UserCfg i d)
     | RegistryCfg s _ => (s = lc_class l /\ ~ NC) \/ exists d, meta_config a = Some (RegistryCfg s d)
     | _ => True end;
  (** classes without a registry entry get no config, unless they are BatchNormalization or feed a ReLU; *)
  ma_unsupported : meta_config a = None -> is_supported_class (lc_class l) = false -> match_pattern (lc_class l) BN = false -> relu_feeder (lc_class l) = false -> meta_config b = None;
  (** no other class than BatchNormalization, Concatenate and feeders of a ReLU loses its registry config. *)
  ma_own : own_config l (~ NC) (meta_config a) -> match_pattern (lc_class l) BN = false -> lc_class l <> "Concatenate" -> relu_feeder (lc_class l) = false \/ NR ->
     own_config l (~ NC) (meta_config b);
  (** without a candidate Concatenate the others are left without a config. *)
  ma_plain : NC -> meta_config a = None -> match_pattern (lc_class l) BN = false -> lc_class l <> "Concatenate" -> relu_feeder (lc_class l) = false \/ NR -> meta_config b = None;
  (** a chosen config may be replaced but not dropped. *)
  ma_keep : meta_config a <> None -> meta_config b <> None }.
Definition sepconv (c : string) : Prop := c = "SeparableConv1D" \/ c = "SeparableConv2D".
(** Layer [l] of the original model [st0] is still there in [st]: class, name, weights; configuration up to the activation. *)
Definition still_there (st0 st : state) (l l' : layerc) : Prop :=
  In l' (s_layers st) /\ lc_class l' = lc_class l /\ lc_name l' = lc_name l /\ same_but_activation (lc_cfg l) (lc_cfg l') /\
  get_weights st (lc_name l) = get_weights st0 (lc_name l) /\ get_nw st (lc_name l) = get_nw st0 (lc_name l).
