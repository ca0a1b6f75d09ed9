(** Specification vocabulary for prune- and cluster-preserving quantization. *)
From Coq Require Import String.
From Verif Require Import Base M_Tensor M_Num M_Cluster S_Cluster M_ClusterWrapper S_ClusterWrapper M_Transform M_Layout8 M_QuantizeApply S_Transform S_Layout8 S_QuantizeApply M_Quant M_Preserve.
Open Scope Q_scope.

(** A kernel as Keras creates it: two axes for Dense, four for Conv2D, as many entries as the shape says, not empty. *)
Definition kernel (k : kclass) (w : tensor Q) : Prop :=
  wf w /\ data w <> [] /\ length (shape w) = match k with KDense => 2%nat | KConv2D => 4%nat end.
(** [y] is zero wherever [w] is. *)
Definition zeros_kept (w y : tensor Q) : Prop :=
  shape y = shape w /\ forall idx, valid (shape w) idx -> tget 0 w idx == 0 -> tget 0 y idx == 0.
(** Updates keep the shape. *)
Definition like (w x : tensor Q) : Prop := wf x /\ shape x = shape w.
Definition cp_fits (w0 : tensor Q) (v0 : cpvars) (e : cpevent) : Prop :=
  match e with
  | Pass _ => True
  | Assign kernel orig cents => like w0 kernel /\ like w0 orig /\
      match cp_cluster v0 with Some c => same_form (cc_cents c) cents | None => True end
  end.
(** Exactly [n] different values. *)
Definition exactly_distinct (n : nat) (l : list Q) : Prop := at_most_distinct n l /\ forall m, at_most_distinct m l -> (n <= m)%nat.
(** Number of output channels of a Conv2D kernel. *)
Definition filters (w : tensor Q) : nat := nth 3 (shape w) 0%nat.
(** The numbers of different values of any two output channels differ by at most one. *)
Definition evenly_clustered (w : tensor Q) : Prop :=
  exists m, forall c, (c < filters w)%nat -> exactly_distinct m (output_channel_values w c) \/ exactly_distinct (S m) (output_channel_values w c).
(** Any bound on the number of different values of the whole kernel / of every output channel carries over. *)
Definition whole_preserved (w y : tensor Q) : Prop := forall n, at_most_distinct n (data w) -> at_most_distinct n (data y).
Definition channels_preserved (w y : tensor Q) : Prop := forall n,
  (forall c, (c < filters w)%nat -> at_most_distinct n (output_channel_values w c)) ->
  forall c, (c < filters w)%nat -> at_most_distinct n (output_channel_values y c).
(** All entries are above the constant that the straight-through trick of the clustering algorithm adds (C26). *)
Definition in_range (t : tensor Q) : Prop := forall x, In x (data t) -> -1000000 < x.

(** The channel axis is the last one (every Dense kernel; Conv2D with data_format channels_last). *)
Definition regular (k : kclass) (df : data_format) : Prop := k = KDense \/ df = ChannelsLast.
(** The weight quantizers of the default 8-bit registry (default_8bit_quantize_registry.py:78-100, 301-320): per-tensor for Dense, per-channel for
    Conv2D, both 8 bits, symmetric and narrow range. *)
Definition default_weights_quantizer (k : kclass) : quantizer :=
  match k with KDense => LastValueQuantizer CLastValue 8 false true true | KConv2D => Default8BitConvWeightsQuantizer end.
(** Same values everywhere. *)
Definition same_values (w y : tensor Q) : Prop := shape y = shape w /\ forall idx, valid (shape w) idx -> tget 0 y idx == tget 0 w idx.
(** Every output channel has a zero. *)
Definition channel_zeros (w : tensor Q) : Prop := forall c, (c < filters w)%nat -> exists x, In x (output_channel_values w c) /\ x == 0.

(** Forget which quantizer the weights got: the result of the default scheme with the same configs. *)
Definition forget (p : plres) : qlayer :=
  match p with PUnwrapped l => Unwrapped l | PWrapped n l (Plain c) | PWrapped n l (Preserving c) => Wrapped n l c | PQuant l b => Quant l b end.
Definition p_layer (p : plres) : layerc := q_layer (forget p).
(** The preserving schemes leave a layer that only has to be quantized at its output unwrapped if it has trainable weights and
    is none of the classes they know. *)
Definition same_but_output (trainable : string -> bool) (p : plres) (q : qlayer) : Prop :=
  forget p = q \/ exists n l u, q = Wrapped n l (OutputOnly u) /\ p = PUnwrapped l /\ trainable (lc_name l) = true /\ ~ In (lc_class l) preserved_classes.
