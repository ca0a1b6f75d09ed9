(** Specification vocabulary for quantizers. *)
From Verif Require Import Base M_Tensor M_Quant.
Open Scope Q_scope.

(** Number of quantization levels. *)
Definition levels (bits : nat) (narrow : bool) : Z := (2 ^ Z.of_nat bits - (if narrow then 1 else 0))%Z.
(** The ranges stored by a quantizer. *)
Definition range_list (w : ranges) : list (Q * Q) := match w with Scalar a b => [(a, b)] | PerAxis l => l end.
(** A batch that TensorFlow can reduce: at least one element, as many as the shape says. *)
Definition batch (x : tensor Q) : Prop := wf x /\ data x <> [].
(** Exponential average with decay [d], started at [v]. *)
Fixpoint exp_average (d v : Q) (xs : list Q) : Q := match xs with [] => v | x :: r => exp_average d (d * v + (1 - d) * x) r end.
(** [m] is the smallest / largest of 0 and the values in [l]. *)
Definition is_min0 (l : list Q) (m : Q) : Prop := (m == 0 \/ exists v, In v l /\ m == v) /\ m <= 0 /\ forall v, In v l -> m <= v.
Definition is_max0 (l : list Q) (m : Q) : Prop := (m == 0 \/ exists v, In v l /\ m == v) /\ 0 <= m /\ forall v, In v l -> v <= m.
(** Batches of the training calls of a history. *)
Definition training_batches (calls : list (bool * tensor Q)) : list (tensor Q) := map snd (filter fst calls).
(** Two tensors agree on channel [c] of the last axis. *)
Definition agree_on_channel (c : nat) (x y : tensor Q) : Prop :=
  shape x = shape y /\ forall idx, valid (shape x) idx -> last idx 0%nat = c -> tget 0 x idx = tget 0 y idx.
(** Classes that keep one range per channel of the last axis when per_axis is set. *)
Definition per_axis_weights (c : lv_class) : bool := match c with CConvTransposeWeights => false | _ => true end.
(** num_bits argument of the constructor. *)
Definition bits_of (q : quantizer) : nat :=
  match q with LastValueQuantizer _ b _ _ _ | MovingAverageQuantizer b _ _ _ | AllValuesQuantizer b _ _ _ | FixedQuantizer b _ _ _ => b | NoQuantizer => 0%nat end.
Definition tracks_range (q : quantizer) : Prop := match q with FixedQuantizer _ _ _ _ | NoQuantizer => False | _ => True end.
(** per-channel quantization in effect. *)
Definition channelwise (q : quantizer) : bool := match q with LastValueQuantizer _ _ pa _ _ | MovingAverageQuantizer _ pa _ _ => pa | _ => false end.
(** Constructor arguments that the documentation allows, and shapes the class is for.  The two default_8bit classes take
    no arguments. *)
Definition well_used (q : quantizer) (shp : list nat) : Prop :=
  (length shp = 2 \/ length shp = 4)%nat /\
  match q with
  | LastValueQuantizer CLastValue b _ _ _ => (2 <= b <= 16)%nat
  | LastValueQuantizer CConvWeights _ _ _ _ => q = Default8BitConvWeightsQuantizer
  | LastValueQuantizer CConvTransposeWeights _ _ _ _ => q = Default8BitConvTransposeWeightsQuantizer /\ length shp = 4%nat
  | MovingAverageQuantizer b pa _ _ => (2 <= b <= 16)%nat /\ pa = false
  | AllValuesQuantizer b _ _ _ => (2 <= b <= 16)%nat
  | FixedQuantizer _ lo hi _ => lo < hi
  | NoQuantizer => True
  end.
(** The classes of quantizers.py (not the argument-less ones of default_8bit_quantizers.py). *)
Definition base_class (q : quantizer) : Prop := match q with LastValueQuantizer CConvWeights _ _ _ _ | LastValueQuantizer CConvTransposeWeights _ _ _ _ => False | _ => True end.
(** Equal keyword arguments. *)
Definition config_equiv (a b : qconfig) : Prop :=
  match a, b with
  | CfgRange n p s r, CfgRange n' p' s' r' => n = n' /\ p = p' /\ s = s' /\ r = r'
  | CfgFixed n lo hi r, CfgFixed n' lo' hi' r' => n = n' /\ lo == lo' /\ hi == hi' /\ r = r'
  | CfgEmpty, CfgEmpty => True
  | _, _ => False
  end.
