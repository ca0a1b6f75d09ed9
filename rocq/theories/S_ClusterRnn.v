(** Specification vocabulary for clustering RNN layers. *)
From Coq Require Import String.
From Verif Require Import Base M_Tensor M_Num M_Cluster M_ClusterWrapper M_Compat M_ClusterRnn S_Cluster S_ClusterWrapper.
Open Scope string_scope.
Open Scope list_scope.
Open Scope nat_scope.

(** [has_cell h l i c]: [c] is the [i]-th cell the layer runs. *)
Inductive has_cell (h : heap) : rlayer -> nat -> nat -> Prop :=
| hc_single b c : (forall cs, c_class (h c) <> StackedRNNCells cs) -> has_cell h (RnnLayer b c) 0 c
| hc_stacked b c cs i d : c_class (h c) = StackedRNNCells cs -> nth_error cs i = Some d -> has_cell h (RnnLayer b c) i d
| hc_forward f b : has_cell h (Bidirectional f b) 0 f
| hc_backward f b : has_cell h (Bidirectional f b) 1 b.
(** No cell object occurs twice. *)
Definition distinct_cells (h : heap) (l : rlayer) : Prop := forall i j c, has_cell h l i c -> has_cell h l j c -> i = j.

(** The two matrices of a cell that clustering is about. *)
Inductive clusterable_attr : string -> Prop := ca_kernel : clusterable_attr "kernel" | ca_recurrent : clusterable_attr "recurrent_kernel".
(** The name under which a weight of the [i]-th cell is registered. *)
Definition indexed (a : string) (i : nat) : string := (a ++ "/" ++ py_str i)%string.
(** The layer is one of the library's own kinds (not a user's ClusterableLayer, which lists its own names). *)
Definition library_layer (l : rlayer) : Prop := forall c ws, l <> UserRnn c ws.

(** A built Keras cell: kernel, recurrent kernel and perhaps a bias. *)
Definition keras_cell (h : heap) (c k r : nat) (bias : list nat) : Prop :=
  (c_class (h c) = LSTMCell \/ c_class (h c) = GRUCell \/ c_class (h c) = SimpleRNNCell) /\ List.length bias <= 1 /\
  c_attrs (h c) = ("kernel", Var k) :: ("recurrent_kernel", Var r) :: map (fun b => ("bias", Var b)) bias.
(** A built Keras RNN (single cell or a stack of cells) or Bidirectional layer all of whose cells are built Keras cells
    with variables of their own. *)
Definition keras_layer (h : heap) (l : rlayer) : Prop :=
  ((exists c, l = RnnLayer true c) \/ (exists f b, l = Bidirectional f b)) /\
  (forall i c, has_cell h l i c -> exists k r bias, keras_cell h c k r bias) /\
  (forall i j c d p q a b v, has_cell h l i c -> has_cell h l j d -> nth_error (c_attrs (h c)) p = Some (a, Var v) ->
     nth_error (c_attrs (h d)) q = Some (b, Var v) -> i = j /\ p = q).
(** The tensor that a cell computes with when it reads its attribute [a]. *)
Definition cell_uses (s : rwrapper) (c : nat) (a : string) (t : tensor Q) : Prop :=
  exists x, get_attr (c_attrs (r_heap s c)) a = Ok x /\ t = read (var_value (r_w s)) x.
(** [t] is the clustering of the current value of variable [v]: every entry is the nearest of at most number_of_clusters
    centroids, the same centroids for the whole tensor (entries above -1000000: C26). *)
Definition clusters_of (cfg : ccfg) (s : rwrapper) (v : nat) (t : tensor Q) : Prop :=
  let w := var_value (r_w s) v in
  wf t /\ shape t = shape w /\ exists cs, (Z.of_nat (List.length cs) <= number_of_clusters cfg)%Z /\
    forall idx, valid (shape t) idx -> (-1000000 < tget 0 w idx)%Q ->
      exists o, (o == tget 0 w idx \/ (preserve_sparsity cfg = true /\ o == 0))%Q /\ nearest_centroid cs o (tget 0%Q t idx).
