(** prune_low_magnitude / strip_pruning over nested models, the prune registry, the wrapper's configuration and the
    XNNPack pruning policy.  Sources: sparsity/keras/prune.py, prune_registry.py, pruning_wrapper.py,
    pruning_policy.py. *)
From Verif Require Import Base M_Tensor M_Mask M_Schedule.
From Coq Require Import String.
Open Scope string_scope.
Open Scope nat_scope.

(** ** Layers *)
(** A keras layer as pruning sees it: identity, class name, whether it is a PrunableLayer or has a user defined
    get_prunable_weights (pruning_wrapper.py:182-183), the cells of an RNN layer (class name, is PrunableLayer;
    prune_registry.py:174-178) and its named weights.  Simplification: attribute paths of weights are flat names. *)
Record klayer := mkK {
  k_id : nat; k_class : string; k_prunable : bool; k_cells : list (string * bool);
  k_weights : list (string * tensor Q) }.

(** prune_registry.py:48-119 [_LAYERS_WEIGHTS_MAP] (the optional entries of lines 121-132 included). *)
Definition none (l : list string) : list (string * list string) := map (fun s => (s, [])) l.
Definition layers_weights_map : list (string * list string) :=
  (none ["ELU"; "LeakyReLU"; "ReLU"; "Softmax"; "ThresholdedReLU"] ++
  [("Conv1D", ["kernel"]); ("Conv2D", ["kernel"]); ("Conv2DTranspose", ["kernel"]); ("Conv3D", ["kernel"]);
   ("Conv3DTranspose", ["kernel"])] ++
  none ["Cropping1D"; "Cropping2D"; "Cropping3D"; "DepthwiseConv2D"] ++
  [("SeparableConv1D", ["pointwise_kernel"]); ("SeparableConv2D", ["pointwise_kernel"])] ++
  none ["UpSampling1D"; "UpSampling2D"; "UpSampling3D"; "ZeroPadding1D"; "ZeroPadding2D"; "ZeroPadding3D";
        "Activation"; "ActivityRegularization"] ++
  [("Dense", ["kernel"])] ++
  none ["Dropout"; "Flatten"; "Lambda"; "Masking"; "Permute"; "RepeatVector"; "Reshape"; "SpatialDropout1D";
        "SpatialDropout2D"; "SpatialDropout3D"] ++
  [("Embedding", ["embeddings"]); ("LocallyConnected1D", ["kernel"]); ("LocallyConnected2D", ["kernel"])] ++
  none ["Add"; "Average"; "Concatenate"; "Dot"; "Maximum"; "Minimum"; "Multiply"; "Subtract"; "AlphaDropout";
        "GaussianDropout"; "GaussianNoise"; "BatchNormalization"; "LayerNormalization"; "AveragePooling1D";
        "AveragePooling2D"; "AveragePooling3D"; "GlobalAveragePooling1D"; "GlobalAveragePooling2D";
        "GlobalAveragePooling3D"; "GlobalMaxPooling1D"; "GlobalMaxPooling2D"; "GlobalMaxPooling3D"; "MaxPooling1D";
        "MaxPooling2D"; "MaxPooling3D"] ++
  [("MultiHeadAttention", ["_query_dense.kernel"; "_key_dense.kernel"; "_value_dense.kernel";
                           "_output_dense.kernel"])] ++
  none ["SyncBatchNormalization"; "Rescaling"; "TensorFlowOpLayer"])%list.

(** prune_registry.py:134-143 and 145-150. *)
Definition rnn_cells_weights_map : list (string * list string) :=
  [("GRUCell", ["kernel"; "recurrent_kernel"]); ("LSTMCell", ["kernel"; "recurrent_kernel"]);
   ("SimpleRNNCell", ["kernel"; "recurrent_kernel"])].
Definition rnn_layers : list string := ["GRU"; "LSTM"; "RNN"; "SimpleRNN"].

Fixpoint assoc {A} (k : string) (l : list (string * A)) : option A :=
  match l with [] => None | (s, a) :: r => if String.eqb s k then Some a else assoc k r end.

(** prune_registry.py:158-179 [supports]. *)
Definition registry_supports (l : klayer) : bool :=
  match assoc (k_class l) layers_weights_map with
  | Some _ => true
  | None => if existsb (String.eqb (k_class l)) rnn_layers
            then forallb (fun c => match assoc (fst c) rnn_cells_weights_map with Some _ => true | None => snd c end)
                         (k_cells l)
            else false
  end.

(** prune_registry.py:202-254 [make_prunable]: the names of the weights get_prunable_weights returns, for built-in
    layers.  A built-in RNN cell's weights are named "<cell index>.<name>"; cells that are PrunableLayers answer for
    themselves (not modelled: no names). *)
Definition cell_name (i : nat) (n : string) : string := String (Ascii.ascii_of_nat (48 + i)) ("." ++ n).
Definition prunable_names (l : klayer) : res (list string) :=
  if negb (registry_supports l) then Err ValueError
  else if existsb (String.eqb (k_class l)) rnn_layers then
    Ok (List.concat (map (fun ic => match assoc (fst (snd ic)) rnn_cells_weights_map with
                               | Some ns => map (cell_name (fst ic)) ns
                               | None => [] end)
                    (combine (seq 0 (List.length (k_cells l))) (k_cells l))))
  else match assoc (k_class l) layers_weights_map with Some ns => Ok ns | None => Err KeyError end.

(** ** Wrapper parameters and constructor *)
(** The value passed as sparsity_m_by_n: anything; only what convert_to_tuple_of_two_int looks at. *)
Inductive pyval := PyNone | PyInt (z : Z) | PyOther | PySeq (l : list pyval).
(** Python truthiness, for pruning_wrapper.py:154 [if sparsity_m_by_n]. *)
Definition truthy (v : pyval) : bool :=
  match v with PyNone => false | PyInt z => negb (z =? 0)%Z | PyOther => true | PySeq l => match l with [] => false | _ => true end end.
(** pruning_utils.py:162-190 [convert_to_tuple_of_two_int]. *)
Definition convert_to_tuple_of_two_int (v : pyval) : res (Z * Z) :=
  match v with
  | PySeq [PyInt a; PyInt b] => Ok (a, b)
  | _ => Err ValueError
  end.

Record pconf := mkC { c_sched : schedule; c_block : list nat; c_pool : string; c_mbyn : option (Z * Z) }.
(** An object of class PruneLowMagnitude. *)
Record pwrap := mkW { w_conf : pconf; w_layer : klayer }.
Record pargs := mkA { a_sched : schedule; a_block : list nat; a_pool : string; a_mbyn : pyval }.

(** pruning_wrapper.py:124-225 [PruneLowMagnitude.__init__] on a keras layer that is not itself a wrapper. *)
Definition mk_wrapper (a : pargs) (l : klayer) : res pwrap :=
  do mn <- (if truthy (a_mbyn a) then do t <- convert_to_tuple_of_two_int (a_mbyn a) ;; Ok (Some t) else Ok None) ;;
  if negb (String.eqb (a_pool a) "AVG" || String.eqb (a_pool a) "MAX") then Err ValueError
  else if k_prunable l || registry_supports l
  then Ok (mkW (mkC (a_sched a) (a_block a) (a_pool a) mn) l)
  else Err ValueError.

(** pruning_wrapper.py:338-345 [get_config] (the wrapper's own entries; the layer is serialized with it). *)
Definition wrapper_config : Type := (sched_config * list nat * string * klayer)%type.
Definition wrapper_get_config (w : pwrap) : wrapper_config :=
  (schedule_get_config (c_sched (w_conf w)), c_block (w_conf w), c_pool (w_conf w), w_layer w).
(** pruning_wrapper.py:347-367 [from_config]; sparsity_m_by_n is left to the constructor's default None (line 129). *)
Definition wrapper_from_config (c : wrapper_config) : res pwrap :=
  let '(sc, b, p, l) := c in
  do s <- schedule_from_config sc ;;
  mk_wrapper (mkA s b p PyNone) l.

(** ** Models *)
Inductive mkind := Sequential | Functional | Subclassed.
(** A keras object: plain layer, pruning wrapper, input layer, or a model of layers.  The connectivity of a functional
    model is kept by clone_model and represented by an opaque graph id (simplification). *)
Inductive kobj :=
| OLayer (l : klayer)
| OWrap (w : pwrap)
| OInput (id : nat)
| OModel (k : mkind) (graph : nat) (children : list kobj).

(** keras.models.clone_model(m, clone_function=f): input layers are re-created, f is applied to every other layer,
    in order; subclassed models are rejected. *)
Section Clone.
  Variable f : kobj -> res kobj.
  Fixpoint clone_layers (l : list kobj) : res (list kobj) :=
    match l with
    | [] => Ok []
    | OInput i :: r => do r' <- clone_layers r ;; Ok (OInput i :: r')
    | o :: r => do o' <- f o ;; do r' <- clone_layers r ;; Ok (o' :: r')
    end.
End Clone.

(** prune.py:175-189 [_add_pruning_wrapper]; the recursion through clone_model made explicit. *)
Fixpoint add_pruning_wrapper (a : pargs) (policy : option (kobj -> bool)) (o : kobj) : res kobj :=
  match o with
  | OModel Subclassed _ _ => Err ValueError
  | OModel k g ch => do ch' <- clone_layers (add_pruning_wrapper a policy) ch ;; Ok (OModel k g ch')
  | OWrap w => Ok (OWrap w)
  | OInput i => Ok (OInput i)
  | OLayer l =>
      match policy with
      | Some p => if p (OLayer l) then do w <- mk_wrapper a l ;; Ok (OWrap w) else Ok (OLayer l)
      | None => do w <- mk_wrapper a l ;; Ok (OWrap w)
      end
  end.

(** prune.py:157-173 [_prune_list].  Nested models in a list reach the wrapper's constructor, whose registry check
    rejects their class. *)
Definition prune_one (a : pargs) (o : kobj) : res kobj :=
  match o with
  | OWrap w => Ok (OWrap w)
  | OInput i => Ok (OInput i)
  | OLayer l => do w <- mk_wrapper a l ;; Ok (OWrap w)
  | OModel _ _ _ => Err ValueError
  end.

(** The argument of prune_low_magnitude. *)
Inductive to_prune := TPList (l : list kobj) | TPObj (o : kobj).
Inductive pruned := PList (l : list kobj) | PObj (o : kobj).

(** prune.py:191-221 [prune_low_magnitude].  [policy] is allow_pruning, [ensure] is ensure_model_supports_pruning.  An
    input layer or a wrapper passed on its own reaches the wrapper's constructor and is rejected: neither is in the
    registry nor has get_prunable_weights. *)
Definition prune_low_magnitude (a : pargs) (policy : option (kobj -> bool)) (ensure : kobj -> res unit)
    (x : to_prune) : res pruned :=
  match x with
  | TPList l => do l' <- mapM (prune_one a) l ;; Ok (PList l')
  | TPObj (OModel Subclassed _ _) => Err ValueError
  | TPObj (OModel k g ch) =>
      do _ <- (match policy with Some _ => ensure (OModel k g ch) | None => Ok tt end) ;;
      do o <- add_pruning_wrapper a policy (OModel k g ch) ;; Ok (PObj o)
  | TPObj (OLayer l) => do w <- mk_wrapper a l ;; Ok (PObj (OWrap w))
  | TPObj (OWrap _) => Err ValueError
  | TPObj (OInput _) => Err ValueError
  end.

(** prune.py:257-273 [_strip_pruning_wrapper]. *)
Fixpoint strip_wrapper (o : kobj) : res kobj :=
  match o with
  | OModel Subclassed _ _ => Err ValueError
  | OModel k g ch => do ch' <- clone_layers strip_wrapper ch ;; Ok (OModel k g ch')
  | OWrap w => Ok (OLayer (w_layer w))
  | OLayer l => Ok (OLayer l)
  | OInput i => Ok (OInput i)
  end.
(** prune.py:224-275 [strip_pruning]. *)
Definition strip_pruning (o : kobj) : res kobj :=
  match o with OModel _ _ _ => strip_wrapper o | _ => Err ValueError end.

(** pruning_wrapper.py:400-410 [collect_prunable_layers]. *)
Fixpoint collect (o : kobj) : list pwrap :=
  match o with
  | OModel _ _ ch => flat_map collect ch
  | OWrap w => [w]
  | _ => []
  end.

(** ** PruneForLatencyOnXNNPack *)
(** pruning_policy.py:122-140 [_lookup_layers] over nodes named by numbers.  set.pop takes an arbitrary element:
    [pick] chooses it.  [stop] may raise (visit_fn, lines 284-290).  None: out of fuel. *)
Fixpoint remove_nth {A} (n : nat) (l : list A) : list A :=
  match l, n with [], _ => [] | _ :: r, 0 => r | a :: r, S k => a :: remove_nth k r end.
Definition mem (x : nat) (l : list nat) : bool := existsb (Nat.eqb x) l.
Section Lookup.
  Variable pick : list nat -> nat.      (* which position pop() removes *)
  Variable stop : nat -> res bool.
  Variable next : nat -> list nat.
  (** lines 135-138: add the new consumers *)
  Fixpoint add_new (ns tv used : list nat) : list nat * list nat :=
    match ns with
    | [] => (tv, used)
    | n :: r => if mem n used then add_new r tv used else add_new r (n :: tv) (n :: used)
    end.
  Fixpoint lookup_loop (fuel : nat) (tv used found : list nat) : option (res (list nat)) :=
    match tv with
    | [] => Some (Ok found)
    | _ =>
      match fuel with
      | 0 => None
      | S k =>
        let i := pick tv mod List.length tv in
        let layer := nth i tv 0 in
        let tv' := remove_nth i tv in
        match stop layer with
        | Err e => Some (Err e)
        | Ok true => lookup_loop k tv' used (layer :: found)
        | Ok false =>
            match next layer with
            | [] => Some (Ok [])
            | ns => let '(tv2, used2) := add_new ns tv' used in lookup_loop k tv2 used2 found
            end
        end
      end
    end.
  Definition lookup_layers (fuel : nat) (sources : list nat) : option (res (list nat)) :=
    let s := nodup Nat.eq_dec sources in lookup_loop fuel s s [].
End Lookup.

(** pruning_policy.py:235-297 [ensure_model_supports_pruning] on a built graph model; [fuel] any number >= the number
    of nodes. *)
Definition ensure_supports (pick : list nat -> nat) (fuel : nat) (is_start is_end supported : nat -> bool)
    (consumers producers : nat -> list nat) (inputs outputs : list nat) : option (res unit) :=
  match lookup_layers pick (fun n => Ok (is_start n)) consumers fuel inputs with
  | None => None | Some (Err e) => Some (Err e)
  | Some (Ok []) => Some (Err ValueError)
  | Some (Ok starts) =>
    match lookup_layers pick (fun n => Ok (is_end n)) producers fuel outputs with
    | None => None | Some (Err e) => Some (Err e)
    | Some (Ok []) => Some (Err ValueError)
    | Some (Ok ends) =>
        let visit n := if negb (mem n ends) && negb (supported n) then Err ValueError else Ok (mem n ends) in
        match lookup_layers pick visit consumers fuel (flat_map consumers starts) with
        | None => None | Some (Err e) => Some (Err e)
        | Some (Ok _) => Some (Ok tt)
        end
    end
  end.
