(** Model of clustering/keras/cluster_wrapper.py (ClusterWeights, ClusterWeightsMHA.strip_clustering) and cluster.py. *)
From Coq Require Import String.
From Verif Require Import Base M_Tensor M_Num M_Cluster.
Open Scope Q_scope.

(** ** The wrapper *)
(** The validated constructor arguments (cluster_wrapper.py:98-118, 152-157): [cluster_per_channel] is already the
    effective flag. *)
Record ccfg := mkCfg { number_of_clusters : Z; cluster_centroids_init : initialiser; preserve_sparsity : bool;
  cluster_per_channel : bool; gradient_aggregation : aggregation; data_format_of : data_format }.

(** Everything the wrapper keeps per clusterable weight (dicts of cluster_wrapper.py:124-144; the weight name is
    represented by the identity of the variable).  [cv_attr] is the tensor the layer attribute has been replaced with
    by set_weight_to_layer ([None]: still the variable). *)
Record cvar := mkCV { cv_name : nat; cv_pos : nat; cv_orig : tensor Q; cv_cents : centroids; cv_idx : tensor nat;
  cv_mask : option (tensor Q); cv_zero : list nat; cv_attr : option (tensor Q) }.
(** [cw_rest]: the layer's other variables (identity, value) in the order of layer.weights. *)
Record cwrapper := mkCW { cw_cfg : ccfg; cw_vars : list cvar; cw_rest : list (nat * tensor Q) }.

(** A built layer: its variables in the order of layer.weights and the variables get_clusterable_weights() lists,
    in that order.  Variables that are not in [l_weights] make build fail (StopIteration, 208-209). *)
Record clayer := mkCL { l_weights : list (nat * tensor Q); l_clusterable : list nat }.

(** 208-209: position of the variable in layer.weights, and its value. *)
Fixpoint find_var (v : nat) (i : nat) (ws : list (nat * tensor Q)) : res (nat * tensor Q) :=
  match ws with
  | [] => Err RuntimeError
  | (u, t) :: r => if Nat.eqb u v then Ok (i, t) else find_var v (S i) r
  end.

(** The clustering algorithm of the weight (clustering_registry.py:32-56; only the library's own algorithms). *)
Definition pull (df : data_format) (cs : centroids) (w : tensor Q) : res (tensor nat) :=
  match cs with
  | Flat l => match l with [] => Err InvalidArgument | _ => Ok (get_pulling_indices l w) end
  | Rows rows => get_pulling_indices_pc df rows w
  end.
Definition clustered (df : data_format) (cs : centroids) (p : tensor nat) (w : tensor Q) : res (tensor Q) :=
  match cs with
  | Flat l => Ok (get_clustered_weight l p w)
  | Rows rows => get_clustered_weight_pc df rows p w
  end.
(** 271-275: zero_idx = argmin(|centroids|, axis=-1). *)
Definition zero_index (cs : centroids) : list nat :=
  match cs with Flat l => [argmin (map Qabs l)] | Rows rows => map (fun r => argmin (map Qabs r)) rows end.
(** 266-270: mask of the positions whose clustered value is not zero. *)
Definition not_zero_mask (t : tensor Q) : tensor Q := tmap (fun x => b2q (negb (Qeq_bool x 0))) t.

(** cluster_wrapper.py:183-275 [build], one clusterable weight. *)
Definition build_var (cfg : ccfg) (l : clayer) (v : nat) : res cvar :=
  do (pos, w) <- find_var v 0 (l_weights l) ;;
  do cs <- get_cluster_centroids (cluster_centroids_init cfg) (number_of_clusters cfg) (cluster_per_channel cfg) (preserve_sparsity cfg) (data_format_of cfg) w ;;
  do p <- pull (data_format_of cfg) cs w ;;
  if preserve_sparsity cfg then
    do cl <- clustered (data_format_of cfg) cs p w ;;
    Ok (mkCV v pos w cs p (Some (not_zero_mask cl)) (zero_index cs) None)
  else Ok (mkCV v pos w cs p None [] None).
Definition build (cfg : ccfg) (l : clayer) : res cwrapper :=
  do vs <- mapM (build_var cfg l) (l_clusterable l) ;;
  Ok (mkCW cfg vs (filter (fun p => negb (existsb (Nat.eqb (fst p)) (l_clusterable l))) (l_weights l))).

(** 166-175: multiply every centroid equal to the current "zero" centroid by 0. *)
Definition force_zero (l : list Q) (zero_idx : nat) : list Q :=
  map (fun c => c * b2q (negb (Qeq_bool c (nth zero_idx l 0)))) l.
Definition force_zero_all (cs : centroids) (zi : list nat) : centroids :=
  match cs with
  | Flat l => Flat (force_zero l (nth 0 zi 0%nat))
  | Rows rows => Rows (map (fun p => force_zero (fst p) (snd p)) (combine rows zi))
  end.

(** 277-326 [update_clustered_weights_associations], one weight. *)
Definition update_var (cfg : ccfg) (x : cvar) : res cvar :=
  let '(cs, orig) :=
    match cv_mask x with
    | Some m => (force_zero_all (cv_cents x) (cv_zero x), tmap2 Qmult (cv_orig x) m)
    | None => (cv_cents x, cv_orig x)
    end in
  do p <- pull (data_format_of cfg) cs orig ;;
  do cl <- clustered (data_format_of cfg) cs p orig ;;
  Ok (mkCV (cv_name x) (cv_pos x) (cv_orig x) cs p (cv_mask x) (cv_zero x) (Some cl)).
Definition update (w : cwrapper) : res cwrapper :=
  do vs <- mapM (update_var (cw_cfg w)) (cw_vars w) ;; Ok (mkCW (cw_cfg w) vs (cw_rest w)).

(** What happens to a wrapper: a forward pass (328-332: call = update, then the layer runs on the clustered weights),
    or anybody (an optimizer step, set_weights, assign) changing the original weights, centroids and other weights. *)
Inductive event : Type :=
| Forward
| Train (origs : list (tensor Q)) (cents : list centroids) (rest : list (nat * tensor Q)).
Definition set_var (p : cvar * (tensor Q * centroids)) : cvar :=
  let '(x, (t, cs)) := p in mkCV (cv_name x) (cv_pos x) t cs (cv_idx x) (cv_mask x) (cv_zero x) (cv_attr x).
Definition step (w : cwrapper) (e : event) : res cwrapper :=
  match e with
  | Forward => update w
  | Train origs cents rest => Ok (mkCW (cw_cfg w) (map set_var (combine (cw_vars w) (combine origs cents))) rest)
  end.
Fixpoint run (w : cwrapper) (evs : list event) : res cwrapper :=
  match evs with [] => Ok w | e :: r => do w' <- step w e ;; run w' r end.

(** ** strip_clustering *)
(** list.insert(i, x) of Python. *)
Definition insert_at {A} (i : nat) (x : A) (l : list A) : list A := (firstn i l ++ x :: skipn i l)%list.
(** cluster.py:345-361: the weight list given to the clean layer.  get_weights() of the wrapped layer returns the
    variables that are still attached (the replaced ones are not). *)
Fixpoint insert_all (acc : list (tensor Q)) (vars : list cvar) : res (list (tensor Q)) :=
  match vars with
  | [] => Ok acc
  | x :: r => match cv_attr x with
              | Some t => insert_all (insert_at (cv_pos x) t acc) r
              | None => Err RuntimeError
              end
  end.
Definition strip (w : cwrapper) : res (list (tensor Q)) :=
  do w' <- update w ;; insert_all (map snd (cw_rest w')) (cw_vars w').

(** ** cluster_weights: which layers are wrapped (cluster.py:133-302, 378-415; cluster_wrapper.py:58-118) *)
(** The Python value given for number_of_clusters. *)
Inductive pynum : Type := PInt (z : Z) | PFloat (q : Q) | POther.
(** What the code looks at in a layer.  For Conv2D: number of kernel weights, sizes of the trainable weights in order,
    data format.  [Plain supported weights] is any other layer: whether it is a ClusterableLayer or in the registry. *)
Inductive layer_kind : Type :=
| NotALayer | Wrapped | Input | Rnn (supported : bool) | Mha
| Conv (supported : bool) (kernel : nat) (trainable_sizes : list nat) (df : data_format)
| Plain (supported : bool).
Inductive wrapper_class : Type := ClusterWeights | ClusterWeightsRNN | ClusterWeightsMHA.
(** Outcome for one layer: returned as it is, cloned (InputLayer), or wrapped with the number of clusters and the
    effective flags. *)
Inductive outcome : Type := AsIs | Cloned | Wrap (cls : wrapper_class) (n : Z) (sparse per_channel : bool).

(** cluster_wrapper.py:66-101, 113-118: the constructor checks. *)
Definition construct (cls : wrapper_class) (is_conv2d supported : bool) (n : pynum) (sparse per_channel : bool) : res outcome :=
  if negb supported then Err ValueError
  else match n with
  | PInt z => if (z <=? (if sparse then 2 else 1))%Z then Err ValueError
              else Ok (Wrap cls z sparse (if is_conv2d then per_channel else false))
  | _ => Err ValueError
  end.
(** Python's [a <= number_of_clusters] for a number [a]. *)
Definition le_pynum (a : Q) (n : pynum) : res bool :=
  match n with PInt z => Ok (Qle_bool a (inject_Z z)) | PFloat q => Ok (Qle_bool a q) | POther => Err TypeError end.
(** cluster.py:378-415 [layer_has_enough_weights_to_cluster].  Python's negative index -1 is the last entry. *)
Definition has_enough (kernel : nat) (trainable_sizes : list nat) (df : data_format) (n : pynum) (per_channel : bool) : res bool :=
  match trainable_sizes with
  | [] => Err ValueError
  | _ =>
    do channels <- match df with
                   | ChannelsFirst => match nth_error trainable_sizes 1 with Some c => Ok c | None => Err IndexError end
                   | ChannelsLast => Ok (last trainable_sizes 0%nat)
                   end ;;
    let weights_to_cluster := if per_channel then inject_Z (Z.of_nat kernel) / inject_Z (Z.of_nat channels) else inject_Z (Z.of_nat kernel) in
    do few <- le_pynum weights_to_cluster n ;; Ok (negb few)
  end.
(** cluster.py:237-286 [_add_clustering_wrapper] for a layer that is not a model. *)
Definition add_clustering_wrapper (k : layer_kind) (n : pynum) (sparse per_channel : bool) : res outcome :=
  match k with
  | NotALayer => Err ValueError
  | Wrapped => Ok AsIs
  | Input => Ok Cloned
  | Rnn sup => construct ClusterWeightsRNN false sup n sparse false
  | Mha => construct ClusterWeightsMHA false true n sparse false
  | Conv sup kernel ts df =>
      do e <- has_enough kernel ts df n per_channel ;;
      if negb e then Ok AsIs else construct ClusterWeights true sup n sparse per_channel
  | Plain sup => construct ClusterWeights false sup n sparse per_channel
  end.

(** ** Serialization *)
(** cluster.py:34-53 [cluster_scope]: names of the wrapper classes that can be deserialized in the scope. *)
Definition cluster_scope : list string := ["ClusterWeights"%string].
Definition class_name (c : wrapper_class) : string :=
  match c with ClusterWeights => "ClusterWeights" | ClusterWeightsRNN => "ClusterWeightsRNN" | ClusterWeightsMHA => "ClusterWeightsMHA" end%string.
(** keras.layers.deserialize of a class that is not built in: it has to be among the custom objects. *)
Definition deserialize_class (scope : list string) (c : wrapper_class) : res wrapper_class :=
  if existsb (String.eqb (class_name c)) scope then Ok c else Err ValueError.

(** The five initialisation/aggregation settings in a config dict.  [init_name] and [agg_name] are the enum values
    (strings, cluster_config.py:20-56). *)
Inductive init_enum : Type := LINEAR | RANDOM | DENSITY_BASED | KMEANS_PLUS_PLUS.
Definition init_value (i : init_enum) : string :=
  match i with LINEAR => "CentroidInitialization.LINEAR" | RANDOM => "CentroidInitialization.RANDOM"
  | DENSITY_BASED => "CentroidInitialization.DENSITY_BASED" | KMEANS_PLUS_PLUS => "CentroidInitialization.KMEANS_PLUS_PLUS" end%string.
(** CentroidInitialization(value): the member with that value, ValueError if there is none. *)
Definition init_of_value (s : string) : res init_enum :=
  match find (fun i => String.eqb (init_value i) s) [LINEAR; RANDOM; DENSITY_BASED; KMEANS_PLUS_PLUS] with
  | Some i => Ok i | None => Err ValueError end.
Definition agg_value (a : aggregation) : string := match a with SUM => "GradientAggregation.SUM" | AVG => "GradientAggregation.AVG" end%string.
(** A gradient aggregation as the wrapper holds it: the enum member or, after loading, its string value
    ([GradientAggregation] is a [str] enum: both compare equal to the member). *)
Definition agg_of_value (s : string) : res aggregation :=
  if String.eqb s (agg_value SUM) then Ok SUM else if String.eqb s (agg_value AVG) then Ok AVG else Err ValueError.

(** A wrapper as serialization sees it; [ws_layer] is the config of the wrapped layer. *)
Record wsettings := mkWS { ws_class : wrapper_class; ws_number : Z; ws_init : init_enum; ws_sparse : bool; ws_agg : string; ws_per_channel : bool;
  ws_conv2d : bool; ws_name : string; ws_layer : string }.
(** Keyword arguments / config entries. *)
Inductive cval : Type := VInt (z : Z) | VStr (s : string) | VBool (b : bool) | VLayer (conv2d : bool) (s : string).
Definition cdict := list (string * cval).
(** cluster_wrapper.py:337-346 [get_config]: the base config (name, layer) is merged over the five entries. *)
Definition get_config (w : wsettings) : cdict :=
  [("number_of_clusters", VInt (ws_number w)); ("cluster_centroids_init", VStr (init_value (ws_init w)));
   ("preserve_sparsity", VBool (ws_sparse w)); ("cluster_gradient_aggregation", VStr (ws_agg w));
   ("cluster_per_channel", VBool (ws_per_channel w)); ("name", VStr (ws_name w)); ("layer", VLayer (ws_conv2d w) (ws_layer w))]%string.
(** dict.pop(key): the value and the dict without the key; KeyError if missing. *)
Definition dict_pop (k : string) (d : cdict) : res (cval * cdict) :=
  match find (fun p => String.eqb k (fst p)) d with
  | Some (_, v) => Ok (v, filter (fun p => negb (String.eqb k (fst p))) d)
  | None => Err KeyError
  end.
(** cluster_wrapper.py:348-371 [from_config] and the constructor it calls (58-161). *)
Definition from_config (cls : wrapper_class) (d : cdict) : res wsettings :=
  do (n, d1) <- dict_pop "number_of_clusters"%string d ;;
  do (i, d2) <- dict_pop "cluster_centroids_init"%string d1 ;;
  do (sp, d3) <- dict_pop "preserve_sparsity"%string d2 ;;
  do (ag, d4) <- dict_pop "cluster_gradient_aggregation"%string d3 ;;
  do (pc, d5) <- dict_pop "cluster_per_channel"%string d4 ;;
  do (l, d6) <- dict_pop "layer"%string d5 ;;
  do (nm, d7) <- dict_pop "name"%string d6 ;;
  match n, i, sp, ag, pc, l, nm, d7 with
  | VInt n, VStr i, VBool sp, VStr ag, VBool pc, VLayer conv l, VStr nm, [] =>
      do init <- init_of_value i ;;
      do o <- construct cls conv true (PInt n) sp pc ;;
      match o with
      | Wrap c z s p => Ok (mkWS c z init s ag p conv nm l)
      | _ => Err RuntimeError
      end
  | _, _, _, _, _, _, _, _ => Err TypeError
  end.

(** ** MultiHeadAttention: cluster_wrapper.py:456-490 *)
(** The part of a Keras layer's attribute table that matters: sub-layer attributes and the layer's own attributes.
    A value is a variable (identity) or a tensor. *)
Inductive aval : Type := Var (v : nat) | Tens (t : tensor Q).
Record mha := mkMha { m_sub : list (string * aval); m_own : list (string * aval) }.
Definition vstore := nat -> tensor Q.
Definition get_attr (l : list (string * aval)) (k : string) : res aval :=
  match find (fun p => String.eqb k (fst p)) l with Some (_, v) => Ok v | None => Err AttributeError end.
Definition set_attr (l : list (string * aval)) (k : string) (v : aval) : list (string * aval) :=
  (k, v) :: filter (fun p => negb (String.eqb k (fst p))) l.
(** The tensor a layer computes with when it reads an attribute. *)
Definition read (st : vstore) (a : aval) : tensor Q := match a with Var v => st v | Tens t => t end.
(** 459-461 get_weight_from_layer and 463-466 set_weight_to_layer: the sub-layer's attribute ["_query_dense.kernel"]. *)
Definition mha_update (m : mha) (clustered_weights : list (string * tensor Q)) : mha :=
  fold_left (fun m p => mkMha (set_attr (m_sub m) (fst p) (Tens (snd p))) (m_own m)) clustered_weights m.
(** 468-490 strip_clustering after the update: assign the clustered value to the original variable, then
    [setattr(self.layer, weight_name, original)] - on the MHA layer itself, under the dotted name. *)
Fixpoint mha_strip (st : vstore) (m : mha) (originals : list (string * nat)) : res (vstore * mha) :=
  match originals with
  | [] => Ok (st, m)
  | (k, v) :: r =>
      do a <- get_attr (m_sub m) k ;;
      let st' := fun u => if Nat.eqb u v then read st a else st u in
      mha_strip st' (mkMha (m_sub m) (set_attr (m_own m) k (Var v))) r
  end.
