(** Model of clustering RNN layers: clustering/keras/clustering_registry.py (RNN part) and cluster_wrapper.py:407-453
    (ClusterWeightsRNN) on top of the generic wrapper of M_ClusterWrapper. *)
From Coq Require Import String Ascii DecimalString.
From Verif Require Import Base M_Tensor M_Num M_Cluster M_ClusterWrapper M_Compat.
Open Scope string_scope.
Open Scope list_scope.
Open Scope nat_scope.

(** ** Objects *)
(** Cells and layers are objects: two cells may be the same object, so cells are named by identities and live in a heap.
    The class of a cell: the three built-in ones, StackedRNNCells with its list of cells, or a user class (a
    ClusterableLayer or not).  Simplification: the v1/v2/keras variants of a class (clustering_registry.py:82-99) are one. *)
Inductive cclass := LSTMCell | GRUCell | SimpleRNNCell | StackedRNNCells (cells : list nat) | CustomCell (clusterable : bool).
(** The attributes of a cell that hold weights, in the order of its [weights]: variables (identity) or, after
    set_weight_to_layer, tensors. *)
Record cell := mkCell { c_class : cclass; c_attrs : list (string * aval) }.
Definition heap := nat -> cell.
(** A layer given to cluster_weights: an instance of keras.layers.RNN of a built-in class ([true]: GRU, LSTM, SimpleRNN,
    RNN; [false]: any other subclass, for instance ConvLSTM2D); Bidirectional (the cells of its forward and backward
    layers); a user subclass of RNN that is a ClusterableLayer, with what its get_clusterable_weights() lists; or a cell
    object used as a layer.  [RNN.cell] is never a Python list: keras.layers.RNN wraps a list into StackedRNNCells, so
    clustering_registry.py:148-150 is unreachable. *)
Inductive rlayer :=
| RnnLayer (builtin : bool) (c : nat)
| Bidirectional (forward backward : nat)
| UserRnn (c : nat) (listed : list (string * aval))
| CellLayer (c : nat).

(** In-place assignment of an attribute (dict semantics: an existing key keeps its place). *)
Fixpoint put_attr (l : list (string * aval)) (k : string) (v : aval) : list (string * aval) :=
  match l with
  | [] => [(k, v)]
  | (j, x) :: r => if String.eqb k j then (k, v) :: r else (j, x) :: put_attr r k v
  end.
(** [setattr(cell, k, v)]. *)
Definition setattr_cell (h : heap) (c : nat) (k : string) (v : aval) : heap :=
  fun d => if Nat.eqb d c then mkCell (c_class (h d)) (put_attr (c_attrs (h d)) k v) else h d.

(** ** The registry *)
(** clustering_registry.py:82-99: membership in _SUPPORTED_RNN_CELLS. *)
Definition supported_cell (k : cclass) : bool := match k with CustomCell _ => false | _ => true end.
(** clustering_registry.py:140-153 [_get_rnn_cells]. *)
Definition get_rnn_cells (h : heap) (l : rlayer) : list nat :=
  match l with
  | Bidirectional f b => [f; b]
  | RnnLayer _ c | UserRnn c _ => match c_class (h c) with StackedRNNCells cs => cs | _ => [c] end
  | CellLayer _ => []
  end.
Definition is_var (a : aval) : bool := match a with Var _ => true | Tens _ => false end.
(** clustering_registry.py:110-138 [supports].  The first test (no trainable weights and not an RNN) only matters for a
    cell used as a layer here: Bidirectional is in _SUPPORTED_RNN_CELLS, so it is supported in any case. *)
Definition supports (h : heap) (l : rlayer) : bool :=
  match l with
  | RnnLayer builtin _ => builtin && forallb (fun c => supported_cell (c_class (h c))) (get_rnn_cells h l)
  | Bidirectional _ _ => true
  | UserRnn _ _ => false
  | CellLayer c => negb (existsb (fun p => is_var (snd p)) (c_attrs (h c))) || supported_cell (c_class (h c))
  end.
(** cluster_wrapper.py:70-84: a ClusterableLayer is always accepted. *)
Definition accepts (h : heap) (l : rlayer) : bool := match l with UserRnn _ _ => true | _ => supports h l end.

(** [list.index(x)] for objects that compare by identity. *)
Fixpoint index_of (x : nat) (l : list nat) : nat := match l with [] => 0 | y :: r => if Nat.eqb y x then 0 else S (index_of x r) end.
(** clustering_registry.py:182-197 [get_clusterable_weights_rnn_cell]. *)
Definition cell_weights (h : heap) (c : nat) (i : nat) : res (list (string * aval)) :=
  if supported_cell (c_class (h c)) then
    do k <- get_attr (c_attrs (h c)) "kernel" ;;
    do r <- get_attr (c_attrs (h c)) "recurrent_kernel" ;;
    Ok [("kernel/" ++ py_str i, k)%string; ("recurrent_kernel/" ++ py_str i, r)%string]
  else Err ValueError.
(** clustering_registry.py:199-207 [get_clusterable_weights_rnn]; for the other layers 176-178 with _weight_names
    (155-161): a cell class is not a key of _LAYERS_WEIGHTS_MAP.  Simplification: the cell layer is trainable. *)
Definition get_clusterable_weights (h : heap) (l : rlayer) : res (list (string * aval)) :=
  match l with
  | UserRnn _ listed => Ok listed
  | CellLayer c => if existsb (fun p => is_var (snd p)) (c_attrs (h c)) then Err KeyError else Ok []
  | _ =>
      let cells := get_rnn_cells h l in
      if 1 <? List.length cells then
        do ws <- mapM (fun c => cell_weights h c (index_of c cells)) cells ;; Ok (List.concat ws)
      else match cells with [] => Ok [] | c :: _ => cell_weights h c 0 end
  end.

(** ** ClusterWeightsRNN *)
(** [s.split('/')]. *)
Fixpoint split_slash (s : string) : string * list string :=
  match s with
  | EmptyString => (EmptyString, [])
  | String c r => let '(a, l) := split_slash r in if Ascii.eqb c "/"%char then (EmptyString, a :: l) else (String c a, l)
  end.
(** [int(s)]: an optional minus sign and decimal digits.  Simplification: plus signs, blanks and underscores, which int()
    also takes, are rejected. *)
Definition py_int (s : string) : res Z :=
  let digits t := match t with
                  | EmptyString => Err ValueError
                  | _ => match NilEmpty.uint_of_string t with Some d => Ok (Z.of_nat (Nat.of_uint d)) | None => Err ValueError end
                  end in
  match s with
  | String "-" t => do z <- digits t ;; Ok (- z)%Z
  | _ => digits s
  end.
(** cluster_wrapper.py:415-417 [get_weight_name_without_index]. *)
Definition name_without_index (n : string) : res (string * Z) :=
  let '(a, l) := split_slash n in
  match l with [] => Err IndexError | b :: _ => do i <- py_int b ;; Ok (a, i) end.
(** [l[i]] of a Python list: negative indices count from the end. *)
Definition py_nth (l : list nat) (i : Z) : res nat :=
  let j := (if i <? 0 then i + Z.of_nat (List.length l) else i)%Z in
  if (j <? 0)%Z then Err IndexError else match nth_error l (Z.to_nat j) with Some c => Ok c | None => Err IndexError end.
(** The cell and attribute that a weight name stands for: the common part of 424-437 and 439-456. *)
Definition resolve (h : heap) (l : rlayer) (n : string) : res (nat * string) :=
  do (a, i) <- name_without_index n ;;
  match l with
  | RnnLayer _ c | UserRnn c _ =>
      match c_class (h c) with
      | StackedRNNCells cs => do d <- py_nth cs i ;; Ok (d, a)
      | _ => Ok (c, a)
      end
  | Bidirectional f b => if ((i <? 0) || (1 <? i))%Z then Err ValueError else Ok (if (i =? 0)%Z then f else b, a)
  | CellLayer _ => Err ValueError
  end.
(** cluster_wrapper.py:424-437 [get_weight_from_layer]. *)
Definition get_weight_from_layer (h : heap) (l : rlayer) (n : string) : res aval :=
  do (c, a) <- resolve h l n ;; get_attr (c_attrs (h c)) a.
(** cluster_wrapper.py:439-456 [set_weight_to_layer]. *)
Definition set_weight_to_layer (h : heap) (l : rlayer) (n : string) (t : tensor Q) : res heap :=
  do (c, a) <- resolve h l n ;; Ok (setattr_cell h c a (Tens t)).

(** ** Weights of the wrapped layer *)
(** The cells whose weights make up layer.weights, in order; nested stacks are not flattened further (such layers cannot
    be clustered: build fails before layer.weights is used). *)
Definition leaf_cells (h : heap) (l : rlayer) : list nat := match l with CellLayer c => [c] | _ => get_rnn_cells h l end.
Definition var_ids (l : list (string * aval)) : list nat := flat_map (fun p => match snd p with Var v => [v] | Tens _ => [] end) l.
(** [layer.weights]: Keras lists every variable once. *)
Definition layer_weights (h : heap) (l : rlayer) : list nat :=
  nodup Nat.eq_dec (flat_map (fun c => var_ids (c_attrs (h c))) (leaf_cells h l)).

(** ** The wrapper *)
(** The generic wrapper state together with the layer it wraps; [r_names] are the keys of the wrapper's dicts in order,
    [cw_vars] of [r_w] the values. *)
Record rwrapper := mkRW { r_heap : heap; r_layer : rlayer; r_names : list string; r_w : cwrapper }.

(** cluster_wrapper.py:183-275 [build], one weight: the variable is looked up by its name (198), the centroids and pulling
    indices come from the listed weight (219-257).  [st]: values of the variables. *)
Definition build_rvar (cfg : ccfg) (st : nat -> tensor Q) (h : heap) (l : rlayer) (p : string * aval) : res cvar :=
  do a <- get_weight_from_layer h l (fst p) ;;
  match a with
  | Tens _ => Err RuntimeError
  | Var v =>
      do (pos, w) <- find_var v 0 (map (fun v => (v, st v)) (layer_weights h l)) ;;
      let listed := read st (snd p) in
      do cs <- get_cluster_centroids (cluster_centroids_init cfg) (number_of_clusters cfg) (cluster_per_channel cfg) (preserve_sparsity cfg) (data_format_of cfg) listed ;;
      do q <- pull (data_format_of cfg) cs listed ;;
      if preserve_sparsity cfg then
        do cl <- clustered (data_format_of cfg) cs q w ;;
        Ok (mkCV v pos w cs q (Some (not_zero_mask cl)) (zero_index cs) None)
      else Ok (mkCV v pos w cs q None [] None)
  end.
(** Assignment to a dict: an existing key keeps its place. *)
Fixpoint dict_put {A} (l : list (string * A)) (k : string) (v : A) : list (string * A) :=
  match l with
  | [] => [(k, v)]
  | (j, x) :: r => if String.eqb k j then (k, v) :: r else (j, x) :: dict_put r k v
  end.
Definition rnn_build (cfg : ccfg) (st : nat -> tensor Q) (h : heap) (l : rlayer) : res rwrapper :=
  if negb (accepts h l) then Err ValueError else
  do ws <- get_clusterable_weights h l ;;
  do vs <- mapM (build_rvar cfg st h l) ws ;;
  let d := fold_left (fun d p => dict_put d (fst p) (snd p)) (combine (map fst ws) vs) [] in
  Ok (mkRW h l (map fst d) (mkCW cfg (map snd d)
       (filter (fun p => negb (existsb (Nat.eqb (fst p)) (map cv_name (map snd d)))) (map (fun v => (v, st v)) (layer_weights h l))))).

(** 277-326 [update_clustered_weights_associations]: the generic update, then set_weight_to_layer for every name. *)
Fixpoint set_all (h : heap) (l : rlayer) (p : list (string * cvar)) : res heap :=
  match p with
  | [] => Ok h
  | (n, x) :: r => match cv_attr x with
                   | Some t => do h' <- set_weight_to_layer h l n t ;; set_all h' l r
                   | None => Err RuntimeError
                   end
  end.
Definition rnn_update (s : rwrapper) : res rwrapper :=
  do w <- update (r_w s) ;;
  do h <- set_all (r_heap s) (r_layer s) (combine (r_names s) (cw_vars w)) ;;
  Ok (mkRW h (r_layer s) (r_names s) w).
(** The events of M_ClusterWrapper: a forward pass (328-332) or anybody changing the values of variables. *)
Definition rnn_step (s : rwrapper) (e : event) : res rwrapper :=
  match e with
  | Forward => rnn_update s
  | Train _ _ _ => do w <- step (r_w s) e ;; Ok (mkRW (r_heap s) (r_layer s) (r_names s) w)
  end.
Fixpoint rnn_run (s : rwrapper) (evs : list event) : res rwrapper :=
  match evs with [] => Ok s | e :: r => do s' <- rnn_step s e ;; rnn_run s' r end.

(** The current value of a variable: the original weights are kept by the wrapper, the others by the layer. *)
Definition var_value (w : cwrapper) (v : nat) : tensor Q :=
  match find (fun x => Nat.eqb (cv_name x) v) (cw_vars w) with
  | Some x => cv_orig x
  | None => match find (fun p => Nat.eqb (fst p) v) (cw_rest w) with Some p => snd p | None => mkT [] [] end
  end.
(** ** strip_clustering (cluster.py:338-361) *)
(** 347-353: insert the weight that get_weight_from_layer returns at the position of the variable. *)
Fixpoint rnn_insert (s : rwrapper) (acc : list (tensor Q)) (p : list (string * cvar)) : res (list (tensor Q)) :=
  match p with
  | [] => Ok acc
  | (n, x) :: r => do a <- get_weight_from_layer (r_heap s) (r_layer s) n ;;
                   rnn_insert s (insert_at (cv_pos x) (read (var_value (r_w s)) a) acc) r
  end.
(** 356-359: a clean layer from the config, built, and set_weights.  from_config makes a new cell for every occurrence of a
    cell; its weights are those of the wrapped layer's cells, by name and in order.  set_weights raises ValueError when
    the number of weights differs (shapes are not modelled here). *)
Fixpoint fill (cells : list (list string)) (ws : list (tensor Q)) : res (list (list (string * tensor Q))) :=
  match cells with
  | [] => match ws with [] => Ok [] | _ => Err ValueError end
  | ks :: r => if List.length ws <? List.length ks then Err ValueError
               else do rest <- fill r (skipn (List.length ks) ws) ;; Ok (combine ks ws :: rest)
  end.
Definition rnn_strip (s : rwrapper) : res (list (list (string * tensor Q))) :=
  do s' <- rnn_update s ;;
  let own := map (var_value (r_w s')) (layer_weights (r_heap s') (r_layer s')) in
  do ws <- rnn_insert s' own (combine (r_names s') (cw_vars (r_w s'))) ;;
  fill (map (fun c => map fst (c_attrs (r_heap s' c))) (leaf_cells (r_heap s') (r_layer s'))) ws.
