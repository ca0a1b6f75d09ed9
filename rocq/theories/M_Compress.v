(** The weight-compression framework and its algorithms.
    Sources: common/keras/compression/algorithm.py, internal/optimize.py, algorithms/*.py.
    Weights are exact rationals / integers; float rounding is not modelled. *)
From Coq Require Import String Ascii.
From Verif Require Import Base M_Tensor M_Num M_Cluster.
Open Scope string_scope.
Open Scope list_scope.
Open Scope nat_scope.

(** A variable's value: floating or integer array. *)
Inductive cv : Type := VF (t : tensor Q) | VI (t : tensor Z).
Definition vshape (v : cv) : list nat := match v with VF t => shape t | VI t => shape t end.
Definition is_float (v : cv) : bool := match v with VF _ => true | VI _ => false end.

(** ** Layers *)
(** isinstance(layer, Conv2D) / isinstance(layer, Dense) (subclasses included) / isinstance(layer, Conv1D) / anything else. *)
Inductive lkind : Type := KConv2D | KDense | KConv1D | KOther.
(** One weight of a layer: the name given to add_weight (also the attribute that holds it), the tf.Variable's name, the
    value a freshly built copy of the layer gets from the initializer, and the current (trained) value. *)
Record lweight := mkLW { lw_name : string; lw_var : string; lw_init : cv; lw_value : cv }.
(** A keras layer; [y_weights] is layer.weights, which for the built-in layers is also the order of the add_weight
    calls in build (trainable before non-trainable ones). *)
Record ylayer := mkY { y_name : string; y_kind : lkind; y_built : bool; y_weights : list lweight }.

(** ** Algorithms: algorithm.py:32-163 [WeightCompressor] *)
Record calg := mkAlg {
  (** get_compressible_weights: the attributes holding the weights; [None] is Python's None (e.g. the bias of a layer
      with use_bias=False). *)
  a_compressible : ylayer -> list (option string);
  (** init_training_weights: the values of the initializers passed to add_training_weight, in order. *)
  a_init : cv -> res (list cv);
  (** project_training_weights: the weight used in the forward pass, and the training weights after the assignments
      made through update_training_weight. *)
  a_project : list cv -> res (cv * list cv);
  a_compress : list cv -> res (list cv);
  a_decompress : list cv -> res cv }.

(** ** Names: optimize.py:386-397 *)
(** [name.split(':')[0]]. *)
Fixpoint before_colon (s : string) : string :=
  match s with
  | EmptyString => EmptyString
  | String c r => if Ascii.eqb c ":"%char then EmptyString else String c (before_colon r)
  end.
Fixpoint drop_chars (n : nat) (s : string) : string :=
  match n, s with O, _ => s | S k, String _ r => drop_chars k r | S _, EmptyString => EmptyString end.
Definition weight_name (layer_name var_name : string) : string :=
  before_colon (if prefix layer_name var_name then drop_chars (String.length layer_name + 1) var_name else var_name).

Definition find_weight (y : ylayer) (attr : string) : option lweight :=
  find (fun w => String.eqb (lw_name w) attr) (y_weights y).
(** optimize.py:390-397: the loop over the compressible weights. *)
Definition compressible_names (a : calg) (y : ylayer) : res (list string) :=
  mapM (fun o => match o with
                 | None => Err AttributeError
                 | Some attr => match find_weight y attr with
                                | Some w => Ok (weight_name (y_name y) (lw_var w))
                                | None => Err AttributeError
                                end
                 end) (a_compressible a y).

Definition zeros (s : list nat) : cv := VF (mkT s (repeat 0%Q (prod s))).
Definition inb (s : string) (l : list string) : bool := existsb (String.eqb s) l.
Fixpoint assoc {A} (k : string) (l : list (string * A)) : option A :=
  match l with [] => None | (s, a) :: r => if String.eqb s k then Some a else assoc k r end.

(** ** optimize.py:41-159 [_TrainingWrapper] *)
(** [tw_training]: the wrapper's own weights per compressible name, in creation order; [tw_rest]: the weights the nested
    layer still owns.  [tw_layer] is the layer that was cloned (its names and initial values). *)
Record twrap := mkTW { tw_layer : ylayer; tw_training : list (string * list cv); tw_rest : list (string * cv) }.
(** optimize.py:61-95 [_skip_compressible_weights] under the nested build, then 97-121: one init_training_weights per
    name, on zeros of the shape requested by the nested layer; KeyError if the nested layer never asked for the name.
    Simplification: distinct names (a repeated name would overwrite the dictionary entry). *)
Definition rest_of (names : list string) (y : ylayer) : list (string * cv) :=
  map (fun w => (lw_name w, lw_init w)) (filter (fun w => negb (inb (lw_name w) names)) (y_weights y)).
Definition train_build (a : calg) (names : list string) (y : ylayer) : res twrap :=
  do tr <- mapM (fun n => match find_weight y n with
                          | Some w => do vs <- a_init a (zeros (vshape (lw_init w))) ;; Ok (n, vs)
                          | None => Err KeyError
                          end) names ;;
  Ok (mkTW y tr (rest_of names y)).

(** keras Layer.get_weights of the wrapper: its own weights, then those of the nested layer. *)
Definition tw_get_weights (w : twrap) : list cv := List.concat (map snd (tw_training w)) ++ map snd (tw_rest w).
(** keras Layer.set_weights: ValueError unless the number and the shapes agree. *)
Definition same_shapes (l l' : list cv) : bool :=
  if list_eq_dec (list_eq_dec Nat.eq_dec) (map vshape l) (map vshape l') then true else false.
Fixpoint refill (tr : list (string * list cv)) (vs : list cv) : list (string * list cv) * list cv :=
  match tr with
  | [] => ([], vs)
  | (n, old) :: r => let '(r', rest) := refill r (skipn (List.length old) vs) in
                     ((n, firstn (List.length old) vs) :: r', rest)
  end.
Definition tw_set_weights (w : twrap) (vs : list cv) : res twrap :=
  if same_shapes (tw_get_weights w) vs then
    let '(tr, rest) := refill (tw_training w) vs in
    Ok (mkTW (tw_layer w) tr (combine (map fst (tw_rest w)) rest))
  else Err ValueError.

(** optimize.py:256-300 [_map_to_training_weights]; [_find] compares by identity with the compressible weights. *)
Definition map_to_training_weights (a : calg) (y : ylayer) : res (list cv) :=
  match y_kind y with
  | KOther | KConv1D => Ok []
  | _ =>
    let is_c w := existsb (fun o => match o with Some attr => String.eqb attr (lw_name w) | None => false end) (a_compressible a y) in
    do tr <- mapM (fun w => a_init a (lw_value w)) (filter is_c (y_weights y)) ;;
    Ok (List.concat tr ++ map lw_value (filter (fun w => negb (is_c w)) (y_weights y)))
  end.

(** optimize.py:343-417 [create_layer_for_training].  When no weight is compressible the returned wrapper is not built
    here; it is built, with freshly initialised nested weights, when the cloned model first calls it.  The result is
    the wrapper as it stands in the cloned model. *)
Definition create_layer_for_training (a : calg) (y : ylayer) : res twrap :=
  if negb (y_built y) then Err ValueError
  else do names <- compressible_names a y ;;
       do w <- train_build a names y ;;
       match a_compressible a y with
       | [] => Ok w
       | _ => do vs <- map_to_training_weights a y ;; tw_set_weights w vs
       end.

(** optimize.py:123-158 [_TrainingWrapper.call] and its attribute map: the weights the nested layer uses in the forward pass, by name, and the
    wrapper afterwards. *)
Definition train_call (a : calg) (w : twrap) : res (list (string * cv) * twrap) :=
  do ps <- mapM (fun p => do r <- a_project a (snd p) ;; Ok (fst p, r)) (tw_training w) ;;
  Ok (map (fun x => (fst x, fst (snd x))) ps ++ tw_rest w,
      mkTW (tw_layer w) (map (fun x => (fst x, snd (snd x))) ps) (tw_rest w)).

(** ** optimize.py:162-246 [_InferenceWrapper] *)
Record iwrap := mkIW { iw_layer : ylayer; iw_compressed : list (string * list cv); iw_rest : list (string * cv) }.
(** 178-231 [_skip_compressible_weights, build]. *)
Definition infer_build (a : calg) (y : ylayer) (tensors : list (string * list cv)) : res iwrap :=
  do cs <- mapM (fun p => do c <- a_compress a (snd p) ;; Ok (fst p, c)) tensors ;;
  Ok (mkIW y cs (rest_of (map fst tensors) y)).
Definition iw_get_weights (w : iwrap) : list cv := List.concat (map snd (iw_compressed w)) ++ map snd (iw_rest w).
Definition iw_set_weights (w : iwrap) (vs : list cv) : res iwrap :=
  if same_shapes (iw_get_weights w) vs then
    let '(cs, rest) := refill (iw_compressed w) vs in
    Ok (mkIW (iw_layer w) cs (combine (map fst (iw_rest w)) rest))
  else Err ValueError.
(** optimize.py:304-340 [_map_to_inference_weights]: the loop over ['kernel', 'bias']. *)
Fixpoint map_loop (a : calg) (tensors : list (string * list cv)) (training_weights : list cv) (i : nat) (names : list string)
    : res (list cv) :=
  match names with
  | [] => Ok []
  | n :: r =>
    match assoc n tensors with
    | Some ts => do c <- a_compress a ts ;; do l <- map_loop a tensors training_weights (i + List.length ts) r ;; Ok (c ++ l)
    | None => match nth_error training_weights i with
              | Some v => do l <- map_loop a tensors training_weights (i + 1) r ;; Ok (v :: l)
              | None => Err IndexError
              end
    end
  end.
Definition map_to_inference_weights (a : calg) (training_weights : list cv) (tensors : list (string * list cv)) : res (list cv) :=
  map_loop a tensors training_weights 0 ["kernel"; "bias"].
(** optimize.py:420-461 [create_layer_for_inference] on a built wrapper. *)
Definition create_layer_for_inference (a : calg) (w : twrap) : res iwrap :=
  do iw <- infer_build a (tw_layer w) (tw_training w) ;;
  match tw_get_weights w with
  | [] => Ok iw
  | tws => do vs <- map_to_inference_weights a tws (tw_training w) ;; iw_set_weights iw vs
  end.
(** optimize.py:233-246 [_InferenceWrapper.call]: the weights the nested layer uses. *)
Definition infer_call (a : calg) (w : iwrap) : res (list (string * cv)) :=
  do ps <- mapM (fun p => do r <- a_decompress a (snd p) ;; Ok (fst p, r)) (iw_compressed w) ;;
  Ok (ps ++ iw_rest w).

(** ** Whole models: compress_model / optimize_model of the algorithms
    (bias_only.py:71-93, same_training_and_inference.py:83-105, different_training_and_inference.py:81-112,
    periodical_update_and_scheduling.py:121-170, weight_clustering.py:114-128): clone_model applies
    create_layer_for_training to every layer but the input layers, in order.  The connectivity is kept by clone_model and not modelled. *)
Definition compress_model_train (a : calg) (layers : list ylayer) : res (list twrap) :=
  mapM (create_layer_for_training a) layers.
Definition compress_model_infer (a : calg) (layers : list twrap) : res (list iwrap) :=
  mapM (create_layer_for_inference a) layers.

(** ** The algorithms *)
(** bias_only.py:62-69, weight_clustering.py:105-112, same_training_and_inference.py:74-81,
    different_training_and_inference.py:70-77, periodical_update_and_scheduling.py:114-119: the kernel or the bias of Conv2D / Dense layers. *)
Definition attr_or_none (y : ylayer) (attr : string) : option string :=
  match find_weight y attr with Some w => Some (lw_name w) | None => None end.
Definition kernel_of (y : ylayer) : list (option string) :=
  match y_kind y with KOther | KConv1D => [] | _ => [attr_or_none y "kernel"] end.
Definition bias_of (y : ylayer) : list (option string) :=
  match y_kind y with KOther | KConv1D => [] | _ => [attr_or_none y "bias"] end.

(** bias_only.py:33-60.  [tf.reduce_mean] of an empty tensor is NaN; 0 stands for it here. *)
Definition mean (t : tensor Q) : Q := (sumQ (data t) / inject_Z (Z.of_nat (List.length (data t))))%Q.
Definition bias_init (v : cv) : res (list cv) :=
  match v with
  | VF t => Ok [VF (mkT [] [mean t]); VI (mkT [List.length (shape t)] (map Z.of_nat (shape t)))]
  | VI _ => Err TypeError
  end.
Definition bias_decompress (l : list cv) : res cv :=
  match l with
  | [VF m; VI s] => match data m with
                    | [x] => let sh := map Z.to_nat (data s) in Ok (VF (mkT sh (repeat x (prod sh))))
                    | _ => Err InvalidArgument
                    end
  | _ => Err TypeError
  end.
Definition bias_only : calg :=
  mkAlg bias_of bias_init (fun l => do v <- bias_decompress l ;; Ok (v, l)) (fun l => Ok l) bias_decompress.

(** weight_clustering.py:52-103.  With no cluster the centroid initialiser or [tf.argmin] fails. *)
Definition wc_init (init : initialiser) (n : Z) (v : cv) : res (list cv) :=
  match v with
  | VF t =>
      if (n <=? 0)%Z then Err InvalidArgument else
      do cs <- get_cluster_centroids init n false false ChannelsLast t ;;
      match cs with
      | Flat l =>
          if (rank t =? 2) || (rank t =? 4)
          then let p := get_pulling_indices l t in
               Ok [VF (mkT [List.length l] l); VI (tmap Z.of_nat p)]
          else Err NotImplementedError
      | Rows _ => Err TypeError
      end
  | VI _ => Err TypeError
  end.
Definition wc_decompress (l : list cv) : res cv :=
  match l with
  | [VF c; VI p] => Ok (VF (tmap (fun i => gather (data c) (Z.to_nat i)) p))
  | _ => Err TypeError
  end.
Definition weight_clustering (init : initialiser) (n : Z) : calg :=
  mkAlg kernel_of (wc_init init n) (fun l => do v <- wc_decompress l ;; Ok (v, l)) (fun l => Ok l) wc_decompress.

(** ** SVD *)
(** Row / column / leading components of an index (or shape) of rank at least 2. *)
Definition col (i : list nat) : nat := last i 0.
Definition row2 (i : list nat) : nat := last (removelast i) 0.
Definition lead (i : list nat) : list nat := removelast (removelast i).
(** [tf.linalg.svd]: (s, u, v) with w = u diag(s) v^T on the last two axes; an arbitrary function here. *)
Definition svd_op : Type := tensor Q -> tensor Q * tensor Q * tensor Q.
(** Length of [x[:k]] for a sequence of length [n] (Python slicing). *)
Definition slice_len (k : Z) (n : nat) : nat :=
  Z.to_nat (if (k <? 0)%Z then Z.max 0 (Z.of_nat n + k) else Z.min k (Z.of_nat n)).
(** [tf.matmul] on the last two axes. *)
Definition matmul (a b : tensor Q) : tensor Q :=
  tab (lead (shape a) ++ [row2 (shape a); col (shape b)])
      (fun i => sumQ (map (fun k => tget 0 a (lead i ++ [row2 i; k]) * tget 0 b (lead i ++ [k; col i]))%Q (seq 0 (col (shape a))))).
(** same_training_and_inference.py:34-50, different_training_and_inference.py:46-64,
    periodical_update_and_scheduling.py:71-86 and 94-112: slice the
    factors to [rank], multiply diag(s) into v.  Ranks other than 2 and 4 are rejected. *)
Definition factorize (svd : svd_op) (rk : Z) (w : tensor Q) : res (tensor Q * tensor Q) :=
  let '(s, u, v) := svd w in
  if (rank w =? 2) || (rank w =? 4) then
    let k := slice_len rk (col (shape s)) in
    let u' := tab (lead (shape u) ++ [row2 (shape u); slice_len rk (col (shape u))]) (tget 0%Q u) in
    let sv := tab (lead (shape u) ++ [k; row2 (shape v)])
                  (fun i => tget 0 s (lead i ++ [row2 i]) * tget 0 v (lead i ++ [col i; row2 i]))%Q in
    Ok (u', sv)
  else Err NotImplementedError.
Definition svd_decompress (l : list cv) : res cv :=
  match l with [VF u; VF sv] => Ok (VF (matmul u sv)) | _ => Err TypeError end.

(** same_training_and_inference.py:24-81. *)
Definition same_svd (svd : svd_op) (rk : Z) : calg :=
  mkAlg kernel_of
    (fun v => match v with VF t => do p <- factorize svd rk t ;; Ok [VF (fst p); VF (snd p)] | VI _ => Err TypeError end)
    (fun l => do v <- svd_decompress l ;; Ok (v, l)) (fun l => Ok l) svd_decompress.

(** different_training_and_inference.py:24-77. *)
Definition different_svd (svd : svd_op) (rk : Z) : calg :=
  mkAlg kernel_of (fun v => Ok [v])
    (fun l => match l with [v] => Ok (v, l) | _ => Err TypeError end)
    (fun l => match l with [VF t] => do p <- factorize svd rk t ;; Ok [VF (fst p); VF (snd p)] | _ => Err TypeError end)
    svd_decompress.

(** periodical_update_and_scheduling.py:58-91 [project_training_weights]: rank used at a given step.
    [tf.cast(x / y, int32)] truncates towards zero; [tf.math.round] of an integer tensor is the identity.  [update_freq] is not zero. *)
Definition weight_rank (w : list nat) : Z := Z.of_nat (Nat.min (col w) (row2 w)).
Definition rank_at (rk warmup full step : Z) : Z :=
  let r := if (step <? warmup)%Z then Z.quot (full * (warmup - step) + rk * step) warmup else rk in
  Z.min r full.
Definition period_project (svd : svd_op) (rk freq warmup : Z) (l : list cv) : res (cv * list cv) :=
  match l with
  | [VF w; VI st] =>
    match data st with
    | [step] =>
      let st' := VI (mkT [] [step + 1]%Z) in
      if (step mod freq =? 0)%Z then
        do p <- factorize svd (rank_at rk warmup (weight_rank (shape w)) step) w ;;
        Ok (VF w, [VF (matmul (fst p) (snd p)); st'])
      else Ok (VF w, [VF w; st'])
    | _ => Err InvalidArgument
    end
  | _ => Err TypeError
  end.
(** periodical_update_and_scheduling.py:24-119. *)
Definition periodical_svd (svd : svd_op) (rk freq warmup : Z) : calg :=
  mkAlg kernel_of
    (fun v => Ok [v; VI (mkT [] [0%Z])])
    (period_project svd rk freq warmup)
    (fun l => match l with [VF t; _] => do p <- factorize svd rk t ;; Ok [VF (fst p); VF (snd p)] | _ => Err TypeError end)
    svd_decompress.
