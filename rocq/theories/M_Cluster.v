(** Model of clustering/keras/clustering_algorithm.py and clustering_centroids.py.
    Weights, centroids and gradients are exact rationals; float rounding is not modelled. *)
From Verif Require Import Base M_Tensor M_Num M_Stages.
Open Scope Q_scope.

(** cluster_config.py:45-56 [GradientAggregation]. *)
Inductive aggregation : Type := SUM | AVG.
Inductive data_format : Type := ChannelsFirst | ChannelsLast.

(** tf.argmin over a vector: first index of the smallest entry. *)
Fixpoint argmin_from (best : Q) (besti i : nat) (l : list Q) : nat :=
  match l with
  | [] => besti
  | a :: r => if qltb a best then argmin_from a i (S i) r else argmin_from best besti (S i) r
  end.
Definition argmin (l : list Q) : nat := match l with [] => 0%nat | a :: r => argmin_from a 0 1 r end.

(** tf.sign. *)
Definition qsign (x : Q) : Q := if qltb 0 x then 1 else if qltb x 0 then -1 # 1 else 0.

(** clustering_algorithm.py:82-108 [add_gradient_to_original_weight]: forward value and the two gradients
    (to the clustered weight and to the original weight) for one element. *)
Definition add_gradient (clustered original : Q) : Q := clustered * qsign (original + 1000000).
Definition add_gradient_grad (g : Q) : Q * Q := (g, g).

(** clustering_algorithm.py:110-139 [get_pulling_indices]. *)
Definition pulling_index (cs : list Q) (w : Q) : nat := argmin (map (fun c => Qabs (w - c)) cs).
Definition get_pulling_indices (cs : list Q) (weight : tensor Q) : tensor nat := tmap (pulling_index cs) weight.

(** tf.gather of scalars by index ([0] stands for an index that is out of range; the code never produces one). *)
Definition gather (cs : list Q) (i : nat) : Q := nth i cs 0.

(** Elementwise binary op on two tensors of the same shape. *)
Definition tmap2 {A B C} (f : A -> B -> C) (x : tensor A) (y : tensor B) : tensor C :=
  mkT (shape x) (map (fun p => f (fst p) (snd p)) (combine (data x) (data y))).

(** clustering_algorithm.py:141-194 [get_clustered_weight], forward value.  SUM and AVG have the same forward value
    (168-182 only change gradients). *)
Definition get_clustered_weight (cs : list Q) (pulling : tensor nat) (original : tensor Q) : tensor Q :=
  tmap2 add_gradient (tmap (gather cs) pulling) original.

(** Gradient of tf.gather: scatter-add of the upstream gradients into a vector of [n] zeros; also tf.math.bincount
    (177-181), which scatter-adds ones. *)
Fixpoint add_at (l : list Q) (i : nat) (v : Q) : list Q :=
  match l, i with
  | [], _ => []
  | a :: r, O => (a + v) :: r
  | a :: r, S j => a :: add_at r j v
  end.
Fixpoint scatter_add (acc : list Q) (idx : list nat) (vals : list Q) : list Q :=
  match idx, vals with
  | i :: idx', v :: vals' => scatter_add (add_at acc i v) idx' vals'
  | _, _ => acc
  end.
Definition bincount (n : nat) (idx : list nat) : list Q := scatter_add (repeat 0 n) idx (repeat 1 (length idx)).
(** tf.math.divide_no_nan. *)
Definition divide_no_nan (a b : Q) : Q := if Qeq_bool b 0 then 0 else a / b.

(** clustering_algorithm.py:68-79, 166-194: gradient reaching the [n] centroids for assignment [idx] and upstream [g]. *)
Definition centroid_grad (agg : aggregation) (n : nat) (idx : list nat) (g : list Q) : list Q :=
  let d := scatter_add (repeat 0 n) idx (map (fun x => fst (add_gradient_grad x)) g) in
  match agg with
  | SUM => d
  | AVG => map (fun p => divide_no_nan (fst p) (snd p)) (combine d (bincount n idx))
  end.
(** Gradient reaching the original weights. *)
Definition original_grad (g : list Q) : list Q := map (fun x => snd (add_gradient_grad x)) g.

(** ** Per-channel variant: clustering_algorithm.py:197-318. *)
(** 215-216, 264-266: number of channels. *)
Definition num_channels {A} (df : data_format) (t : tensor A) : nat :=
  match df with ChannelsFirst => nth 1 (shape t) 0%nat | ChannelsLast => last (shape t) 0%nat end.
(** 219-221: weight[:, channel, :, :] / weight[:, :, :, channel] (fails unless the tensor has rank 4). *)
Definition channel_slice {A} (d0 : A) (df : data_format) (t : tensor A) (c : nat) : res (tensor A) :=
  match shape t, df with
  | [a; b; h; w], ChannelsFirst => Ok (tab [a; h; w] (fun i => match i with [i0; i1; i2] => tget d0 t [i0; c; i1; i2] | _ => d0 end))
  | [a; b; h; w], ChannelsLast => Ok (tab [a; b; h] (fun i => match i with [i0; i1; i2] => tget d0 t [i0; i1; i2; c] | _ => d0 end))
  | _, _ => Err InvalidArgument
  end.
(** tf.convert_to_tensor of a non-empty list of tensors of equal shape. *)
Definition stack {A} (ts : list (tensor A)) : res (tensor A) :=
  match ts with
  | [] => Err ValueError
  | t :: _ => if forallb (fun u => if list_eq_dec Nat.eq_dec (shape u) (shape t) then true else false) ts
              then Ok (mkT (length ts :: shape t) (List.concat (map data ts))) else Err ValueError
  end.
(** 227-231, 309-312: the permutation putting the stacked channels back; 272-276: the one bringing them to the front. *)
Definition perm_back (df : data_format) : list nat := match df with ChannelsFirst => [1; 0; 2; 3]%nat | ChannelsLast => [1; 2; 3; 0]%nat end.
Definition perm_front (df : data_format) : list nat := match df with ChannelsFirst => [1; 0; 2; 3]%nat | ChannelsLast => [3; 0; 1; 2]%nat end.
(** self.cluster_centroids[channel]. *)
Definition row (rows : list (list Q)) (c : nat) : res (list Q) := match nth_error rows c with Some r => Ok r | None => Err InvalidArgument end.

(** clustering_algorithm.py:200-236. *)
Definition get_pulling_indices_pc (df : data_format) (rows : list (list Q)) (weight : tensor Q) : res (tensor nat) :=
  do channel_indices <- mapM (fun c => do cw <- channel_slice 0 df weight c ;; do r <- row rows c ;; Ok (get_pulling_indices r cw))
                             (seq 0 (num_channels df weight)) ;;
  do p <- stack channel_indices ;;
  Ok (transpose 0%nat (perm_back df) p).

(** First-axis entry [t[i]]. *)
Definition subtensor {A} (d0 : A) (t : tensor A) (i : nat) : tensor A :=
  tab (tl (shape t)) (fun idx => tget d0 t (i :: idx)).

(** clustering_algorithm.py:238-316, forward value. *)
Definition get_clustered_weight_pc (df : data_format) (rows : list (list Q)) (pulling : tensor nat) (original : tensor Q) : res (tensor Q) :=
  let p := transpose 0%nat (perm_front df) pulling in
  do ch <- mapM (fun i => do r <- row rows i ;; Ok (tmap (gather r) (subtensor 0%nat p i))) (seq 0 (num_channels df original)) ;;
  do s <- stack ch ;;
  Ok (tmap2 add_gradient (transpose 0 (perm_back df) s) original).

(** 281-296 and the transposes of 302-312 read backwards: gradient of every centroid row. *)
Definition centroid_grad_pc (agg : aggregation) (df : data_format) (rows : list (list Q)) (pulling : tensor nat) (g : tensor Q) : res (list (list Q)) :=
  let p := transpose 0%nat (perm_front df) pulling in
  mapM (fun i => do r <- row rows i ;; do gi <- channel_slice 0 df g i ;;
                 Ok (centroid_grad agg (length r) (data (subtensor 0%nat p i)) (data gi))) (seq 0 (num_channels df g)).

(** ** Centroid initialisation: clustering_centroids.py *)
(** tf.linspace(a, b, n) for n >= 1. *)
Definition linspace (a b : Q) (n : nat) : list Q :=
  match n with
  | 1%nat => [a]
  | _ => map (fun i => a + inject_Z (Z.of_nat i) * ((b - a) / inject_Z (Z.of_nat n - 1))) (seq 0 n)
  end.

(** The four initialisers of clustering_centroids.py:418-427.  Random numbers ([tf.random.uniform(shape=(n,), lo, hi)])
    and the external op kmeans_plus_plus_initialization are parameters: arbitrary functions. *)
Inductive initialiser : Type :=
| Linear
| Random (uniform : nat -> Q -> Q -> list Q)
| DensityBased
| KMeansPlusPlus (choose : nat -> list Q -> list Q).

(** clustering_centroids.py:260-294 [TFLinearEquationSolver]: slope, intercept, solve_for_x. *)
Definition solver_a (x1 y1 x2 y2 : Q) : Q := (y2 - y1) / qmax (x2 - x1) (1 # 1000).
Definition solver_b (x1 y1 x2 y2 : Q) : Q := y1 - x1 * ((y2 - y1) / qmax (x2 - x1) (1 # 1000)).
Definition solve_for_x (x1 y1 x2 y2 y : Q) : Q := (y - solver_b x1 y1 x2 y2) / solver_a x1 y1 x2 y2.

(** clustering_centroids.py:297-306 [get_cdf_value]. *)
Definition cdf_value (ws : list Q) (x : Q) : Q :=
  inject_Z (Z.of_nat (length (filter (fun w => Qle_bool w x) ws))) / inject_Z (Z.of_nat (length ws)).

(** tf.searchsorted(side='right') on a sorted sequence: position of the first entry greater than [v]. *)
Fixpoint upper_bound (l : list Q) (v : Q) : nat :=
  match l with [] => 0%nat | c :: r => if qltb v c then 0%nat else S (upper_bound r v) end.

(** clustering_centroids.py:343-363 [get_single_centroid]. *)
Definition single_centroid (grid cdf : list Q) (i : nat) : Q :=
  let ic := Nat.min i (length cdf - 1) in
  let ip := Nat.max 0 (ic - 1) in
  let x1 := nth ic grid 0 in let x2 := nth ip grid 0 in
  let y1 := nth ic cdf 0 in let y2 := nth ip cdf 0 in
  if Qeq_bool y2 y1 then x1 else solve_for_x x1 y1 x2 y2 y1.

(** clustering_centroids.py:381-383: the gap. *)
Definition weights_gap (preserve_sparsity : bool) (lo hi : Q) : Q :=
  if preserve_sparsity then qmin (1 # 100) (qmin (Qabs lo) (Qabs hi) / 2) else 1 # 100.
(** 392-397: grid and CDF values. *)
Definition cdf_grid (preserve_sparsity : bool) (ws : list Q) : list Q :=
  let lo := reduce_min ws in let hi := reduce_max ws in let gap := weights_gap preserve_sparsity lo hi in
  linspace (lo - gap) (hi + gap) 30.
(** clustering_centroids.py:370-406. *)
Definition density_centroids (preserve_sparsity : bool) (ws : list Q) (n : nat) : list Q :=
  let grid := cdf_grid preserve_sparsity ws in
  let cdf := map (cdf_value ws) grid in
  map (fun p => single_centroid grid cdf (upper_bound cdf p)) (linspace (1 # 100) 1 n).

(** clustering_centroids.py:212-223 (linear), 229-242 (kmeans++), 248-257 (random), 370-406 (density):
    [_calculate_centroids_for_interval].  An empty interval with a positive count gives NaN/inf in TensorFlow
    (an error for kmeans++); the model reports an error. *)
Definition centroids_for_interval (init : initialiser) (preserve_sparsity : bool) (ws : list Q) (n : Z) : res (list Q) :=
  if (n <=? 0)%Z then Ok []
  else match ws with
  | [] => Err InvalidArgument
  | _ =>
    let k := Z.to_nat n in
    match init with
    | Linear => Ok (linspace (reduce_min ws) (reduce_max ws) k)
    | Random uniform => Ok (uniform k (reduce_min ws) (reduce_max ws))
    | DensityBased => Ok (density_centroids preserve_sparsity ws k)
    | KMeansPlusPlus choose => if (length ws <? k)%nat then Err InvalidArgument else Ok (choose k ws)
    end
  end.

(** clustering_centroids.py:97-166 [_zero_centroid_initialization]. *)
Definition zero_centroid_initialization (init : initialiser) (number_of_clusters : Z) (ws : list Q) : res (list Q) :=
  let negative := filter (fun w => qltb w 0) ws in
  let positive := filter (fun w => qltb 0 w) ws in
  let nneg := Z.of_nat (length negative) in let npos := Z.of_nat (length positive) in
  if (nneg + npos =? 0)%Z then Ok [0]
  else
    let number_of_non_zero_clusters := (number_of_clusters - 1)%Z in
    let ratio := inject_Z nneg / inject_Z (nneg + npos) in
    let number_of_negative_clusters := round_half_even (inject_Z number_of_non_zero_clusters * ratio) in
    let number_of_positive_clusters := (number_of_non_zero_clusters - number_of_negative_clusters)%Z in
    do nc <- centroids_for_interval init true negative number_of_negative_clusters ;;
    do pc <- centroids_for_interval init true positive number_of_positive_clusters ;;
    Ok (nc ++ [0] ++ pc)%list.

(** The centroid variable: one vector, or one row per channel. *)
Inductive centroids : Type := Flat (l : list Q) | Rows (l : list (list Q)).

(** tf.convert_to_tensor of a list of vectors: they must have equal lengths (and there must be one). *)
Definition stack_rows (rows : list (list Q)) : res centroids :=
  match rows with
  | [] => Err ValueError
  | r :: _ => if forallb (fun u => Nat.eqb (length u) (length r)) rows then Ok (Rows rows) else Err ValueError
  end.

(** clustering_centroids.py:81-96, 168-192. *)
Definition per_channel (f : list Q -> res (list Q)) (df : data_format) (weights : tensor Q) : res centroids :=
  do rows <- mapM (fun c => do cw <- channel_slice 0 df weights c ;; f (data cw)) (seq 0 (num_channels df weights)) ;;
  stack_rows rows.

(** clustering_centroids.py:74-80, 194-206 [get_cluster_centroids]. *)
Definition get_cluster_centroids (init : initialiser) (number_of_clusters : Z) (cluster_per_channel preserve_sparsity : bool)
    (df : data_format) (weights : tensor Q) : res centroids :=
  if preserve_sparsity then
    if cluster_per_channel then per_channel (zero_centroid_initialization init number_of_clusters) df weights
    else do l <- zero_centroid_initialization init number_of_clusters (data weights) ;; Ok (Flat l)
  else if cluster_per_channel then per_channel (fun ws => centroids_for_interval init false ws number_of_clusters) df weights
  else do l <- centroids_for_interval init false (data weights) number_of_clusters ;; Ok (Flat l).
