(** Properties C22-C32 and C77-C80: weight clustering.  Statements only. *)
From Coq Require Import String.
From Verif Require Import Base M_Tensor M_Num M_Stages M_Cluster M_ClusterWrapper S_Cluster S_ClusterWrapper L_Num L_Cluster L_Cluster2 L_Cluster3 L_Cluster4 L_Cluster5 L_Cluster6 L_Cluster7 L_Cluster8 L_Cluster9.
Open Scope Q_scope.

(** ** C22 *)
Theorem C22_nearest : forall cs w idx, cs <> [] -> wf w -> valid (shape w) idx -> -1000000 < tget 0 w idx ->
  nearest_centroid cs (tget 0 w idx) (tget 0 (get_clustered_weight cs (get_pulling_indices cs w) w) idx).
Proof. exact cluster_flat_nearest. Qed.
Print Assumptions C22_nearest.
Theorem C22_distinct : forall cs w, cs <> [] -> wf w -> (forall x, In x (data w) -> -1000000 < x) ->
  at_most_distinct (List.length cs) (data (get_clustered_weight cs (get_pulling_indices cs w) w)).
Proof. exact cluster_flat_distinct. Qed.
Print Assumptions C22_distinct.
Theorem C22_idempotent : forall cs w idx, cs <> [] -> wf w -> valid (shape w) idx ->
  (forall x, In x (data w) -> -1000000 < x) -> (forall c, In c cs -> -1000000 < c) ->
  let w1 := get_clustered_weight cs (get_pulling_indices cs w) w in
  tget 0 (get_clustered_weight cs (get_pulling_indices cs w1) w1) idx == tget 0 w1 idx.
Proof. exact cluster_flat_idempotent. Qed.
Print Assumptions C22_idempotent.
(** The same for the weights that a wrapped layer uses in a forward pass after any history of updates. *)
Theorem C22_history : forall cfg l w0 evs, accepted cfg -> proper_layer l -> build cfg l = Ok w0 -> Forall (fits w0) evs ->
  exists w1 w2, run w0 evs = Ok w1 /\ step w1 Forward = Ok w2 /\ forall i v, nth_error (l_clusterable l) i = Some v ->
    exists t0 x t, In (v, t0) (l_weights l) /\ nth_error (cw_vars w2) i = Some x /\ cv_name x = v /\ cv_attr x = Some t /\ shape t = shape t0 /\ wf t /\
      forall idx, valid (shape t) idx -> -1000000 < tget 0 (cv_orig x) idx ->
        let cs := centroids_at (data_format_of cfg) (cv_cents x) idx in
        (Z.of_nat (List.length cs) <= number_of_clusters cfg)%Z /\
        exists o, (o == tget 0 (cv_orig x) idx \/ (preserve_sparsity cfg = true /\ o == 0)) /\ nearest_centroid cs o (tget 0 t idx).
Proof. exact history_nearest. Qed.
Print Assumptions C22_history.
(** ... and the stored cluster index of a position is that of the centroid the layer used there. *)
Theorem C22_history_indices : forall cfg l w0 evs, accepted cfg -> proper_layer l -> build cfg l = Ok w0 -> Forall (fits w0) evs ->
  exists w1 w2, run w0 evs = Ok w1 /\ step w1 Forward = Ok w2 /\ forall i v, nth_error (l_clusterable l) i = Some v ->
    exists x t, nth_error (cw_vars w2) i = Some x /\ cv_name x = v /\ cv_attr x = Some t /\
      forall idx, valid (shape t) idx -> -1000000 < tget 0 (cv_orig x) idx ->
        exists c, nth_error (centroids_at (data_format_of cfg) (cv_cents x) idx) (tget 0%nat (cv_idx x) idx) = Some c /\ c == tget 0 t idx.
Proof. exact history_indices. Qed.
Print Assumptions C22_history_indices.
Theorem C22_history_distinct : forall cfg l w0 evs, accepted cfg -> proper_layer l -> build cfg l = Ok w0 -> Forall (fits w0) evs ->
  exists w1 w2, run w0 evs = Ok w1 /\ step w1 Forward = Ok w2 /\ forall i v, nth_error (l_clusterable l) i = Some v ->
    exists x t, nth_error (cw_vars w2) i = Some x /\ cv_name x = v /\ cv_attr x = Some t /\
      ((forall y, In y (data (cv_orig x)) -> -1000000 < y) -> (exists cs, cv_cents x = Flat cs) -> at_most_distinct (Z.to_nat (number_of_clusters cfg)) (data t)).
Proof. exact history_distinct. Qed.
Print Assumptions C22_history_distinct.
(** Ties go to the lower index; a weight that is no centroid moves. *)
Example C22_ex : map Qred (data (get_clustered_weight [0; 2; -3 # 1] (get_pulling_indices [0; 2; -3 # 1] (mkT [4%nat] [1; 5; -1; -2 # 1])) (mkT [4%nat] [1; 5; -1; -2 # 1]))) = [0; 2; 0; -3 # 1].
Proof. vm_compute. reflexivity. Qed.
Definition ex_layer : clayer := mkCL [(10%nat, mkT [2; 2]%nat [1; 0; -2 # 1; 3]); (11%nat, mkT [2%nat] [1#2; 1#3])] [10%nat].
Definition ex_cfg (sparse : bool) : ccfg := mkCfg 3 Linear sparse false SUM ChannelsLast.
Example C22_history_ex : accepted (ex_cfg false) /\ proper_layer ex_layer /\ exists w0, build (ex_cfg false) ex_layer = Ok w0 /\
  Forall (fits w0) [Forward; Train [mkT [2; 2]%nat [7; 7; 0; -5 # 1]] [Flat [1; 4; -4 # 1]] [(11%nat, mkT [2%nat] [0; 0])]; Forward].
Proof.
  split; [split; [exact I|cbn; lia]|]. split.
  { split; [repeat constructor; cbn; intuition lia|]. split; [repeat constructor; cbn; tauto|]. split.
    - intros v t [[= <- <-]|[[= <- <-]|[]]]; reflexivity.
    - intros v [<-|[]]. now left. }
  eexists. split; [vm_compute; reflexivity|]. repeat constructor; cbn [cw_vars List.length]; try reflexivity.
  all: destruct i as [|[|i]]; cbn in *; try discriminate; repeat match goal with H : Some _ = Some _ |- _ => injection H as <- end; reflexivity.
Qed.

(** ** C23 *)
(** The kernel slices the code separates are clustered with their own centroids. *)
Theorem C23_per_slice : forall df rows w a b h o, shape w = [a; b; h; o] -> wf w -> (0 < nth (slice_axis df) (shape w) 0)%nat ->
  List.length rows = nth (slice_axis df) (shape w) 0%nat -> (forall r, In r rows -> r <> []) -> (forall x, In x (data w) -> -1000000 < x) ->
  exists p r, get_pulling_indices_pc df rows w = Ok p /\ get_clustered_weight_pc df rows p w = Ok r /\ shape r = shape w /\
    forall idx, valid (shape w) idx -> nearest_centroid (nth (slice_of df idx) rows []) (tget 0 w idx) (tget 0 r idx).
Proof. exact per_channel_nearest. Qed.
Print Assumptions C23_per_slice.
(** With data_format channels_last these are the output channels of the kernel. *)
Theorem C23_channels_last_partial : forall n rows w a b h o p r, shape w = [a; b; h; o] -> wf w -> List.length rows = o ->
  (forall x, In x rows -> x <> [] /\ (List.length x <= n)%nat) -> (forall x, In x (data w) -> -1000000 < x) ->
  get_pulling_indices_pc ChannelsLast rows w = Ok p -> get_clustered_weight_pc ChannelsLast rows p w = Ok r ->
  forall c, (c < o)%nat -> at_most_distinct n (output_channel_values r c).
Proof. exact channels_last_distinct. Qed.
Print Assumptions C23_channels_last_partial.
(** With channels_first they are columns of the kernel, and an output channel ends up with more than number_of_clusters values. *)
Definition ex_kernel : tensor Q := mkT [2; 2; 1; 1]%nat [1; 2; 3; 4].
Theorem C23_channels_first_refuted : exists n w rows p r, wf w /\ List.length (shape w) = 4%nat /\
  get_cluster_centroids Linear (Z.of_nat n) true false ChannelsFirst w = Ok (Rows rows) /\ get_pulling_indices_pc ChannelsFirst rows w = Ok p /\
  get_clustered_weight_pc ChannelsFirst rows p w = Ok r /\ ~ at_most_distinct n (output_channel_values r 0).
Proof.
  exists 2%nat, ex_kernel. do 3 eexists. split; [reflexivity|]. split; [reflexivity|]. split; [vm_compute; reflexivity|]. split; [vm_compute; reflexivity|]. split; [vm_compute; reflexivity|].
  intros (vals & L & H). match type of H with forall x, In x ?l -> _ => let l' := eval vm_compute in l in change (forall x, In x l' -> exists v, In v vals /\ x == v) in H end.
  destruct vals as [|v1 [|v2 [|v3 vals]]]; cbn in L; try lia.
  all: pose proof (H _ (or_introl eq_refl)) as (y1 & I1 & E1); pose proof (H _ (or_intror (or_introl eq_refl))) as (y2 & I2 & E2); pose proof (H _ (or_intror (or_intror (or_introl eq_refl)))) as (y3 & I3 & E3).
  all: cbn in I1, I2, I3; intuition (subst; lra).
Qed.
Print Assumptions C23_channels_first_refuted.
Example C23_ex : exists rows p r, get_cluster_centroids Linear 2 true false ChannelsLast (mkT [2; 1; 1; 2]%nat [1; 5; 3; 9]) = Ok (Rows rows) /\
  get_pulling_indices_pc ChannelsLast rows (mkT [2; 1; 1; 2]%nat [1; 5; 3; 9]) = Ok p /\ get_clustered_weight_pc ChannelsLast rows p (mkT [2; 1; 1; 2]%nat [1; 5; 3; 9]) = Ok r /\ List.length rows = 2%nat.
Proof. do 3 eexists. repeat split; vm_compute; reflexivity. Qed.

(** ** C24 *)
Theorem C24_sparsity_preserved : forall cfg l w0 evs, accepted cfg -> preserve_sparsity cfg = true -> proper_layer l -> build cfg l = Ok w0 -> Forall (fits w0) evs ->
  exists w1 w2, run w0 evs = Ok w1 /\ step w1 Forward = Ok w2 /\ forall i v, nth_error (l_clusterable l) i = Some v ->
    exists t0 x t, In (v, t0) (l_weights l) /\ nth_error (cw_vars w2) i = Some x /\ cv_name x = v /\ cv_attr x = Some t /\ shape t = shape t0 /\ wf t /\
      forall idx, valid (shape t0) idx -> tget 0 t0 idx == 0 -> tget 0 t idx == 0.
Proof. exact history_sparse. Qed.
Print Assumptions C24_sparsity_preserved.
Example C24_ex : accepted (ex_cfg true) /\ exists w0 w1, build (ex_cfg true) ex_layer = Ok w0 /\
  run w0 [Forward; Train [mkT [2; 2]%nat [7; 7; 0; -5 # 1]] [Flat [1; 4; -4 # 1]] [(11%nat, mkT [2%nat] [0; 0])]; Forward] = Ok w1 /\
  exists x t, nth_error (cw_vars w1) 0 = Some x /\ cv_attr x = Some t /\ map Qred (data t) = [1; 0; 0; -4 # 1].
Proof. split; [split; [exact I|cbn; lia]|]. do 2 eexists. split; [vm_compute; reflexivity|]. split; [vm_compute; reflexivity|]. do 2 eexists. split; [cbn; reflexivity|]. split; [cbn; reflexivity|]. vm_compute. reflexivity. Qed.

(** ** C25 *)
Theorem C25_sum : forall n idx g j, (j < n)%nat -> nth j (centroid_grad SUM n idx g) 0 == sumQ (member_grads j idx g).
Proof. exact centroid_grad_sum. Qed.
Print Assumptions C25_sum.
Theorem C25_mean : forall n idx g j, (j < n)%nat -> List.length g = List.length idx ->
  (member_grads j idx g = [] -> nth j (centroid_grad AVG n idx g) 0 == 0) /\
  (member_grads j idx g <> [] -> nth j (centroid_grad AVG n idx g) 0 == sumQ (member_grads j idx g) / inject_Z (Z.of_nat (List.length (member_grads j idx g)))).
Proof. exact centroid_grad_avg. Qed.
Print Assumptions C25_mean.
(** Every upstream gradient reaches exactly one centroid. *)
Theorem C25_total : forall n idx g, List.length g = List.length idx -> (forall i, In i idx -> (i < n)%nat) ->
  List.length (centroid_grad SUM n idx g) = n /\ sumQ (centroid_grad SUM n idx g) == sumQ g.
Proof. intros. split; [apply centroid_grad_length|now apply centroid_grad_total]. Qed.
Print Assumptions C25_total.
Theorem C25_per_channel : forall agg df rows p g a b h o c j, shape p = [a; b; h; o] -> shape g = [a; b; h; o] ->
  List.length rows = nth (slice_axis df) (shape g) 0%nat -> (c < nth (slice_axis df) (shape g) 0)%nat -> (j < List.length (nth c rows []))%nat ->
  exists gs L, centroid_grad_pc agg df rows p g = Ok gs /\ List.length gs = List.length rows /\ members_of df p c j L /\
    match agg with
    | SUM => nth j (nth c gs []) 0 == sumQ (map (tget 0 g) L)
    | AVG => nth j (nth c gs []) 0 == match L with [] => 0 | _ => sumQ (map (tget 0 g) L) / inject_Z (Z.of_nat (List.length L)) end
    end.
Proof. intros agg df rows p g a b h o c j E1 E2. rewrite E2. intros L1 L2 L3. apply (grad_pc_spec agg df rows p g a b h o c j E1 E2); auto; destruct df; assumption. Qed.
Print Assumptions C25_per_channel.
Example C25_ex : map Qred (centroid_grad SUM 3 [0; 2; 0]%nat [1; 5; 2]) = [3; 0; 5] /\ map Qred (centroid_grad AVG 3 [0; 2; 0]%nat [1; 5; 2]) = [3 # 2; 0; 5].
Proof. split; vm_compute; reflexivity. Qed.
Example C25_pc_ex : exists gs, centroid_grad_pc AVG ChannelsLast [[0; 1]; [2; 3]] (mkT [2; 1; 1; 2]%nat [0; 1; 0; 0]%nat) (mkT [2; 1; 1; 2]%nat [1; 5; 3; 9]) = Ok gs /\ map (map Qred) gs = [[2; 0]; [9; 5]].
Proof. eexists. split; vm_compute; reflexivity. Qed.

(** ** C26 *)
Theorem C26_gradients : forall g, original_grad g = g.
Proof. intros g. unfold original_grad, add_gradient_grad. cbn. apply map_id. Qed.
Print Assumptions C26_gradients.
Theorem C26_forward_partial : forall c w, -1000000 < w -> add_gradient c w == c.
Proof. exact add_gradient_id. Qed.
Print Assumptions C26_forward_partial.
(** For weights at or below -1e6 the forward value is 0 or the negated centroid. *)
Theorem C26_forward_refuted : forall c w, ~ c == 0 -> w <= -1000000 -> ~ add_gradient c w == c.
Proof. intros c w N H E. destruct (add_gradient_cases c w) as (_ & A & B). destruct (Qle_lt_or_eq _ _ H) as [L|L]; [rewrite (B L) in E|rewrite (A L) in E]; lra. Qed.
Print Assumptions C26_forward_refuted.
Example C26_ex : Qred (add_gradient (5#1) (3#1)) = 5#1 /\ Qred (add_gradient (-2000000#1) (-2000000#1)) = 2000000#1.
Proof. split; vm_compute; reflexivity. Qed.

(** ** C27 *)
Theorem C27_zero_centroid : forall init n ws l, sound_initialiser init -> (3 <= n)%Z -> (exists x, In x ws /\ ~ x == 0) ->
  zero_centroid_initialization init n ws = Ok l ->
  exists nc pc, l = (nc ++ [0] ++ pc)%list /\ Z.of_nat (List.length l) = n /\ (forall x, In x nc -> x < 0) /\ (forall x, In x pc -> 0 < x) /\
    Qabs (inject_Z (Z.of_nat (List.length nc)) - inject_Z (n - 1) * (inject_Z (Z.of_nat (count_negative ws)) / inject_Z (Z.of_nat (count_negative ws) + Z.of_nat (count_positive ws)))) <= 1#2 /\
    (count_negative ws = 0%nat -> nc = []) /\ (count_positive ws = 0%nat -> pc = []).
Proof. exact zero_init_spec. Qed.
Print Assumptions C27_zero_centroid.
Theorem C27_never_fails : forall init n ws, (3 <= n)%Z -> (exists x, In x ws /\ ~ x == 0) ->
  enough_points init (n - 1) (count_negative ws + count_positive ws) -> exists l, zero_centroid_initialization init n ws = Ok l.
Proof. exact zero_init_ok. Qed.
Print Assumptions C27_never_fails.
(** A tensor of zeros gets the zero centroid only. *)
Theorem C27_all_zero : forall init n ws, (forall x, In x ws -> x == 0) -> zero_centroid_initialization init n ws = Ok [0].
Proof. exact zero_init_all_zero. Qed.
Print Assumptions C27_all_zero.
Example C27_ex : exists l, zero_centroid_initialization Linear 4 [-1; 0; -3 # 1; 2; 0; -2 # 1] = Ok l /\ map Qred l = [-3 # 1; -1; 0; 2].
Proof. eexists. split; vm_compute; reflexivity. Qed.

(** ** C28 *)
Theorem C28_linear : forall n df w l, wf w -> (2 <= n)%nat -> get_cluster_centroids Linear (Z.of_nat n) false false df w = Ok (Flat l) ->
  exists lo hi, In lo (data w) /\ In hi (data w) /\ (forall x, In x (data w) -> lo <= x <= hi) /\ evenly_spaced lo hi n l.
Proof. exact linear_spec. Qed.
Print Assumptions C28_linear.
Theorem C28_defined : forall n df w, (2 <= n)%nat -> data w <> [] -> exists l, get_cluster_centroids Linear (Z.of_nat n) false false df w = Ok (Flat l).
Proof.
  intros n df w Hn N. unfold get_cluster_centroids. destruct (cfi_ok Linear false (data w) (Z.of_nat n)) as (l & ->); [congruence|exact I|]. now eexists.
Qed.
Print Assumptions C28_defined.
Example C28_ex : exists l, get_cluster_centroids Linear 3 false false ChannelsLast (mkT [3%nat] [4; 1; 2]) = Ok (Flat l) /\ map Qred l = [1; 5 # 2; 4].
Proof. eexists. split; vm_compute; reflexivity. Qed.

(** ** C29 *)
(** No centroid except the last one is an interpolation: it is always a grid point whose CDF value exceeds the requested probability. *)
Theorem C29_interpolation_refuted : forall ws n j, ws <> [] -> (2 <= n)%nat -> (S j < n)%nat ->
  ~ interpolates ws (cdf_grid false ws) (nth j (linspace (1#100) 1 n) 0) (nth j (density_centroids false ws n) 0).
Proof. intros ws n j N H L. rewrite nth_density by lia. apply not_interpolated; [exact N|discriminate|]. now apply probability_lt. Qed.
Print Assumptions C29_interpolation_refuted.
(** What does hold: the first grid point above the probability, sorted, within the enlarged weight range. *)
Theorem C29_grid_point_partial : forall ws n j, ws <> [] -> (j < n)%nat -> let p := nth j (linspace (1#100) 1 n) 0 in let grid := cdf_grid false ws in
  exists i, (i < 30)%nat /\ nth j (density_centroids false ws n) 0 == nth i grid 0 /\
    (forall k, (k < i)%nat -> fraction_le ws (nth k grid 0) <= p) /\ (p < 1 -> p < fraction_le ws (nth i grid 0)) /\ (1 <= p -> i = 29%nat).
Proof. intros ws n j N L. cbn zeta. rewrite nth_density by exact L. now apply centroid_value. Qed.
Print Assumptions C29_grid_point_partial.
Theorem C29_sorted_in_range : forall ws n i j, ws <> [] -> (i <= j)%nat -> (j < n)%nat ->
  nth i (density_centroids false ws n) 0 <= nth j (density_centroids false ws n) 0 /\
  reduce_min ws - (1#100) <= nth i (density_centroids false ws n) 0 /\ nth j (density_centroids false ws n) 0 <= reduce_max ws + (1#100).
Proof.
  intros ws n i j N L1 L2. split; [apply density_sorted; auto; discriminate|].
  assert (H : forall k, (k < n)%nat -> In (nth k (density_centroids false ws n) 0) (density_centroids false ws n)) by (intros; apply nth_In; now rewrite density_length).
  pose proof (density_range false ws n _ N ltac:(discriminate) (H i ltac:(lia))). pose proof (density_range false ws n _ N ltac:(discriminate) (H j L2)). cbn [weights_gap] in *. split; tauto.
Qed.
Print Assumptions C29_sorted_in_range.
Example C29_ex : List.length (density_centroids false [0; 1; 2; 3] 4) = 4%nat /\ ~ nth 1 (density_centroids false [0; 1; 2; 3] 4) 0 == nth 2 (density_centroids false [0; 1; 2; 3] 4) 0.
Proof. split; [reflexivity|]. vm_compute. discriminate. Qed.

(** ** C30 *)
Theorem C30_restores_partial : forall cfg l w0 evs, accepted cfg -> proper_layer l -> registered_in_order l -> build cfg l = Ok w0 -> Forall (fits w0) evs ->
  exists w1 w2 ws, run w0 evs = Ok w1 /\ step w1 Forward = Ok w2 /\ strip w1 = Ok ws /\ map Some ws = map (effective_value w2) (map fst (l_weights l)).
Proof. exact strip_restores. Qed.
Print Assumptions C30_restores_partial.
(** If the layer registers its weights in another order, weights are put back in wrong positions. *)
Definition swapped_layer : clayer := mkCL [(0%nat, mkT [2%nat] [1; 2]); (1%nat, mkT [2%nat] [3; 4]); (2%nat, mkT [2%nat] [5; 6])] [1%nat; 0%nat].
Theorem C30_order_refuted : exists cfg l w0 w2 ws, accepted cfg /\ proper_layer l /\ build cfg l = Ok w0 /\ step w0 Forward = Ok w2 /\ strip w0 = Ok ws /\
  map Some ws <> map (effective_value w2) (map fst (l_weights l)).
Proof.
  exists (mkCfg 2 Linear false false SUM ChannelsLast), swapped_layer. do 3 eexists. split; [split; [exact I|cbn; lia]|]. split.
  { split; [repeat constructor; cbn; intuition lia|]. split; [repeat constructor; cbn; intuition lia|]. split.
    - intros v t [[= <- <-]|[[= <- <-]|[[= <- <-]|[]]]]; reflexivity.
    - intros v [<-|[<-|[]]]; cbn; auto. }
  split; [vm_compute; reflexivity|]. split; [vm_compute; reflexivity|]. split; [vm_compute; reflexivity|]. vm_compute. discriminate.
Qed.
Print Assumptions C30_order_refuted.
Example C30_ex : registered_in_order ex_layer /\ exists w0 ws, build (ex_cfg false) ex_layer = Ok w0 /\ strip w0 = Ok ws /\ map (fun t => map Qred (data t)) ws = [[1 # 2; 1 # 2; -2 # 1; 3]; [1#2; 1#3]].
Proof. split; [reflexivity|]. do 2 eexists. split; [vm_compute; reflexivity|]. split; vm_compute; reflexivity. Qed.

(** ** C31 *)
(** Layers that are not Conv2D: wrapped with exactly the requested settings (never per channel) iff supported and the count is valid. *)
Theorem C31_plain : forall k cls sup n s pc, (k = Plain sup /\ cls = ClusterWeights) \/ (k = Rnn sup /\ cls = ClusterWeightsRNN) \/ (k = Mha /\ cls = ClusterWeightsMHA /\ sup = true) ->
  (forall z, valid_count n s z -> sup = true -> add_clustering_wrapper k n s pc = Ok (Wrap cls z s false)) /\
  ((sup = false \/ forall z, ~ valid_count n s z) -> add_clustering_wrapper k n s pc = Err ValueError).
Proof.
  intros k cls sup n s pc [(-> & ->)|[(-> & ->)|(-> & -> & ->)]]; cbn [add_clustering_wrapper].
  - apply (construct_spec ClusterWeights false sup n s pc).
  - apply (construct_spec ClusterWeightsRNN false sup n s false).
  - apply (construct_spec ClusterWeightsMHA false true n s false).
Qed.
Print Assumptions C31_plain.
(** A Conv2D with a bias: unchanged if a clustering unit (kernel, or kernel per channel) has no more weights than clusters, otherwise as above, with the per-channel flag. *)
Theorem C31_conv2d : forall (sup : bool) kernel channels df n (s pc : bool), (0 < channels)%nat ->
  let units := if pc then inject_Z (Z.of_nat kernel) / inject_Z (Z.of_nat channels) else inject_Z (Z.of_nat kernel) in
  let k := Conv sup kernel [kernel; channels] df in
  (units <= inject_Z n -> add_clustering_wrapper k (PInt n) s pc = Ok AsIs) /\
  (inject_Z n < units -> sup = true -> ((if s then 3 else 2) <= n)%Z -> add_clustering_wrapper k (PInt n) s pc = Ok (Wrap ClusterWeights n s pc)) /\
  (inject_Z n < units -> sup = false \/ (n < (if s then 3 else 2))%Z -> add_clustering_wrapper k (PInt n) s pc = Err ValueError).
Proof.
  intros sup kernel channels df n s pc C. cbn zeta. destruct (conv_bias sup kernel channels df n s pc C) as [A B]. split; [exact A|]. destruct (construct_spec ClusterWeights true sup (PInt n) s pc) as [D E]. split.
  - intros H -> L. rewrite B by exact H. rewrite (D n); [reflexivity|split; [reflexivity|exact L]|reflexivity].
  - intros H X. rewrite B by exact H. apply E. destruct X as [X|X]; [now left|right]. intros z [[= <-] L]. lia.
Qed.
Print Assumptions C31_conv2d.
(** A number of clusters that is not an int is turned down too (ValueError; TypeError if it is not a number at all) - except, for a Conv2D, a float that is
    no smaller than the number of weights: the layer is then left alone without a word. *)
Theorem C31_conv2d_not_an_int : forall (sup : bool) kernel channels df n (s pc : bool), (0 < channels)%nat -> (forall z, n <> PInt z) ->
  let units := if pc then inject_Z (Z.of_nat kernel) / inject_Z (Z.of_nat channels) else inject_Z (Z.of_nat kernel) in
  let k := Conv sup kernel [kernel; channels] df in
  (forall q, n = PFloat q -> units <= q -> add_clustering_wrapper k n s pc = Ok AsIs) /\
  (forall q, n = PFloat q -> q < units -> add_clustering_wrapper k n s pc = Err ValueError) /\
  (n = POther -> add_clustering_wrapper k n s pc = Err TypeError).
Proof. exact conv_other. Qed.
Print Assumptions C31_conv2d_not_an_int.
(** Never wrapped twice; input layers are cloned; anything that is not a layer, and a Conv2D without trainable weights, is rejected. *)
Theorem C31_others : forall n s pc sup kernel df, add_clustering_wrapper Wrapped n s pc = Ok AsIs /\ add_clustering_wrapper Input n s pc = Ok Cloned /\
  add_clustering_wrapper NotALayer n s pc = Err ValueError /\ add_clustering_wrapper (Conv sup kernel [] df) n s pc = Err ValueError.
Proof. intros. repeat split. Qed.
Print Assumptions C31_others.
Example C31_ex : add_clustering_wrapper (Plain true) (PInt 8) false true = Ok (Wrap ClusterWeights 8 false false) /\ add_clustering_wrapper (Plain true) (PInt 2) true false = Err ValueError /\
  add_clustering_wrapper (Plain true) (PFloat 8) false false = Err ValueError /\ add_clustering_wrapper (Conv true 144 [144; 16]%nat ChannelsLast) (PInt 8) false true = Ok (Wrap ClusterWeights 8 false true) /\
  add_clustering_wrapper (Conv true 144 [144; 16]%nat ChannelsLast) (PInt 9) false true = Ok AsIs.
Proof. repeat split; vm_compute; reflexivity. Qed.

(** ** C32 *)
(** The stored value of either setting names exactly that setting again. *)
Theorem C32_enum_values : (forall a, agg_of_value (agg_value a) = Ok a) /\ (forall i, init_of_value (init_value i) = Ok i) /\
  (forall s, (forall a, s <> agg_value a) -> agg_of_value s = Err ValueError) /\ (forall s, (forall i, s <> init_value i) -> init_of_value s = Err ValueError).
Proof.
  split; [intros []; reflexivity|]. split; [intros []; reflexivity|]. split.
  - intros s H. unfold agg_of_value. destruct (String.eqb_spec s (agg_value SUM)) as [E|]; [now apply H in E|]. destruct (String.eqb_spec s (agg_value AVG)) as [E|]; [now apply H in E|]. reflexivity.
  - intros s H. unfold init_of_value. cbn [find]. destruct (String.eqb_spec (init_value LINEAR) s) as [E|]; [symmetry in E; now apply H in E|]. destruct (String.eqb_spec (init_value RANDOM) s) as [E|]; [symmetry in E; now apply H in E|].
    destruct (String.eqb_spec (init_value DENSITY_BASED) s) as [E|]; [symmetry in E; now apply H in E|]. destruct (String.eqb_spec (init_value KMEANS_PLUS_PLUS) s) as [E|]; [symmetry in E; now apply H in E|]. reflexivity.
Qed.
Print Assumptions C32_enum_values.
Theorem C32_roundtrip : forall w, constructible w -> from_config (ws_class w) (get_config w) = Ok w.
Proof. exact config_roundtrip. Qed.
Print Assumptions C32_roundtrip.
(** Every wrapper that the constructor produces is of that form. *)
Theorem C32_reachable : forall cls conv sup n s pc c z s' p nm ly init a, construct cls conv sup n s pc = Ok (Wrap c z s' p) -> constructible (mkWS c z init s' a p conv nm ly).
Proof.
  intros cls conv sup n s pc c z s' p nm ly init a H. unfold construct in H. destruct sup; [|discriminate]. cbn [negb] in H. destruct n as [z0| |]; try discriminate.
  destruct (Z.leb_spec z0 (if s then 2 else 1)); [discriminate|]. injection H as <- <- <- <-. split; cbn; [destruct s; lia|]. intros ->. reflexivity.
Qed.
Print Assumptions C32_reachable.
Example C32_ex : constructible (mkWS ClusterWeights 8 DENSITY_BASED true (agg_value AVG) true true "cluster_conv" "conv").
Proof. split; cbn; [lia|discriminate]. Qed.

(** ** C77 *)
(** Sparsity-preserving per-channel clustering fails whenever one slice of the kernel is entirely zero and another is not. *)
Theorem C77_zero_channel_refuted : forall init n df w a b h o c1 c2, sound_initialiser init -> (3 <= n)%Z -> shape w = [a; b; h; o] ->
  (c1 < nth (slice_axis df) (shape w) 0)%nat -> (forall idx, valid (shape w) idx -> slice_of df idx = c1 -> tget 0 w idx == 0) ->
  (exists idx, valid (shape w) idx /\ slice_of df idx = c2 /\ ~ tget 0 w idx == 0) ->
  forall cs, get_cluster_centroids init n true true df w <> Ok cs.
Proof. intros init n df w a b h o c1 c2 Si Hn E. rewrite E. intros H1. rewrite <- E. apply (ragged_fails init n df w a b h o c1 c2 Si Hn E). destruct df; exact H1. Qed.
Print Assumptions C77_zero_channel_refuted.
Example C77_ex : get_cluster_centroids Linear 3 true true ChannelsLast (mkT [2; 1; 1; 2]%nat [0; 5; 0; 9]) = Err ValueError /\
  is_ok (get_cluster_centroids Linear 3 true true ChannelsLast (mkT [2; 1; 1; 2]%nat [1; 5; 0; 9])) = true.
Proof. split; vm_compute; reflexivity. Qed.

(** ** C78 *)
(** A Conv2D built with use_bias=False is never clustered per channel, however many weights it has. *)
Theorem C78_no_bias_refuted : forall sup kernel n s, (0 < kernel)%nat -> (1 <= n)%Z -> add_clustering_wrapper (Conv sup kernel [kernel] ChannelsLast) (PInt n) s true = Ok AsIs.
Proof. exact conv_no_bias_last. Qed.
Print Assumptions C78_no_bias_refuted.
(** With channels_first it even raises IndexError, for any arguments. *)
Theorem C78_no_bias_channels_first_refuted : forall sup kernel n s pc, add_clustering_wrapper (Conv sup kernel [kernel] ChannelsFirst) n s pc = Err IndexError.
Proof. reflexivity. Qed.
Print Assumptions C78_no_bias_channels_first_refuted.
(** With a bias the decision is the documented one (see also C31_conv2d). *)
Theorem C78_bias_partial : forall kernel channels df n, (0 < channels)%nat -> (2 <= n)%Z -> (Z.of_nat channels * n < Z.of_nat kernel)%Z ->
  add_clustering_wrapper (Conv true kernel [kernel; channels] df) (PInt n) false true = Ok (Wrap ClusterWeights n false true).
Proof.
  intros kernel channels df n C N H. destruct (C31_conv2d true kernel channels df n false true C) as (_ & A & _). apply A; auto.
  apply Qlt_shift_div_l; [apply inject_pos; lia|]. rewrite <- inject_Z_mult. apply inj_lt. lia.
Qed.
Print Assumptions C78_bias_partial.
Example C78_ex : add_clustering_wrapper (Conv true 1000 [1000]%nat ChannelsLast) (PInt 8) false true = Ok AsIs /\ add_clustering_wrapper (Conv true 1000 [1000; 10]%nat ChannelsLast) (PInt 8) false true = Ok (Wrap ClusterWeights 8 false true).
Proof. split; [apply conv_no_bias_last; lia|vm_compute; reflexivity]. Qed.

(** ** C79 *)
Theorem C79_scope_partial : deserialize_class cluster_scope ClusterWeights = Ok ClusterWeights.
Proof. reflexivity. Qed.
Print Assumptions C79_scope_partial.
(** Every clustered RNN or MultiHeadAttention layer is an object that cannot be deserialized in cluster_scope. *)
Theorem C79_scope_refuted : forall z (s pc : bool), ((if s then 3 else 2) <= z)%Z -> forall k, k = Rnn true \/ k = Mha ->
  exists cls p, add_clustering_wrapper k (PInt z) s pc = Ok (Wrap cls z s p) /\ deserialize_class cluster_scope cls = Err ValueError.
Proof.
  intros z s pc L k [-> | ->].
  - exists ClusterWeightsRNN, false. split; [|reflexivity]. apply (C31_plain (Rnn true) ClusterWeightsRNN true); [tauto|split; [reflexivity|exact L]|reflexivity].
  - exists ClusterWeightsMHA, false. split; [|reflexivity]. apply (C31_plain Mha ClusterWeightsMHA true); [tauto|split; [reflexivity|exact L]|reflexivity].
Qed.
Print Assumptions C79_scope_refuted.

(** ** C80 *)
(** After strip_clustering every projection kernel of a MultiHeadAttention layer is still the clustered tensor, not a variable: later updates of the variables do not reach it. *)
Theorem C80_mha_strip_refuted : forall st m cw originals, NoDup (map fst cw) -> map fst originals = map fst cw ->
  exists st' m', mha_strip st (mha_update m cw) originals = Ok (st', m') /\
    forall k t, In (k, t) cw -> get_attr (m_sub m') k = Ok (Tens t) /\ forall later : vstore, read later (Tens t) = t.
Proof.
  intros st m cw originals Nd E. destruct (mha_strip_ok originals st (mha_update m cw)) as (st' & m' & H).
  - intros k v Hin. assert (Hk : In k (map fst cw)) by (rewrite <- E; apply in_map_iff; exists (k, v); auto). apply in_map_iff in Hk. destruct Hk as ((k', t) & Ek & Hk). cbn in Ek. subst k'. exists (Tens t). now apply mha_update_get.
  - exists st', m'. split; [exact H|]. intros k t Hin. split; [|reflexivity]. rewrite (mha_strip_sub _ _ _ _ _ H). now apply mha_update_get.
Qed.
Print Assumptions C80_mha_strip_refuted.
(** The variables themselves do receive the clustered values (and nothing else is written): the values are right in get_weights(), but the layer no longer computes with them. *)
Theorem C80_mha_values : forall st m cw originals st' m', NoDup (map fst cw) -> map fst originals = map fst cw -> NoDup (map snd originals) ->
  mha_strip st (mha_update m cw) originals = Ok (st', m') ->
  (forall k v t, In (k, v) originals -> In (k, t) cw -> st' v = t) /\ forall u, ~ In u (map snd originals) -> st' u = st u.
Proof.
  intros st m cw originals st' m' Nd E Nv H. destruct (mha_strip_store _ _ _ _ _ H Nv) as [A B].
  - intros k v Hin. assert (Hk : In k (map fst cw)) by (rewrite <- E; apply in_map_iff; exists (k, v); auto). apply in_map_iff in Hk. destruct Hk as ((k', t) & Ek & Hk). cbn in Ek. subst k'. exists t. now apply mha_update_get.
  - split; [|exact B]. intros k v t Hi Ht. apply (A k v t Hi). now apply mha_update_get.
Qed.
Print Assumptions C80_mha_values.
Example C80_ex : NoDup (map fst [("_query_dense.kernel"%string, mkT [1%nat] [1]); ("_key_dense.kernel"%string, mkT [1%nat] [2])]).
Proof. repeat constructor; cbn; intuition discriminate. Qed.
