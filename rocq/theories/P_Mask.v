(** Properties C05-C12 of pruning masks. Statements only. *)
From Verif Require Import Base M_Num M_Tensor M_Mask S_Mask L_Mask L_Block L_MbyN L_MbyN2.
Open Scope Q_scope.

(** C05: the mask is exactly { |w| >= thr } with thr the k-th largest magnitude; kept beats pruned strictly. *)
Theorem C05_mask_is_threshold_set : forall s w thr mask,
  update_mask s w = Ok (thr, mask) ->
  shape mask = shape w /\ length (data mask) = length (data w) /\
  exists k, is_keep_count (length (data w)) s (Z.of_nat k) /\
    kth_largest (magnitudes w) k thr /\
    forall i, (i < length (data w))%nat ->
      nth i (data mask) 0 = (if Qle_bool thr (Qabs (nth i (data w) 0)) then 1 else 0).
Proof. exact update_mask_spec. Qed.
Print Assumptions C05_mask_is_threshold_set.
Theorem C05_kept_larger_than_pruned : forall s w thr mask,
  update_mask s w = Ok (thr, mask) ->
  forall i j, (i < length (data w))%nat -> (j < length (data w))%nat ->
    nth i (data mask) 0 == 1 -> nth j (data mask) 0 == 0 ->
    Qabs (nth j (data w) 0) < Qabs (nth i (data w) 0).
Proof. exact update_mask_separates. Qed.
Print Assumptions C05_kept_larger_than_pruned.
Theorem C05_update_succeeds : forall s w,
  (0 < length (data w))%nat -> 0 <= s -> exists thr mask, update_mask s w = Ok (thr, mask).
Proof. exact update_mask_ok. Qed.
Print Assumptions C05_update_succeeds.
(** the wrapper's entry point with block_size (1,1) is this update *)
Theorem C05_elementwise_entry : forall pp s w, pp_m_by_n pp = None -> pp_block pp = [1; 1]%nat ->
  maybe_update_block_mask pp s w = update_mask s w.
Proof. exact elementwise_case. Qed.
Print Assumptions C05_elementwise_entry.
Example C05_ex : update_mask (1#2) (mkT [2;3]%nat [3; -7; 0; 1; -(2); 5]) =
  Ok (3, mkT [2;3]%nat [1; 1; 0; 0; 0; 1]).
Proof. reflexivity. Qed.

(** C06 *)
Theorem C06_at_least_k_kept : forall s w thr mask,
  update_mask s w = Ok (thr, mask) ->
  exists k, is_keep_count (length (data w)) s (Z.of_nat k) /\ (1 <= k)%nat /\ (k <= ones mask)%nat.
Proof. exact ones_at_least. Qed.
Print Assumptions C06_at_least_k_kept.
Theorem C06_exactly_k_kept_when_distinct : forall s w thr mask,
  update_mask s w = Ok (thr, mask) -> pairwise_distinct (magnitudes w) ->
  is_keep_count (length (data w)) s (Z.of_nat (ones mask)).
Proof. exact ones_exact. Qed.
Print Assumptions C06_exactly_k_kept_when_distinct.
Theorem C06_keep_count_is_a_function : forall size s k k',
  is_keep_count size s k -> is_keep_count size s k' -> k = k'.
Proof. exact keep_count_unique. Qed.
Print Assumptions C06_keep_count_is_a_function.
Theorem C06_zero_sparsity_keeps_all : forall w thr mask, update_mask 0 w = Ok (thr, mask) ->
  forall i, (i < length (data w))%nat -> nth i (data mask) 0 = 1.
Proof. exact update_mask_keep_all_zero. Qed.
Print Assumptions C06_zero_sparsity_keeps_all.
Example C06_ex : is_keep_count 6 (1#2) 3 /\ is_keep_count 5 (1#2) 2 /\ is_keep_count 4 (99#100) 1 /\
  pairwise_distinct (magnitudes (mkT [3]%nat [3; -7; 0])).
Proof.
  split; [exists 3%Z; vm_compute; intuition discriminate|].
  split; [exists 2%Z; vm_compute; intuition discriminate|].
  split; [exists 0%Z; vm_compute; intuition discriminate|].
  intros i j Hi Hj. cbn in Hi, Hj.
  destruct i as [|[|[|i]]]; destruct j as [|[|[|j]]]; try lia; vm_compute; intuition discriminate.
Qed.

(** C07: false because of ties: a constant tensor keeps every weight whatever the sparsity. *)
Theorem C07_refuted : exists s w thr mask,
  0 <= s < 1 /\ update_mask s w = Ok (thr, mask) /\
  ~ is_keep_count (length (data w)) s (Z.of_nat (ones mask)).
Proof.
  exists (1#2), (mkT [4]%nat [1;1;-(1);1]), 1, (mkT [4]%nat [1;1;1;1]).
  split; [lra|]. split; [reflexivity|]. intros H.
  assert (is_keep_count 4 (1#2) 2) by (exists 2%Z; vm_compute; intuition discriminate).
  pose proof (keep_count_unique _ _ _ _ H H0). discriminate.
Qed.
Print Assumptions C07_refuted.

(** C08 *)
Theorem C08_mask_constant_on_blocks : forall pp s w r c bh bw thr mask,
  pp_m_by_n pp = None -> pp_block pp = [bh; bw] -> (bh, bw) <> (1, 1)%nat -> (0 < bh)%nat -> (0 < bw)%nat ->
  wf w -> shape w = [r; c] -> r <> 1%nat -> c <> 1%nat ->
  maybe_update_block_mask pp s w = Ok (thr, mask) ->
  shape mask = shape w /\
  (forall i j i' j', (i < r)%nat -> (j < c)%nat -> (i' < r)%nat -> (j' < c)%nat ->
     (i / bh = i' / bh)%nat -> (j / bw = j' / bw)%nat -> tget 0 mask [i; j] = tget 0 mask [i'; j']) /\
  (forall i j, (i < r)%nat -> (j < c)%nat -> tget 0 mask [i; j] = 0 \/ tget 0 mask [i; j] = 1).
Proof. exact block_constant. Qed.
Print Assumptions C08_mask_constant_on_blocks.
Theorem C08_blocks_chosen_by_magnitude : forall pp s w kr kc bh bw thr mask,
  pp_m_by_n pp = None -> pp_block pp = [bh; bw] -> (bh, bw) <> (1, 1)%nat -> (0 < bh)%nat -> (0 < bw)%nat ->
  wf w -> shape w = [kr * bh; kc * bw]%nat -> (kr * bh <> 1)%nat -> (kc * bw <> 1)%nat ->
  maybe_update_block_mask pp s w = Ok (thr, mask) ->
  wf mask /\ shape mask = shape w /\
  exists q, wf q /\ shape q = [kr; kc] /\
    (forall bi bj, (bi < kr)%nat -> (bj < kc)%nat ->
       match pp_pool pp with
       | AVG => is_mean (block_magnitudes w bh bw bi bj) (tget 0 q [bi; bj])
       | MAX => is_max (block_magnitudes w bh bw bi bj) (tget 0 q [bi; bj])
       end) /\
    (exists k, is_keep_count (kr * kc) s (Z.of_nat k) /\ kth_largest (magnitudes q) k thr) /\
    (forall i j, (i < kr * bh)%nat -> (j < kc * bw)%nat ->
       tget 0 mask [i; j] = if Qle_bool thr (tget 0 q [i / bh; j / bw]%nat) then 1 else 0).
Proof. exact block_aligned. Qed.
Print Assumptions C08_blocks_chosen_by_magnitude.
Theorem C08_rejected_iff_thin : forall pp s w r c bh bw,
  pp_m_by_n pp = None -> pp_block pp = [bh; bw] -> (bh, bw) <> (1, 1)%nat -> (0 < bh)%nat -> (0 < bw)%nat ->
  wf w -> shape w = [r; c] -> (0 < r)%nat -> (0 < c)%nat -> (0 <= s)%Q ->
  (is_ok (maybe_update_block_mask pp s w) = true <-> ceil_div r bh <> 1%nat /\ ceil_div c bw <> 1%nat) /\
  (forall e, maybe_update_block_mask pp s w = Err e -> e = ValueError).
Proof. exact block_mask_rejects. Qed.
Print Assumptions C08_rejected_iff_thin.
(** "chosen by its own magnitude" is false when a side is not a multiple of the block side: SAME pooling shifts the
    windows by half the padding while the mask blocks start at 0; with MAX pooling the largest weight is pruned. *)
Theorem C08_refuted : exists s w thr mask i j i' j',
  let pp := {| pp_block := [1; 4]%nat; pp_pool := MAX; pp_m_by_n := None |} in
  shape w = [2; 10]%nat /\ wf w /\ maybe_update_block_mask pp s w = Ok (thr, mask) /\
  (i < 2)%nat /\ (j < 10)%nat /\ (i' < 2)%nat /\ (j' < 10)%nat /\
  tget 0 mask [i; j] = 0 /\ tget 0 mask [i'; j'] = 1 /\
  (forall x y, (x < 2)%nat -> (y < 10)%nat -> (x / 1 = i' / 1)%nat -> (y / 4 = j' / 4)%nat ->
     Qabs (tget 0 w [x; y]) < Qabs (tget 0 w [i; j])).
Proof.
  exists (5#6), (mkT [2;10]%nat [1;1;1;8;1;1;1;1;1;1; 1;1;1;1;1;1;1;1;1;1]).
  eexists. eexists. exists 0%nat, 3%nat, 0%nat, 4%nat. cbn zeta.
  split; [reflexivity|]. split; [reflexivity|]. split; [vm_compute; reflexivity|].
  do 4 (split; [lia|]). split; [reflexivity|]. split; [reflexivity|].
  intros x y Hx Hy E1 E2. rewrite !Nat.div_1_r in E1. subst x.
  do 10 (destruct y as [|y]; [try (vm_compute in E2; discriminate); vm_compute; reflexivity|]). lia.
Qed.
Print Assumptions C08_refuted.
(** A block other than (1,1) is only accepted when every pruned weight is a matrix. *)
Theorem C08_blocks_need_matrices : forall pp ws, validate_block pp ws = Ok tt <-> pp_block pp = [1; 1]%nat \/ forall w, In w ws -> rank w = 2%nat.
Proof. exact validate_block_iff. Qed.
Print Assumptions C08_blocks_need_matrices.
Example C08_ex : let pp := {| pp_block := [2; 2]%nat; pp_pool := AVG; pp_m_by_n := None |} in
  exists thr, maybe_update_block_mask pp (1#2) (mkT [4;4]%nat [1;2;0;0; 3;4;0;0; 0;0;5;5; 0;1;5;5]) =
  Ok (thr, mkT [4;4]%nat [1;1;0;0; 1;1;0;0; 0;0;1;1; 0;0;1;1]).
Proof. eexists. vm_compute. reflexivity. Qed.

(** C09 *)
Theorem C09_expand_index_law : forall t r c bh bw,
  wf t -> shape t = [r; c] -> (0 < bh)%nat -> (0 < bw)%nat ->
  exists e, expand_tensor t [bh; bw] = Ok e /\ wf e /\ shape e = [r * bh; c * bw]%nat /\
    forall i j, (i < r * bh)%nat -> (j < c * bw)%nat -> tget 0 e [i; j] = tget 0 t [i / bh; j / bw]%nat.
Proof. exact expand_spec. Qed.
Print Assumptions C09_expand_index_law.
Theorem C09_kronecker_index_law : forall m1 m2 r1 c1 r2 c2,
  wf m1 -> wf m2 -> shape m1 = [r1; c1] -> shape m2 = [r2; c2] ->
  exists k, kronecker_product m1 m2 = Ok k /\ wf k /\ shape k = [r1 * r2; c1 * c2]%nat /\
    forall i j, (i < r1 * r2)%nat -> (j < c1 * c2)%nat ->
      tget 0 k [i; j] = tget 0 m1 [i / r2; j / c2]%nat * tget 0 m2 [i mod r2; j mod c2]%nat.
Proof. exact kron_spec. Qed.
Print Assumptions C09_kronecker_index_law.
Theorem C09_expand_is_kronecker_with_ones : forall t r c bh bw,
  wf t -> shape t = [r; c] -> (0 < bh)%nat -> (0 < bw)%nat ->
  expand_tensor t [bh; bw] = kronecker_product t (tab [bh; bw] (fun _ => 1)).
Proof. exact expand_kron. Qed.
Print Assumptions C09_expand_is_kronecker_with_ones.
Theorem C09_expand_rejects : forall t bs, (rank t <> 2 \/ length bs <> 2)%nat -> expand_tensor t bs = Err ValueError.
Proof. exact expand_errors. Qed.
Print Assumptions C09_expand_rejects.
Example C09_ex : expand_tensor (mkT [2;2]%nat [1;2;3;4]) [2;3]%nat =
  Ok (mkT [4;6]%nat [1;1;1;2;2;2; 1;1;1;2;2;2; 3;3;3;4;4;4; 3;3;3;4;4;4]).
Proof. vm_compute. reflexivity. Qed.

(** C10: on the 2-D arrangement [w] of the weights. *)
Theorem C10_groups_keep_exactly_the_largest : forall w r c m n mask i g, wf w -> shape w = [r; c] ->
  generate_m_by_n_mask w m n = Ok mask -> (i < r)%nat -> (g * n < c)%nat ->
  count_if (fun j => Qeq_bool (tget 0 mask [i; j]) 1) (group_cols c n g) =
    Nat.min (n - m) (length (group_cols c n g)) /\
  forall j j', In j (group_cols c n g) -> In j' (group_cols c n g) ->
    tget 0 mask [i; j] == 1 -> tget 0 mask [i; j'] == 0 ->
    Qabs (tget 0 w [i; j']) <= Qabs (tget 0 w [i; j]).
Proof. exact generate_group. Qed.
Print Assumptions C10_groups_keep_exactly_the_largest.
Theorem C10_entries_are_0_or_1 : forall w r c m n mask i j, wf w -> shape w = [r; c] ->
  generate_m_by_n_mask w m n = Ok mask -> (i < r)%nat -> (j < c)%nat ->
  tget 0 mask [i; j] = 0 \/ tget 0 mask [i; j] = 1.
Proof. exact generate_01. Qed.
Print Assumptions C10_entries_are_0_or_1.
Theorem C10_succeeds_for_m_lt_n_else_rejected : forall w r c m n, wf w -> shape w = [r; c] ->
  ((m < n)%nat -> exists mask, generate_m_by_n_mask w m n = Ok mask /\ shape mask = [r; c]) /\
  ((n <= m)%nat -> generate_m_by_n_mask w m n = Err InvalidArgument).
Proof.
  intros w r c m n W S. split; [|exact (generate_error w m n)].
  intros H. destruct (generate_spec w r c m n W S H) as (k & A & _ & B & _). eauto.
Qed.
Print Assumptions C10_succeeds_for_m_lt_n_else_rejected.
(** The same on the weight itself: groups of input channels, one per output channel and kernel position. *)
Theorem C10_on_the_weight : forall w fs ci co m n mask front o g, wf w -> shape w = fs ++ [ci; co] -> (length fs = 0 \/ length fs = 2)%nat ->
  update_mask_m_by_n w m n = Ok mask -> valid fs front -> (o < co)%nat -> (g * n < ci)%nat ->
  shape mask = shape w /\
  count_if (fun idx => Qeq_bool (tget 0 mask idx) 1) (group_positions front o ci n g) = Nat.min (n - m) (length (group_positions front o ci n g)) /\
  (forall p q, In p (group_positions front o ci n g) -> In q (group_positions front o ci n g) ->
    tget 0 mask p == 1 -> tget 0 mask q == 0 -> Qabs (tget 0 w q) <= Qabs (tget 0 w p)).
Proof. exact mbyn_weights. Qed.
Print Assumptions C10_on_the_weight.
Example C10_ex : generate_m_by_n_mask (mkT [1;6]%nat [1;-(4);2;3; 0;0]) 2 4 =
  Ok (mkT [1;6]%nat [0;1;0;1; 1;1]).
Proof. vm_compute. reflexivity. Qed.

(** C11 *)
Theorem C11_checker_accepts_pruned : forall w m n mask, wf w -> (rank w = 2 \/ rank w = 4)%nat -> (m < n)%nat ->
  update_mask_m_by_n w m n = Ok mask -> is_pruned_m_by_n (tmul w mask) m n C_OUT = Ok true.
Proof. exact pruned_accepted. Qed.
Print Assumptions C11_checker_accepts_pruned.
(** The checker decides exactly the pattern. *)
Theorem C11_checker_exact : forall w fs ci co m n, wf w -> shape w = fs ++ [ci; co] -> (length fs = 0 \/ length fs = 2)%nat -> (m <= n)%nat -> (0 < n)%nat ->
  exists b, is_pruned_m_by_n w m n C_OUT = Ok b /\
    (b = true <-> forall front o g, valid fs front -> (o < co)%nat -> (g * n < ci)%nat ->
       (count_if (fun idx => negb (Qeq_bool (tget 0%Q w idx) 0)) (group_positions front o ci n g) <= n - m)%nat).
Proof. exact checker_iff. Qed.
Print Assumptions C11_checker_exact.
Theorem C11_checker_exact_channels_last : forall w fs ci m n, wf w -> shape w = fs ++ [ci] -> (m <= n)%nat -> (0 < n)%nat ->
  exists b, is_pruned_m_by_n w m n C_IN = Ok b /\
    (b = true <-> forall front g, valid fs front -> (g * n < ci)%nat ->
       (count_if (fun idx => negb (Qeq_bool (tget 0%Q w idx) 0)) (map (fun i => front ++ [i]) (group_cols ci n g)) <= n - m)%nat).
Proof. exact checker_last_iff. Qed.
Print Assumptions C11_checker_exact_channels_last.
Example C11_exact_ex : is_pruned_m_by_n (mkT [4;1]%nat [1;0;0;4]) 2 4 C_OUT = Ok true /\ is_pruned_m_by_n (mkT [4;1]%nat [1;0;3;4]) 2 4 C_OUT = Ok false /\
  is_pruned_m_by_n (mkT [1;4]%nat [1;0;3;4]) 2 4 C_OUT = Ok true /\ is_pruned_m_by_n (mkT [1;4]%nat [1;0;3;4]) 2 4 C_IN = Ok false.
Proof. repeat split. Qed.
Example C11_ex : exists mask, update_mask_m_by_n (mkT [4;2]%nat [1;2;3;4;5;6;7;8]) 2 4 = Ok mask /\
  data mask = [0;0;0;0;1;1;1;1].
Proof. eexists. vm_compute. split; reflexivity. Qed.

(** C12 *)
Theorem C12_rearrange_lossless : forall (w p : tensor Q),
  wf w -> weights_rearrange 0 w = Ok p -> m_by_n_sparsity_mask_prepare 0 p (shape w) = Ok w.
Proof. exact (prepare_rearrange 0). Qed.
Print Assumptions C12_rearrange_lossless.
Theorem C12_mask_lands_on_its_weight : forall (m q : tensor Q) s,
  wf m -> (exists r c, shape m = [r; c] /\
     ((s = [c; r]) \/ (exists h x co, s = [h; x; c; co] /\ r = co * h * x)%nat)) ->
  m_by_n_sparsity_mask_prepare 0 m s = Ok q -> shape q = s /\ wf q /\ weights_rearrange 0 q = Ok m.
Proof. exact (fun m q s => rearrange_prepare 0 m s q). Qed.
Print Assumptions C12_mask_lands_on_its_weight.
Theorem C12_other_ranks_rejected : forall (w : tensor Q), (rank w <> 2)%nat -> (rank w <> 4)%nat ->
  weights_rearrange 0 w = Err ValueError.
Proof. exact (rearrange_error 0). Qed.
Print Assumptions C12_other_ranks_rejected.
Theorem C12_ranks_2_and_4_accepted : forall (w : tensor Q), wf w -> (rank w = 2 \/ rank w = 4)%nat ->
  exists p, weights_rearrange 0 w = Ok p.
Proof. intros w W H. destruct (rearrange_ok 0 w W H) as (p & E & _). eauto. Qed.
Print Assumptions C12_ranks_2_and_4_accepted.
Example C12_ex : weights_rearrange 0 (mkT [1;2;2;2]%nat [1;2;3;4;5;6;7;8]) = Ok (mkT [4;2]%nat [1;3;5;7;2;4;6;8]).
Proof. vm_compute. reflexivity. Qed.
