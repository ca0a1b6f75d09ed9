(** Magnitude masks, block masks, m-by-n masks.
    Sources: sparsity/keras/pruning_impl.py, sparsity/keras/pruning_utils.py.
    Weights are exact rationals (every finite float is one). *)
From Verif Require Import Base M_Num M_Tensor.
Open Scope Q_scope.

(** ** tf.math.top_k *)
(** Stable descending sort of (value, index) pairs: larger value first, lower index first on ties
    (documented behaviour of tf.math.top_k, called at pruning_impl.py:101 and pruning_utils.py:315). *)
Fixpoint insert_desc (x : Q * nat) (l : list (Q * nat)) : list (Q * nat) :=
  match l with
  | [] => [x]
  | y :: r => if Qle_bool (fst y) (fst x) then x :: y :: r else y :: insert_desc x r
  end.
Definition sort_desc (l : list (Q * nat)) : list (Q * nat) := fold_right insert_desc [] l.
Definition indexed (l : list Q) : list (Q * nat) := combine l (seq 0 (length l)).
Definition top_k_all (l : list Q) : list (Q * nat) := sort_desc (indexed l).

(** ** pruning_impl.py:71-124 [Pruning._update_mask] *)
(** pruning_impl.py:94-100: k = int32(max(round(size * (1 - sparsity)), 1)). *)
Definition mask_k (size : nat) (sparsity : Q) : Z :=
  Z.max (round_half_even (inject_Z (Z.of_nat size) * (1 - sparsity))) 1.

(** pruning_impl.py:91-124.  tf.gather with an index outside the tensor is an InvalidArgument error. *)
Definition update_mask (sparsity : Q) (weights : tensor Q) : res (Q * tensor Q) :=
  let abs_weights := map Qabs (data weights) in
  let k := mask_k (length abs_weights) sparsity in
  match nth_error (top_k_all abs_weights) (Z.to_nat (k - 1)) with
  | None => Err InvalidArgument
  | Some (threshold_value, threshold_pos) =>
      let new_mask :=
        map (fun p => Qle_bool threshold_value (fst p) || Nat.eqb (snd p) threshold_pos)
            (indexed abs_weights) in
      Ok (threshold_value, mkT (shape weights) (map b2q new_mask))
  end.

(** ** pruning_utils.py:28-43 [kronecker_product] *)
Definition kronecker_product (m1 m2 : tensor Q) : res (tensor Q) :=
  match shape m1, shape m2 with
  | [r1; c1], [r2; c2] =>
      do a <- reshape m1 [r1; 1; c1; 1]%nat ;;
      do b <- reshape m2 [1; r2; 1; c2]%nat ;;
      let p := tab [r1; r2; c1; c2]
        (fun idx => match idx with
                    | [i; k; j; l] => tget 0 a [i; 0; j; 0]%nat * tget 0 b [0; k; 0; l]%nat
                    | _ => 0 end) in
      reshape p [r1 * r2; c1 * c2]%nat
  | _, _ => Err ValueError
  end.

(** ** pruning_utils.py:46-110 [expand_tensor] *)
(** pruning_utils.py:82-84: tf.tile(tensor, [multiple, 1]). *)
Definition tile_rows (t : tensor Q) (multiple : nat) : tensor Q :=
  match shape t with
  | [r; c] => tab [multiple * r; c]%nat
      (fun idx => match idx with [i; j] => tget 0 t [i mod r; j]%nat | _ => 0 end)
  | _ => t
  end.
(** pruning_utils.py:86-91: indices[k*num_rows + r] = r*block_dim + k, as a function of the position. *)
Definition generate_index (num_rows block_dim x : nat) : nat :=
  ((x mod num_rows) * block_dim + x / num_rows)%nat.
(** pruning_utils.py:93-97: tf.scatter_nd of the tiled rows; rows scattered to the same index are added. *)
Definition replicate_rows (t : tensor Q) (multiple : nat) : tensor Q :=
  match shape t with
  | [r; c] =>
      let tiled := tile_rows t multiple in
      tab [r * multiple; c]%nat
        (fun idx => match idx with
           | [i; j] => sumQ (map (fun x => if Nat.eqb (generate_index r multiple x) i
                                            then tget 0 tiled [x; j]%nat else 0)
                                 (seq 0 (r * multiple)))
           | _ => 0 end)
  | _ => t
  end.
(** pruning_utils.py:74-110. *)
Definition expand_tensor (t : tensor Q) (block_size : list nat) : res (tensor Q) :=
  if negb (Nat.eqb (rank t) 2) then Err ValueError
  else match block_size with
       | [block_height; block_width] =>
           let e := if Nat.ltb 1 block_height then replicate_rows t block_height else t in
           let e := if Nat.ltb 1 block_width
                    then transpose 0 [1;0]%nat (replicate_rows (transpose 0 [1;0]%nat e) block_width)
                    else e in
           Ok e
       | _ => Err ValueError
       end.

(** ** tf.nn.pool, one spatial dimension, padding 'SAME' (documented TensorFlow behaviour):
    output size ceil(n/b), total padding out*b - n of which floor(total/2) goes before; padding entries are
    ignored by MAX and not counted by AVG. *)
Inductive pooling := AVG | MAX.
Definition ceil_div (n b : nat) : nat := ((n + b - 1) / b)%nat.
Definition same_pad_before (n b : nat) : nat := ((ceil_div n b * b - n) / 2)%nat.
Definition pool_window (n b i : nat) : list nat :=
  map (fun x => x - same_pad_before n b)%nat
      (filter (fun x => Nat.leb (same_pad_before n b) x && Nat.ltb (x - same_pad_before n b) n)
              (seq (i * b) b)).
Definition qmax_list (l : list Q) : Q :=
  match l with [] => 0 | a :: r => fold_left qmax r a end.
Definition pool_agg (p : pooling) (l : list Q) : Q :=
  match p with
  | AVG => sumQ l / inject_Z (Z.of_nat (length l))
  | MAX => qmax_list l
  end.
(** Pool the rows (axis 0) of a matrix. *)
Definition pool_axis0 (p : pooling) (b : nat) (t : tensor Q) : tensor Q :=
  match shape t with
  | [r; c] => tab [ceil_div r b; c]
      (fun idx => match idx with
         | [i; j] => pool_agg p (map (fun x => tget 0 t [x; j]) (pool_window r b i))
         | _ => 0 end)
  | _ => t
  end.
(** pruning_utils.py:113-159 [factorized_pool] with strides = window_shape, padding='SAME'
    (the only call, pruning_impl.py:185-190). *)
Definition factorized_pool (t : tensor Q) (bh bw : nat) (p : pooling) : res (tensor Q) :=
  if negb (Nat.eqb (rank t) 2) then Err ValueError
  else
    let height_pooling := pool_axis0 p bh t in
    let swap_height_width := transpose 0 [1;0]%nat height_pooling in
    let width_pooling := pool_axis0 p bw swap_height_width in
    Ok (squeeze (transpose 0 [1;0]%nat width_pooling)).

(** tf.slice(t, [0,0], [r,c]) (pruning_impl.py:198-201, pruning_utils.py:327). *)
Definition slice2 (t : tensor Q) (r c : nat) : res (tensor Q) :=
  match shape t with
  | [r'; c'] => if Nat.leb r r' && Nat.leb c c' then Ok (tab [r; c] (tget 0 t)) else Err InvalidArgument
  | _ => Err InvalidArgument
  end.

(** ** m-by-n *)
(** pruning_utils.py:193-230 [weights_rearrange]. *)
Definition weights_rearrange {A} (d : A) (w : tensor A) : res (tensor A) :=
  match shape w with
  | [_; _] => Ok (transpose d [1;0]%nat w)
  | [h; wd; ci; co] => reshape (transpose d [3;0;1;2]%nat w) [co * h * wd; ci]%nat
  | _ => Err ValueError
  end.

(** pruning_utils.py:233-281 [m_by_n_sparsity_mask_prepare]. *)
Fixpoint list_nat_eqb (a b : list nat) : bool :=
  match a, b with
  | [], [] => true
  | x :: a', y :: b' => Nat.eqb x y && list_nat_eqb a' b'
  | _, _ => false
  end.
Definition m_by_n_sparsity_mask_prepare {A} (d : A) (mask : tensor A) (weights_shape : list nat) : res (tensor A) :=
  if negb (Nat.eqb (length (data mask)) (prod weights_shape)) then Err InvalidArgument
  else if negb (Nat.eqb (rank mask) 2) then Err ValueError
  else
    do prepared <-
      (match weights_shape with
       | [_; _] => Ok (transpose d [1;0]%nat mask)
       | [s0; s1; s2; s3] =>
           do reshaped <- reshape mask [s3; s0; s1; s2] ;;
           Ok (transpose d [1;2;3;0]%nat reshaped)
       | _ => Err ValueError
       end) ;;
    if list_nat_eqb (shape prepared) weights_shape then Ok prepared else Err InvalidArgument.

(** pruning_utils.py:315-316: indices of the k largest entries of one block. *)
Definition top_k_indices (k : nat) (l : list Q) : list nat := map snd (firstn k (top_k_all l)).

(** pruning_utils.py:284-330 [generate_m_by_n_mask]; [m], [n] are non-negative ints. *)
Definition generate_m_by_n_mask (w : tensor Q) (m n : nat) : res (tensor Q) :=
  if negb (Nat.ltb m n) then Err InvalidArgument
  else match shape w with
  | [r; c] =>
      let abs_w := tmap Qabs w in
      let pad_after := (n - c mod n)%nat in
      let padded := tab [r; c + pad_after]%nat
        (fun idx => match idx with
           | [i; j] => if Nat.ltb j c then tget 0 abs_w [i; j] else 0
           | _ => 0 end) in
      let num_blocks := (length (data padded) / n)%nat in
      do blocks <- reshape padded [num_blocks; n] ;;
      let mask_pad := tab [num_blocks; n]
        (fun idx => match idx with
           | [b; i] =>
               let block := map (fun x => tget 0 blocks [b; x]) (seq 0 n) in
               b2q (existsb (Nat.eqb i) (top_k_indices (n - m) block))
           | _ => 0 end) in
      do reshaped <- reshape mask_pad [r; c + pad_after]%nat ;;
      slice2 reshaped r c
  | _ => Err InvalidArgument
  end.

(** pruning_impl.py:126-147 [Pruning._update_mask_sparsity_m_by_n]. *)
Definition update_mask_m_by_n (w : tensor Q) (m n : nat) : res (tensor Q) :=
  do prepared <- weights_rearrange 0 w ;;
  do mask <- generate_m_by_n_mask prepared m n ;;
  m_by_n_sparsity_mask_prepare 0 mask (shape w).

(** Start columns of [range(0, cols, n)] (pruning_utils.py:373). *)
Definition group_starts (cols n : nat) : list nat := map (fun g => g * n)%nat (seq 0 (ceil_div cols n)).
Definition count_nonzero (l : list Q) : nat := length (filter (fun x => negb (Qeq_bool x 0)) l).
Inductive last_channel := C_OUT | C_IN | OtherChannel.
(** pruning_utils.py:333-377 [is_pruned_m_by_n]. *)
Definition is_pruned_m_by_n (w : tensor Q) (m n : nat) (ch : last_channel) : res bool :=
  if Nat.ltb n m then Err ValueError
  else
    let num_non_zeros := (n - m)%nat in
    do prepared <-
      (match ch with
       | C_IN => match rev (shape w) with
                 | last :: front => reshape w [prod front; last]
                 | [] => Err InvalidArgument
                 end
       | C_OUT => weights_rearrange 0 w
       | OtherChannel => Err ValueError
       end) ;;
    match shape prepared with
    | [rows; cols] =>
        if Nat.eqb n 0 then (if Nat.eqb rows 0 then Ok true else Err ValueError)
        else Ok (forallb (fun row =>
                   forallb (fun col =>
                     Nat.leb (count_nonzero
                       (map (fun j => tget 0 prepared [row; j]%nat)
                            (seq col (Nat.min n (cols - col)))))
                       num_non_zeros)
                   (group_starts cols n))
                 (seq 0 rows))
    | _ => Err IndexError
    end.

(** ** pruning_impl.py:149-202 [Pruning._maybe_update_block_mask]; 999.0 is the dummy threshold. *)
Record prune_params := { pp_block : list nat; pp_pool : pooling; pp_m_by_n : option (nat * nat) }.

Definition maybe_update_block_mask (pp : prune_params) (sparsity : Q) (w : tensor Q) : res (Q * tensor Q) :=
  match pp_m_by_n pp with
  | Some (m, n) => do mask <- update_mask_m_by_n w m n ;; Ok (inject_Z 999, mask)
  | None =>
      match pp_block pp with
      | [1%nat; 1%nat] => update_mask sparsity w
      | [bh; bw] =>
          let squeezed := squeeze w in
          let absw := tmap Qabs squeezed in
          do pooled <- factorized_pool absw bh bw (pp_pool pp) ;;
          let pooled := if negb (Nat.eqb (rank pooled) 2) then squeeze pooled else pooled in
          do tm <- update_mask sparsity pooled ;;
          let '(thr, new_mask) := tm in
          do updated <- expand_tensor new_mask [bh; bw] ;;
          match shape squeezed with
          | r :: c :: _ =>
              do sliced <- slice2 updated r c ;;
              do out <- reshape sliced (shape w) ;;
              Ok (thr, out)
          | _ => Err IndexError
          end
      | _ => Err ValueError
      end
  end.

(** pruning_impl.py:64-69 [Pruning._validate_block]. *)
Definition validate_block (pp : prune_params) (weights : list (tensor Q)) : res unit :=
  if list_nat_eqb (pp_block pp) [1;1]%nat then Ok tt
  else if forallb (fun w => Nat.eqb (rank w) 2) weights then Ok tt else Err ValueError.
