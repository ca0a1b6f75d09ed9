(** The float32 arithmetic of the pruning step count, the polynomial schedule and uniform quantization.  The other models compute
    with exact numbers; here every operation rounds as IEEE 754 binary32 does (to nearest, ties to even, gradual underflow), using
    Flocq's formalization.  What is not modelled: TensorFlow kernels that flush subnormal numbers to zero. *)
From Flocq Require Import Core BinarySingleNaN.
From Verif Require Import Base M_Num M_Tensor M_Mask.

Definition f32 := binary_float 24 128.
#[global] Instance prec24 : Prec_gt_0 24 := eq_refl.
#[global] Instance emax128 : Prec_lt_emax 24 128 := eq_refl.
(** tf.cast of an int32 or int64 to float32, and a Python integer meeting a float32 tensor. *)
Definition f_of_int (n : Z) : f32 := binary_normalize 24 128 prec24 emax128 mode_NE n 0 false.
Definition f_add : f32 -> f32 -> f32 := Bplus mode_NE.
Definition f_sub : f32 -> f32 -> f32 := Bminus mode_NE.
Definition f_mul : f32 -> f32 -> f32 := Bmult mode_NE.
Definition f_div : f32 -> f32 -> f32 := Bdiv mode_NE.
(** tf.round: ties to even; tf.floor. *)
Definition f_round : f32 -> f32 := Bnearbyint mode_NE.
Definition f_floor : f32 -> f32 := Bnearbyint mode_DN.
(** tf.maximum, tf.minimum. *)
Definition f_max (x y : f32) : f32 := if Bltb x y then y else x.
Definition f_min (x y : f32) : f32 := if Bltb y x then y else x.
(** tf.cast of a float32 to an integer type that can hold it. *)
Definition f_to_int : f32 -> Z := @Btrunc 24 128.

(** ** pruning_impl.py:71-124 [Pruning._update_mask] *)
(** 94-100: cast(maximum(round(cast(tf.size(w), float32) * (1 - sparsity)), 1), int32). *)
Definition keep_count (size : Z) (sparsity : f32) : Z :=
  f_to_int (f_max (f_round (f_mul (f_of_int size) (f_sub (f_of_int 1) sparsity))) (f_of_int 1)).
(** 91-124; magnitudes and comparisons are exact in float32, so the weights stay rationals.  tf.gather with an index outside the
    tensor is an InvalidArgument error. *)
Definition update_mask_f (sparsity : f32) (weights : tensor Q) : res (Q * tensor Q) :=
  let abs_weights := map Qabs (data weights) in
  let k := keep_count (Z.of_nat (length abs_weights)) sparsity in
  match nth_error (top_k_all abs_weights) (Z.to_nat (k - 1)) with
  | None => Err InvalidArgument
  | Some (threshold_value, threshold_pos) =>
      let new_mask := map (fun p => Qle_bool threshold_value (fst p) || Nat.eqb (snd p) threshold_pos)%bool (indexed abs_weights) in
      Ok (threshold_value, mkT (shape weights) (map b2q new_mask))
  end.
