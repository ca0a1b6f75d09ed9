(** The Hadamard rotation in float32 (compare M_Hadamard, which computes with exact reals).  Sources:
    internal/tensor_encoding/utils/tf_utils.py:27-114, 226-245, stages/stages_impl.py:175-233.  One vector: the rows of a batch are
    transformed independently. *)
From Flocq Require Import Core BinarySingleNaN.
From Verif Require Import Base M_Float32 M_FloatCluster.

(** tf.sqrt. *)
Definition f_sqrt : f32 -> f32 := Bsqrt mode_NE.
(** tf_utils.py:86-95: products with [[1,1],[1,-1]] are exact, each sum of two is rounded once. *)
Fixpoint pairs_f (x : list f32) : list (f32 * f32) := match x with a :: b :: r => (a, b) :: pairs_f r | _ => [] end.
Definition step_f (x : list f32) : list f32 := map (fun p => f_add (fst p) (snd p)) (pairs_f x) ++ map (fun p => f_sub (fst p) (snd p)) (pairs_f x).
(** 97-106. *)
Fixpoint loop_f (n : nat) (x : list f32) : list f32 := match n with O => x | S m => loop_f m (step_f x) end.
(** 73-79, 108-114. *)
Definition power_of_two (dim : nat) : bool := (negb (dim =? 0) && (Nat.land dim (dim - 1) =? 0))%nat.
Definition fwht_f (x : list f32) : res (list f32) :=
  let dim := length x in
  if negb (power_of_two dim) then Err ValueError
  else if (dim =? 1)%nat then Ok x
  else Ok (map (fun a => f_div a (f_sqrt (f_of_int (Z.of_nat dim)))) (loop_f (Nat.log2_up dim) x)).
(** tf_utils.py:226-245: sign(draw - 0.5). *)
Definition f_half : f32 := f_div (f_of_int 1) (f_of_int 2).
Definition signs_f (draws : list f32) : list f32 := map (fun u => f_sign (f_sub u f_half)) draws.
Fixpoint mul_f (x y : list f32) : list f32 := match x, y with a :: x', b :: y' => f_mul a b :: mul_f x' y' | _, _ => [] end.
(** stages_impl.py:225-231, 175-183 [encode]. *)
Definition encode_row_f (draws x : list f32) : res (list f32) :=
  if (length x =? 0)%nat then Err OverflowError
  else let p := (2 ^ Nat.log2_up (length x))%nat in
       fwht_f (mul_f x (signs_f draws) ++ repeat (f_of_int 0) (p - length x)).
(** 185-206 [decode]: transform, slice to the original width, signs. *)
Definition decode_row_f (draws : list f32) (width : nat) (y : list f32) : res (list f32) :=
  do z <- fwht_f y ;; if (width <=? length z)%nat then Ok (mul_f (firstn width z) (signs_f draws)) else Err InvalidArgument.
