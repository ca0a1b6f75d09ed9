(** Bit packing.  Source: internal/tensor_encoding/utils/tf_utils.py:287-632 and
    internal/tensor_encoding/stages/stages_impl.py:401-502.
    Integer tensors as lists of Z (flattened, row-major) plus a shape; int32 arithmetic as exact Z arithmetic (all
    intermediate values are proved to be in [0, 2^28)).  floordiv/mod are Z.div/Z.modulo (Python semantics). *)
From Verif Require Import Base M_Tensor.
Open Scope Z_scope.

(** tf.zeros(tf.math.mod(-tf.shape(value), n)): number of padding zeros (e.g. tf_utils.py:417). *)
Definition extra (n len : nat) : nat := ((n - len mod n) mod n)%nat.
(** tf.reshape(tf.concat([value, extra_zeros], 0), [-1, n]). *)
Definition rows (n : nat) (l : list Z) : list (list Z) := chunks n (l ++ repeat 0 (extra n (length l))).

(** tf_utils.py:377-386 [_pack_binary_form]: product with the column vector [1, 2, 4, ...]. *)
Fixpoint dot2 (w : Z) (bits : list Z) : Z :=
  match bits with [] => 0 | b :: r => b * w + dot2 (2 * w) r end.
Definition pack_binary_form (value : list Z) (target_bits : nat) : list Z := map (dot2 1) (rows target_bits value).
(** tf_utils.py:389-394 [_expand_to_binary_form]: (value // 2^i) mod 2 for i < input_bits, row by row. *)
Definition expand_to_binary_form (value : list Z) (input_bits : nat) : list Z :=
  flat_map (fun v => map (fun i => (v / 2 ^ Z.of_nat i) mod 2) (seq 0 input_bits)) value.

(** tf.slice(packed_val, [0,0], [packed_val.shape[0] - k, 1]). *)
Definition drop_last (k : nat) (l : list Z) : list Z := firstn (length l - k) l.
Definition g (r : list Z) (i : nat) : Z := nth i r 0.

(** tf_utils.py:397-443 [_pack_into_int_6_28]; [static] = the number of elements is statically known (otherwise
    extra_zeros.shape[0] is None and nothing is sliced off). *)
Definition pack_row_6 (v : list Z) : list Z :=
  [ g v 0 + g v 1 * 2^6 + g v 2 * 2^12 + g v 3 * 2^18 + (g v 4 mod 2^4) * 2^24;
    g v 4 / 2^4 + g v 5 * 2^2 + g v 6 * 2^8 + g v 7 * 2^14 + g v 8 * 2^20 + (g v 9 mod 2^2) * 2^26;
    g v 9 / 2^2 + g v 10 * 2^4 + g v 11 * 2^10 + g v 12 * 2^16 + g v 13 * 2^22 ].
Definition mem_nat (x : nat) (l : list nat) : bool := existsb (Nat.eqb x) l.
Definition pack_6_28 (static : bool) (value : list Z) : list Z :=
  let e := extra 14 (length value) in
  let p := flat_map pack_row_6 (rows 14 value) in
  let p := if static && mem_nat e [5;6;7;8;9]%nat then drop_last 1 p else p in
  if static && mem_nat e [10;11;12;13]%nat then drop_last 2 p else p.

(** tf_utils.py:446-473 [_pack_into_int_7_28]. *)
Definition pack_row_7 (v : list Z) : list Z := [ g v 0 + g v 1 * 2^7 + g v 2 * 2^14 + g v 3 * 2^21 ].
Definition pack_7_28 (value : list Z) : list Z := flat_map pack_row_7 (rows 4 value).

(** tf_utils.py:476-511 [_pack_into_int_8_28]. *)
Definition pack_row_8 (v : list Z) : list Z :=
  [ g v 0 + g v 1 * 2^8 + g v 2 * 2^16 + (g v 3 mod 2^4) * 2^24;
    g v 3 / 2^4 + g v 4 * 2^4 + g v 5 * 2^12 + g v 6 * 2^20 ].
Definition pack_8_28 (static : bool) (value : list Z) : list Z :=
  let e := extra 7 (length value) in
  let p := flat_map pack_row_8 (rows 7 value) in
  if static && mem_nat e [4;5;6]%nat then drop_last 1 p else p.

(** tf_utils.py:514-553 [_pack_into_int_12_28]. *)
Definition pack_row_12 (v : list Z) : list Z :=
  [ g v 0 + g v 1 * 2^12 + (g v 2 mod 2^4) * 2^24;
    g v 2 / 2^4 + g v 3 * 2^8 + (g v 4 mod 2^8) * 2^20;
    g v 4 / 2^8 + g v 5 * 2^4 + g v 6 * 2^16 ].
Definition pack_12_28 (static : bool) (value : list Z) : list Z :=
  let e := extra 7 (length value) in
  let p := flat_map pack_row_12 (rows 7 value) in
  let p := if static && mem_nat e [3;4]%nat then drop_last 1 p else p in
  if static && mem_nat e [5;6]%nat then drop_last 2 p else p.

(** tf_utils.py:287-330 [pack_into_int] on a flat tensor. *)
Definition pack_into_int (static : bool) (value : list Z) (input_bits target_bits : nat) : list Z :=
  if ((input_bits =? 6) && (target_bits =? 28))%nat then pack_6_28 static value
  else if ((input_bits =? 7) && (target_bits =? 28))%nat then pack_7_28 value
  else if ((input_bits =? 8) && (target_bits =? 28))%nat then pack_8_28 static value
  else if ((input_bits =? 12) && (target_bits =? 28))%nat then pack_12_28 static value
  else pack_binary_form (if (1 <? input_bits)%nat then expand_to_binary_form value input_bits else value) target_bits.

(** tf.slice(v, [0], [n]): fails when there are fewer than n elements. *)
Definition slice_to (n : nat) (l : list Z) : res (list Z) :=
  if (n <=? length l)%nat then Ok (firstn n l) else Err InvalidArgument.
(** tf.reshape(v, shape). *)
Definition reshape_to (shape : list nat) (l : list Z) : res (tensor Z) :=
  if (length l =? prod shape)%nat then Ok (mkT shape l) else Err InvalidArgument.

(** tf_utils.py:556-582, 585-596, 599-615, 618-632: the inverse operations. *)
Definition md (x : Z) (k j : Z) : Z := (x / 2^k) mod 2^j.
Definition unpack_row_6 (v : list Z) : list Z :=
  [ g v 0 mod 2^6; md (g v 0) 6 6; md (g v 0) 12 6; md (g v 0) 18 6;
    g v 0 / 2^24 + (g v 1 mod 2^2) * 2^4;
    md (g v 1) 2 6; md (g v 1) 8 6; md (g v 1) 14 6; md (g v 1) 20 6;
    g v 1 / 2^26 + (g v 2 mod 2^4) * 2^2;
    md (g v 2) 4 6; md (g v 2) 10 6; md (g v 2) 16 6; md (g v 2) 22 6 ].
Definition unpack_row_7 (v : list Z) : list Z := [ g v 0 mod 2^7; md (g v 0) 7 7; md (g v 0) 14 7; md (g v 0) 21 7 ].
Definition unpack_row_8 (v : list Z) : list Z :=
  [ g v 0 mod 2^8; md (g v 0) 8 8; md (g v 0) 16 8; g v 0 / 2^24 + (g v 1 mod 2^4) * 2^4;
    md (g v 1) 4 8; md (g v 1) 12 8; g v 1 / 2^20 ].
Definition unpack_row_12 (v : list Z) : list Z :=
  [ g v 0 mod 2^12; md (g v 0) 12 12; g v 0 / 2^24 + (g v 1 mod 2^8) * 2^4;
    md (g v 1) 8 12; g v 1 / 2^20 + (g v 2 mod 2^4) * 2^8; md (g v 2) 4 12; md (g v 2) 16 12 ].
Definition unpack_rows (m : nat) (row : list Z -> list Z) (value : list Z) (shape : list nat) : res (tensor Z) :=
  do u <- slice_to (prod shape) (flat_map row (rows m value)) ;; reshape_to shape u.

(** tf_utils.py:333-374 [unpack_from_int]. *)
Definition unpack_from_int (value : list Z) (original_bits target_bits : nat) (shape : list nat) : res (tensor Z) :=
  if ((original_bits =? 6) && (target_bits =? 28))%nat then unpack_rows 3 unpack_row_6 value shape
  else if ((original_bits =? 7) && (target_bits =? 28))%nat then unpack_rows 1 unpack_row_7 value shape
  else if ((original_bits =? 8) && (target_bits =? 28))%nat then unpack_rows 2 unpack_row_8 value shape
  else if ((original_bits =? 12) && (target_bits =? 28))%nat then unpack_rows 3 unpack_row_12 value shape
  else
    do u <- slice_to (prod shape * original_bits) (expand_to_binary_form value target_bits) ;;
    if (1 <? original_bits)%nat then reshape_to shape (pack_binary_form u original_bits) else reshape_to shape u.

(** stages_impl.py:417-441, 466-502 [BitpackingEncodingStage]: input_bits in 1..16, target 28, floats holding integers
    represented by those integers, float32 (the dtype plays no other role). *)
Definition bitpack_encode (input_bits : nat) (static : bool) (x : tensor Z) : res (list Z) :=
  if ((1 <=? input_bits) && (input_bits <=? 16))%nat then Ok (pack_into_int static (data x) input_bits 28)
  else Err ValueError.
Definition bitpack_decode (input_bits : nat) (value : list Z) (shape : list nat) : res (tensor Z) :=
  unpack_from_int value input_bits 28 shape.
