(** Decoding a sum of uniformly quantized tensors in float32.  Source: internal/tensor_encoding/stages/stages_impl.py:307-314,
    375-398 [UniformQuantizationEncodingStage]; [M_FloatQuant] has the encoding and the decoding of a single tensor. *)
From Flocq Require Import Core BinarySingleNaN.
From Verif Require Import Base M_Float32 M_FloatQuant.

(** 307-314: with a given range the stage commutes with sums. *)
Definition uqf_commutes (min_max : option (f32 * f32)) : bool := match min_max with Some _ => true | None => false end.
(** 375-398 [decode]; [num_summands] is cast to float32 (391-394). *)
Definition uqf_shift (min_max : option (f32 * f32)) (num_summands : option Z) (lo : f32) : f32 :=
  match num_summands with Some n => if uqf_commutes min_max then f_mul lo (f_of_int n) else lo | None => lo end.
Definition uqf_decode_sum (bits : nat) (min_max : option (f32 * f32)) (num_summands : option Z) (enc : list f32 * option (f32 * f32)) : res (list f32) :=
  match (match min_max with Some r => Some r | None => snd enc end) with
  | None => Err KeyError
  | Some (lo, hi) =>
      let shift := uqf_shift min_max num_summands lo in
      Ok (map (fun q => f_add (f_mul (f_div q (f_max_value bits)) (f_sub hi lo)) shift) (fst enc))
  end.
