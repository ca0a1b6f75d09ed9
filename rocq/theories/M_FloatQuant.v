(** Uniform quantization in float32.  Source: internal/tensor_encoding/stages/stages_impl.py:333-398
    [UniformQuantizationEncodingStage]; the same functions as in M_Stages, with the operations of M_Float32.  Values are finite. *)
From Flocq Require Import Core BinarySingleNaN.
From Verif Require Import Base M_Float32.
Open Scope Z_scope.

Definition f_inf (negative : bool) : f32 := B754_infinity negative.
(** tf.reduce_min, tf.reduce_max (infinite on no values). *)
Definition f_reduce_min (l : list f32) : f32 := fold_left f_min l (f_inf false).
Definition f_reduce_max (l : list f32) : f32 := fold_left f_max l (f_inf true).
(** tf.clip_by_value: maximum(minimum(x, hi), lo). *)
Definition f_clip (lo hi x : f32) : f32 := f_max (f_min x hi) lo.
(** tf.compat.v1.div_no_nan. *)
Definition f_div_no_nan (x y : f32) : f32 := if Beqb y (f_of_int 0) then f_of_int 0 else f_div x y.
(** stages_impl.py:325-326 and 342: cast(2**bits - 1, x.dtype). *)
Definition f_max_value (bits : nat) : f32 := f_of_int (2 ^ Z.of_nat bits - 1).
(** 334-340: the range, given or found. *)
Definition uqf_range (min_max : option (f32 * f32)) (x : list f32) : f32 * f32 :=
  match min_max with Some r => r | None => (f_reduce_min x, f_reduce_max x) end.
Definition uqf_clip (min_max : option (f32 * f32)) (v : f32) : f32 :=
  match min_max with Some (lo, hi) => f_clip lo hi v | None => v end.
(** 345: div_no_nan(x - min_x, max_x - min_x) * max_value. *)
Definition uqf_scale (bits : nat) (lo hi v : f32) : f32 := f_mul (f_div_no_nan (f_sub v lo) (f_sub hi lo)) (f_max_value bits).
(** 346-367: floor(x) + cast(draw < x - floor(x)), or round(x). *)
Definition quantize_one_f (stochastic : bool) (draw x : f32) : f32 :=
  if stochastic then f_add (f_floor x) (if Bltb draw (f_sub x (f_floor x)) then f_of_int 1 else f_of_int 0) else f_round x.
(** 333-373 [encode]; [draw i] is the i-th value of tf.random.uniform. *)
Definition uqf_encode (bits : nat) (min_max : option (f32 * f32)) (stochastic : bool) (draw : nat -> f32) (x : list f32) : list f32 * option (f32 * f32) :=
  let '(lo, hi) := uqf_range min_max x in
  (map (fun iv => quantize_one_f stochastic (draw (fst iv)) (uqf_scale bits lo hi (uqf_clip min_max (snd iv)))) (combine (seq 0 (length x)) x),
   match min_max with Some _ => None | None => Some (lo, hi) end).
(** 375-398 [decode], with num_summands None. *)
Definition uqf_decode (bits : nat) (min_max : option (f32 * f32)) (enc : list f32 * option (f32 * f32)) : res (list f32) :=
  match (match min_max with Some r => Some r | None => snd enc end) with
  | None => Err KeyError
  | Some (lo, hi) => Ok (map (fun q => f_add (f_mul (f_div q (f_max_value bits)) (f_sub hi lo)) lo) (fst enc))
  end.
