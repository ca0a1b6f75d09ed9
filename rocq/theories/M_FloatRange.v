(** The quantization ranges in float32 (compare M_Quant, which computes exactly).  Source: quantization/keras/quant_ops.py:48-309
    with one range per tensor, quantizers.py:131-148, 246, 318-327.  With per-axis ranges the same happens to every channel.  The
    fake quantization that uses the range is not modelled here. *)
From Flocq Require Import Core BinarySingleNaN.
From Verif Require Import Base M_Float32 M_FloatSchedule M_FloatQuant.
Open Scope Z_scope.

(** quant_ops.py:75-80, 183-188, 282-287: -1, or the Python float -((1 << bits) - 2) / (1 << bits), cast to float32. *)
Definition f_ratio (bits : nat) (narrow : bool) : f32 :=
  if narrow then f_of_int (-1) else binary_normalize 24 128 prec24 emax128 mode_NE (- (2 ^ Z.of_nat bits - 2)) (- Z.of_nat bits) false.
(** 182-197, 281-296. *)
Definition widen_f (symmetric : bool) (bits : nat) (narrow : bool) (bmin bmax : f32) : f32 * f32 :=
  if symmetric then let r := f_ratio bits narrow in (f_min bmin (f_div bmax r), f_max bmax (f_mul bmin r))
  else (f_min bmin (f_of_int 0), f_max bmax (f_of_int 0)).
(** 74-86: the adjusted batch_min is used for batch_max. *)
Definition widen_all_f (symmetric : bool) (bits : nat) (narrow : bool) (bmin bmax : f32) : f32 * f32 :=
  if symmetric then let r := f_ratio bits narrow in let bmin' := f_min bmin (f_div bmax r) in (bmin', f_max bmax (f_mul bmin' r))
  else (bmin, bmax).
(** 298-301: assign_moving_average with decay 0.999: the Python float 1.0 - 0.999 is cast to float32;
    variable -= (variable - value) * decay. *)
Definition d_one : f64 := binary_normalize 53 1024 prec53 emax1024 mode_NE 1 0 false.
Definition d_999 : f64 := binary_normalize 53 1024 prec53 emax1024 mode_NE 8998192055486251 (-53) false.
Definition ema_rate : f32 := f_of_double (d_sub d_one d_999).
Definition ema_f (v x : f32) : f32 := f_sub v (f_mul (f_sub v x) ema_rate).
(** LastValueQuantize (117-210), MovingAvgQuantize (213-309), AllValuesQuantize (48-114): the new values of the variables. *)
Inductive range_kind := LastValue | MovingAverage | AllValues.
Record rsettings := mkRS { rs_kind : range_kind; rs_symmetric : bool; rs_bits : nat; rs_narrow : bool }.
Definition update_range_f (s : rsettings) (r : f32 * f32) (x : list f32) : f32 * f32 :=
  let bmin := f_reduce_min x in let bmax := f_reduce_max x in
  match rs_kind s with
  | LastValue => widen_f (rs_symmetric s) (rs_bits s) (rs_narrow s) bmin bmax
  | MovingAverage => let '(lo, hi) := widen_f (rs_symmetric s) (rs_bits s) (rs_narrow s) bmin bmax in (ema_f (fst r) lo, ema_f (snd r) hi)
  | AllValues => let '(lo, hi) := widen_all_f (rs_symmetric s) (rs_bits s) (rs_narrow s) bmin bmax in
      (f_min (f_min (fst r) lo) (f_of_int 0), f_max (f_max (snd r) hi) (f_of_int 0))
  end.
(** quantizers.py:131-148, 318-327: the initial values. *)
Definition init_range_f (s : rsettings) : f32 * f32 :=
  match rs_kind s with AllValues => (f_of_int 0, f_of_int 0) | _ => (f_of_int (-6), f_of_int 6) end.
(** A history of calls: training or not, and the tensor. *)
Definition run_range_f (s : rsettings) (calls : list (bool * list f32)) : f32 * f32 :=
  fold_left (fun (r : f32 * f32) (c : bool * list f32) => if fst c then update_range_f s r (snd c) else r) calls (init_range_f s).
