(** The target sparsity of the pruning schedules in float32.  Source: sparsity/keras/pruning_schedule.py *)
From Flocq Require Import Core BinarySingleNaN.
From Verif Require Import Base M_Float32.
Open Scope Z_scope.

(** Python floats. *)
Definition f64 := binary_float 53 1024.
#[global] Instance prec53 : Prec_gt_0 53 := eq_refl.
#[global] Instance emax1024 : Prec_lt_emax 53 1024 := eq_refl.
Definition d_sub : f64 -> f64 -> f64 := Bminus mode_NE.
(** A Python float meeting a float32 tensor, and tf.constant(x, dtype=tf.float32). *)
Definition f_of_double (x : f64) : f32 :=
  match x with
  | B754_finite s m e _ => binary_normalize 24 128 prec24 emax128 mode_NE (cond_Zopp s (Zpos m)) e s
  | B754_zero s => B754_zero s
  | B754_infinity s => B754_infinity s
  | B754_nan => B754_nan
  end.
(** pruning_schedule.py:97-100 [PruningSchedule._validate_sparsity], on Python floats: not (0.0 <= sparsity < 1.0) raises. *)
Definition validate_sparsity_f (x : f64) : res unit :=
  if Bleb (B754_zero false) x && Bltb x (binary_normalize 53 1024 prec53 emax1024 mode_NE 1 0 false) then Ok tt else Err ValueError.

(** pruning_schedule.py:163-166 [ConstantSparsity.__call__], second component. *)
Definition constant_f (target : f64) : f32 := f_of_double target.
(** pruning_schedule.py:231-237: p = minimum(1.0, maximum(0.0, cast(step - begin_step, float32) / (end_step - begin_step))).
    With begin_step < end_step no NaN arises (C04). *)
Definition progress_f (begin_step end_step step : Z) : f32 :=
  f_min (f_of_int 1) (f_max (f_of_int 0) (f_div (f_of_int (step - begin_step)) (f_of_int (end_step - begin_step)))).
(** pruning_schedule.py:229-242 [PolynomialDecay.__call__], second component.  [pow] is tf.math.pow( - , power) on float32; the
    difference of the sparsities is taken in Python. *)
Definition decay_f (pow : f32 -> f32) (initial final : f64) (begin_step end_step step : Z) : f32 :=
  f_add (f_mul (f_of_double (d_sub initial final)) (pow (f_sub (f_of_int 1) (progress_f begin_step end_step step)))) (f_of_double final).
