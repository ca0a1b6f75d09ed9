(** The scheduler of the weight-compression framework.
    Source: common/keras/compression/schedules.py *)
From Verif Require Import Base M_Schedule.
From Coq Require Import Reals Qreals Qround.
Open Scope Z_scope.

(** schedules.py:65: the [dtype] argument; only "floating" and "integer" are distinguished. *)
Inductive cdtype : Type := DFloat | DInt.

(** schedules.py:86-94 the attributes assigned by [PolynomialDecay.__init__]; there is no validation. *)
Record cdecay := mkDecay {
  cd_start : Q; cd_decay_steps : Z; cd_end : Q; cd_begin : Z; cd_exponent : Q; cd_dtype : cdtype }.

(** [tf.cast(x, int32)] of a float: truncation towards zero. *)
Definition truncR (x : R) : Z :=
  if Rle_dec 0 x then Int_part x else - Int_part (- x).
(** [tf.cast(x, dtype)]; the cast of a non-number to an integer type is unspecified in TensorFlow and is kept as a
    non-number here. *)
Definition cast_ext (d : cdtype) (x : ext R) : ext R :=
  match d, x with
  | DInt, Fin r => Fin (IZR (truncR r))
  | _, _ => x
  end.

(** schedules.py:111-122 [_during_decay].  [tf.math.add(end_value, t)] converts the Python number [end_value] to the
    dtype of the tensor [t]; a non-integral number does not convert to an integer dtype (TypeError). *)
Definition during_decay (c : cdecay) (step : Z) : res (ext R) :=
  match ext_div (step - cd_begin c) (cd_decay_steps c) with
  | Fin d =>
      let delta := cast_ext (cd_dtype c) (ext_axpb (cd_start c - cd_end c) (pow01 (1 - d) (cd_exponent c)) 0) in
      match cd_dtype c with
      | DFloat => Ok (match delta with Fin r => Fin (Q2R (cd_end c) + r)%R | x => x end)
      | DInt => if Qeq_bool (inject_Z (Qfloor (cd_end c))) (cd_end c)
                then Ok (match delta with Fin r => Fin (Q2R (cd_end c) + r)%R | x => x end)
                else Err TypeError
      end
  | _ => Ok NaN
  end.

(** schedules.py:94-110 [__call__] and [_after_begin_step] (eager: only the taken branch of [tf.cond] runs). *)
Definition cdecay_call (c : cdecay) (step : Z) : res (ext R) :=
  if step <? cd_begin c then Ok (cast_ext (cd_dtype c) (Fin (Q2R (cd_start c))))
  else if cd_begin c + cd_decay_steps c <? step then Ok (cast_ext (cd_dtype c) (Fin (Q2R (cd_end c))))
  else during_decay c step.
