(** Vocabulary for the float32 schedules (C145). *)
From Flocq Require Import BinarySingleNaN.
From Verif Require Import Base M_Float32 S_Float32 M_FloatSchedule.
From Coq Require Import Qabs Qpower.
Open Scope Q_scope.

(** The rational number a Python float stands for. *)
Definition number64 (f : f64) : Q :=
  match f with B754_finite s m e _ => inject_Z (if s then Zneg m else Zpos m) * 2 ^ e | _ => 0 end.
Definition finite64 (f : f64) : Prop := is_finite f = true.
(** What the constructors accept (shown to be so in C145_accepted). *)
Definition sparsity64 (f : f64) : Prop := finite64 f /\ 0 <= number64 f /\ number64 f < 1.
Definition in_unit (x : f32) : Prop := finite x /\ 0 <= number x /\ number x <= 1.
(** A positive power on [0,1]: it keeps 0 and 1 and is monotone. *)
Definition is_power (pow : f32 -> f32) : Prop :=
  (forall x, in_unit x -> in_unit (pow x)) /\
  (forall x, in_unit x -> number x == 0 -> number (pow x) == 0) /\
  (forall x, in_unit x -> number x == 1 -> number (pow x) == 1) /\
  (forall x y, in_unit x -> in_unit y -> number x <= number y -> number (pow x) <= number (pow y)).
(** How far the step is from begin to end, between 0 and 1. *)
Definition progress (b e step : Z) : Q :=
  if (step <=? b)%Z then 0 else if (e <=? step)%Z then 1 else inject_Z (step - b) / inject_Z (e - b).
Definition close (x y : Q) : Prop := Qabs (x - y) <= eps.
