(** Vocabulary for float32 uniform quantization (C146). *)
From Flocq Require Import BinarySingleNaN.
From Verif Require Import Base M_Float32 S_Float32.
From Coq Require Import Qabs Qpower.
Open Scope Q_scope.

(** A float32 whose difference with another such one does not overflow. *)
Definition moderate (v : f32) : Prop := finite v /\ Qabs (number v) <= 2 ^ 126.
(** The range values are quantized in: the one given, or from the least to the greatest value. *)
Definition is_range (min_max : option (f32 * f32)) (x : list f32) (lo hi : f32) : Prop :=
  match min_max with
  | Some r => r = (lo, hi)
  | None => In lo x /\ In hi x /\ forall v, In v x -> number lo <= number v /\ number v <= number hi
  end.
Definition good_range (min_max : option (f32 * f32)) : Prop :=
  match min_max with Some (lo, hi) => moderate lo /\ moderate hi /\ number lo <= number hi | None => True end.
(** A value moved into the range. *)
Definition clamp (lo hi v : Q) : Q := if Qle_bool v lo then lo else if Qle_bool hi v then hi else v.
(** A random draw. *)
Definition is_draw (v : f32) : Prop := finite v /\ 0 <= number v.
(** An integer code of the given number of bits. *)
Definition is_code (bits : nat) (q : f32) : Prop := finite q /\ exists k, (0 <= k < 2 ^ Z.of_nat bits)%Z /\ number q == inject_Z k.
(** The width of a quantization step. *)
Definition step (bits : nat) (lo hi : f32) : Q := (number hi - number lo) / inject_Z (2 ^ Z.of_nat bits - 1).
(** Twice the smallest positive float32. *)
Definition tiny : Q := 2 ^ (-148).
