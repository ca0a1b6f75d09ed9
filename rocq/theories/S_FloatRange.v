(** Vocabulary for quantization ranges in float32 (C148). *)
From Verif Require Import Base M_Float32 S_Float32 S_FloatQuant M_FloatRange.
From Coq Require Import Qabs Qpower.
Open Scope Q_scope.

(** A tensor of numbers of at most 2^126, with at least one entry. *)
Definition is_batch (x : list f32) : Prop := x <> [] /\ Forall moderate x.
(** Some training call has seen the value. *)
Definition seen (calls : list (bool * list f32)) (v : f32) : Prop := exists x, In (true, x) calls /\ In v x.
(** A range of numbers containing 0. *)
Definition contains_zero (r : f32 * f32) : Prop := finite (fst r) /\ finite (snd r) /\ number (fst r) <= 0 /\ 0 <= number (snd r).
Definition covers (r : f32 * f32) (v : f32) : Prop := number (fst r) <= number v /\ number v <= number (snd r).
(** The documented ratio of the limits of a symmetric range. *)
Definition documented_ratio (bits : nat) (narrow : bool) : Q := if narrow then -1 # 1 else - ((inject_Z (2 ^ Z.of_nat bits) - 2) / inject_Z (2 ^ Z.of_nat bits)).
Definition in_between (a b x : Q) : Prop := (a <= x /\ x <= b) \/ (b <= x /\ x <= a).
