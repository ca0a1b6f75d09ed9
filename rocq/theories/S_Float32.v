(** Vocabulary for the float32 properties (C144-). *)
From Flocq Require Import BinarySingleNaN.
From Verif Require Import Base M_Tensor M_Float32.
From Coq Require Import Qabs Qpower.
Open Scope Q_scope.

(** The rational number a float32 stands for; infinities and NaN stand for none. *)
Definition number (f : f32) : Q :=
  match f with B754_finite s m e _ => inject_Z (if s then Zneg m else Zpos m) * 2 ^ e | _ => 0 end.
Definition finite (f : f32) : Prop := is_finite f = true.
(** One 4194304th: three times the relative rounding error of float32, and a bit. *)
Definition eps : Q := 1 # 4194304.
(** A sparsity a schedule can return. *)
Definition is_sparsity (s : f32) : Prop := finite s /\ 0 <= number s /\ number s < 1.
(** [k] is size * (1 - sparsity) rounded to an integer, up to the rounding errors of float32, but at least one. *)
Definition is_keep_count_f (size : Z) (s : f32) (k : Z) : Prop :=
  exists r, k = Z.max r 1 /\ Qabs (inject_Z r - inject_Z size * (1 - number s)) <= (1#2) + inject_Z size * (1 - number s) * eps.
(** size * (1 - sparsity) is not so close to a half-integer that float32 can round it to the other side. *)
Definition clearly_rounded (size : Z) (s : f32) : Prop :=
  forall n, inject_Z size * (1 - number s) * eps < Qabs (inject_Z size * (1 - number s) - (inject_Z n + (1#2))).
