(** Vocabulary for sums in float32 (C149). *)
From Coq Require Import Permutation Qabs Qpower.
From Flocq Require Import BinarySingleNaN.
From Verif Require Import Base M_Float32 S_Float32 S_FloatQuant.
Open Scope Q_scope.

(** [s] is what float32 additions make of the numbers [l], in some order and bracketing. *)
Inductive added_up : list f32 -> f32 -> Prop :=
| added_one : forall v, added_up [v] v
| added_two : forall l l1 s1 l2 s2, added_up l1 s1 -> added_up l2 s2 -> Permutation l (l1 ++ l2) -> added_up l (f_add s1 s2).
(** The exact sum. *)
Fixpoint total (l : list Q) : Q := match l with [] => 0 | a :: r => a + total r end.
(** The range leaves room for that many summands. *)
Definition room (n : nat) (lo hi : f32) : Prop :=
  finite lo /\ finite hi /\ number lo <= number hi /\ inject_Z (Z.of_nat n) * (Qabs (number lo) + Qabs (number hi)) <= 2 ^ 126.
