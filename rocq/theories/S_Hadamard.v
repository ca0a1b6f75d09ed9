(** Specification vocabulary for the rotation stages. *)
From Coq Require Import Reals.
From Verif Require Import Base M_Hadamard.
Open Scope R_scope.

(** A well-formed stage input: a non-empty vector, or a matrix all of whose rows have the declared, positive length. *)
Definition good_input (x : hinput) : Prop :=
  match x with Vec v => v <> [] | Mat d rows => (0 < d)%nat /\ Forall (fun r => length r = d) rows | OtherRank => False end.
(** Number of columns. *)
Definition width (x : hinput) : nat := match x with Vec v => length v | Mat d _ => d | OtherRank => O end.

(** [v] is the entrywise sum of the matrices [es], all with [b] rows and [p] columns. *)
Definition is_matrix (b p : nat) (e : list (list R)) : Prop := length e = b /\ Forall (fun r => length r = p) e.
Definition is_matrix_sum (b p : nat) (es : list (list (list R))) (v : list (list R)) : Prop :=
  is_matrix b p v /\
  forall i j, (i < b)%nat -> (j < p)%nat -> nth j (nth i v []) 0 = sumR (map (fun e => nth j (nth i e []) 0) es).

(** [p] is the smallest power of two that is at least [n]. *)
Definition smallest_power_of_2 (n p : nat) : Prop :=
  (exists j, p = 2 ^ j)%nat /\ (n <= p)%nat /\ forall j, (n <= 2 ^ j)%nat -> (p <= 2 ^ j)%nat.
(** Number of rows the encoding has: one for a vector. *)
Definition batch (x : hinput) : nat := match x with Vec _ => 1%nat | Mat _ rows => length rows | OtherRank => O end.
(** [t] is [a] truncated to magnitude [level]. *)
Definition truncated (level a t : R) : Prop :=
  (- level <= a <= level /\ t = a) \/ (level < a /\ t = level) \/ (a < - level /\ t = - level).
