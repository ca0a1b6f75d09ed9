(** Specification vocabulary for the encoding stages. *)
From Verif Require Import Base.
From Coq Require Import Qabs.
Open Scope Q_scope.

(** [lo, hi] is the range a uniform quantizer works on: the one it was given, or the extremes of the tensor. *)
Definition working_range (given : option (list Q)) (x : list Q) (lo hi : Q) : Prop :=
  match given with
  | Some l => l = [lo; hi]
  | None => In lo x /\ In hi x /\ forall v, In v x -> lo <= v <= hi
  end.

(** [c] is [a] moved to the nearest point of [lo, hi]. *)
Definition clipped_to (lo hi a c : Q) : Prop :=
  (a <= lo /\ c == lo) \/ (hi <= a /\ c == hi) \/ (lo <= a <= hi /\ c == a).

(** [v] is the elementwise sum of the vectors [es] (all of length [n]). *)
Definition is_vector_sum (n : nat) (es : list (list Q)) (v : list Q) : Prop :=
  length v = n /\ forall i, (i < n)%nat -> nth i v 0 == sumQ (map (fun e => nth i e 0) es).
