(** Independent vocabulary for the mask properties (no model definitions used except [tensor] and [tget]). *)
From Verif Require Import Base M_Tensor.
From Coq Require Import Qabs.
Open Scope Q_scope.

Definition count_if {A} (p : A -> bool) (l : list A) : nat := length (filter p l).

(** [r] is [x] rounded to the nearest integer, ties to even. *)
Definition is_round_half_even (x : Q) (r : Z) : Prop :=
  Qabs (inject_Z r - x) <= 1#2 /\ (Qabs (inject_Z r - x) == 1#2 -> Z.even r = true).

(** [k] is the number of weights to keep: round(size*(1-s)), but at least one. *)
Definition is_keep_count (size : nat) (s : Q) (k : Z) : Prop :=
  exists r, is_round_half_even (inject_Z (Z.of_nat size) * (1 - s)) r /\ k = Z.max r 1.

(** [t] is the k-th largest element of [l] (with multiplicity), k >= 1. *)
Definition kth_largest (l : list Q) (k : nat) (t : Q) : Prop :=
  In t l /\ (k <= count_if (fun x => Qle_bool t x) l)%nat /\ (count_if (fun x => negb (Qle_bool x t)) l < k)%nat.

Definition pairwise_distinct (l : list Q) : Prop :=
  forall i j, (i < length l)%nat -> (j < length l)%nat -> nth i l 0 == nth j l 0 -> i = j.

Definition magnitudes (t : tensor Q) : list Q := map Qabs (data t).
(** entries equal to 1 *)
Definition ones (t : tensor Q) : nat := count_if (fun x => Qeq_bool x 1) (data t).

(** Columns g*n, g*n+1, ..., of the group [g] of [n] consecutive columns, cut at the end of the row. *)
Definition group_cols (cols n g : nat) : list nat := seq (g * n) (Nat.min n (cols - g * n)).

(** Entries of a mask. *)
Definition is_mask (t : tensor Q) : Prop := forall x, In x (data t) -> x == 0 \/ x == 1.

(** Magnitudes of the entries of the aligned block [(bi,bj)] of size [bh x bw]. *)
Definition block_magnitudes (w : tensor Q) (bh bw bi bj : nat) : list Q :=
  flat_map (fun y => map (fun x => Qabs (tget 0 w [x; y]%nat)) (seq (bi * bh) bh)) (seq (bj * bw) bw).
Definition is_mean (l : list Q) (v : Q) : Prop := v * inject_Z (Z.of_nat (length l)) == sumQ l.
Definition is_max (l : list Q) (v : Q) : Prop := In v l /\ forall x, In x l -> x <= v.

(** Entry-wise product (what masking a weight computes). *)
Definition tmul (t u : tensor Q) : tensor Q :=
  mkT (shape t) (map (fun p => fst p * snd p) (combine (data t) (data u))).

(** Positions, in a weight whose last two axes are (input, output), of group [g] of [n] consecutive input channels
    that feed output [o] from the spatial position [front]. *)
Definition group_positions (front : list nat) (o ci n g : nat) : list (list nat) :=
  map (fun i => front ++ [i; o]) (group_cols ci n g).
