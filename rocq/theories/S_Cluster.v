(** Specification vocabulary for weight clustering. *)
From Verif Require Import Base M_Tensor M_Num M_Cluster.
Open Scope Q_scope.

(** [v] is the centroid nearest to [w], the one of lowest index if several are equally near. *)
Definition nearest_centroid (cs : list Q) (w v : Q) : Prop :=
  exists i c, nth_error cs i = Some c /\ v == c /\
    (forall j c', nth_error cs j = Some c' -> Qabs (w - c) <= Qabs (w - c')) /\
    (forall j c', (j < i)%nat -> nth_error cs j = Some c' -> Qabs (w - c) < Qabs (w - c')).

(** The list takes at most [n] different values. *)
Definition at_most_distinct (n : nat) (l : list Q) : Prop :=
  exists vals, (length vals <= n)%nat /\ forall x, In x l -> exists v, In v vals /\ x == v.

(** The values that a condition on the index selects from a tensor. *)
Definition values_where {A} (d : A) (t : tensor A) (P : list nat -> Prop) (v : A) : Prop :=
  exists idx, valid (shape t) idx /\ P idx /\ v = tget d t idx.

(** Upstream gradients of the positions assigned to centroid [j]. *)
Definition member_grads (j : nat) (idx : list nat) (g : list Q) : list Q :=
  map snd (filter (fun p => Nat.eqb (fst p) j) (combine idx g)).

(** [n] equally spaced numbers from [a] to [b] ([n >= 2]). *)
Definition evenly_spaced (a b : Q) (n : nat) (l : list Q) : Prop :=
  length l = n /\ nth 0 l 0 == a /\ nth (n - 1) l 0 == b /\
  exists d, forall i, (S i < n)%nat -> nth (S i) l 0 - nth i l 0 == d.

(** The point of abscissa [x] on the line through (x0, y0) and (x1, y1) has ordinate [y]. *)
Definition on_line (x0 y0 x1 y1 x y : Q) : Prop := (x - x0) * (y1 - y0) == (y - y0) * (x1 - x0).
(** Fraction of the weights that are at most [x]. *)
Definition fraction_le (ws : list Q) (x : Q) : Q :=
  inject_Z (Z.of_nat (length (filter (fun w => Qle_bool w x) ws))) / inject_Z (Z.of_nat (length ws)).
(** [x] is the linear interpolation of the distribution of [ws], tabulated on [grid], at probability [p]. *)
Definition interpolates (ws grid : list Q) (p x : Q) : Prop :=
  exists i, (S i < length grid)%nat /\
    let x0 := nth i grid 0 in let x1 := nth (S i) grid 0 in
    x0 <= x <= x1 /\ fraction_le ws x0 <= p <= fraction_le ws x1 /\ on_line x0 (fraction_le ws x0) x1 (fraction_le ws x1) x p.

(** What is assumed of the random number generator and of the external kmeans++ op: [n] values, within the bounds /
    taken among the given points. *)
Definition sound_initialiser (init : initialiser) : Prop :=
  match init with
  | Linear | DensityBased => True
  | Random uniform => forall n lo hi, lo <= hi -> length (uniform n lo hi) = n /\ forall x, In x (uniform n lo hi) -> lo <= x <= hi
  | KMeansPlusPlus choose => forall n ws, (n <= length ws)%nat -> length (choose n ws) = n /\ forall x, In x (choose n ws) -> In x ws
  end.
(** Numbers of negative and positive entries. *)
Definition count_negative (ws : list Q) : nat := length (filter (fun w => qltb w 0) ws).
Definition count_positive (ws : list Q) : nat := length (filter (fun w => qltb 0 w) ws).
(** Fewest non-zero weights an initialiser needs for [n] clusters (the kmeans++ op rejects fewer points than samples). *)
Definition enough_points (init : initialiser) (n : Z) (count : nat) : Prop :=
  match init with KMeansPlusPlus _ => (n <= Z.of_nat count)%Z | _ => True end.

(** The axis of the kernel along which the code separates channels, and the component of an index on it. *)
Definition slice_axis (df : data_format) : nat := match df with ChannelsFirst => 1%nat | ChannelsLast => 3%nat end.
Definition slice_of (df : data_format) (idx : list nat) : nat := nth (slice_axis df) idx 0%nat.
(** Output channel of an entry of a Keras Conv2D kernel: kernels have shape (height, width, input, output) for both data formats. *)
Definition output_channel (idx : list nat) : nat := nth 3 idx 0%nat.
(** The values of output channel [c] of a kernel. *)
Definition output_channel_values (t : tensor Q) (c : nat) : list Q :=
  map (tget 0 t) (filter (fun idx => Nat.eqb (output_channel idx) c) (map (unravel (shape t)) (seq 0 (prod (shape t))))).
(** [L] enumerates, once each, the positions of slice [c] whose weight is assigned to centroid [j]. *)
Definition members_of (df : data_format) (pulling : tensor nat) (c j : nat) (L : list (list nat)) : Prop :=
  NoDup L /\ forall idx, In idx L <-> valid (shape pulling) idx /\ slice_of df idx = c /\ tget 0%nat pulling idx = j.
