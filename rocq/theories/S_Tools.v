(** Specification vocabulary for C97-C100. *)
From Coq Require Import String Ascii Qabs.
From Verif Require Import Base M_Num M_Tensor S_Mask M_PruneWrapper M_Tools.
Open Scope string_scope.
Open Scope list_scope.
Open Scope Q_scope.

(** [v] holds the weight [w] pruned to sparsity [s]: the mask keeps at least the required number of entries (exactly
    that many if all magnitudes differ), kept entries have their old value and larger magnitude than any pruned one,
    pruned entries are zero. *)
Definition pruned_to (s : Q) (w : tensor Q) (v : pvar) : Prop :=
  let n := List.length (data w) in
  shape (pv_w v) = shape w /\ List.length (data (pv_w v)) = n /\ List.length (data (pv_mask v)) = n /\
  (exists k, is_keep_count n s (Z.of_nat k) /\ (1 <= k <= ones (pv_mask v))%nat /\
             (pairwise_distinct (magnitudes w) -> ones (pv_mask v) = k)) /\
  (forall i, (i < n)%nat -> (nth i (data (pv_mask v)) 0 == 1 /\ nth i (data (pv_w v)) 0 == nth i (data w) 0) \/
                            (nth i (data (pv_mask v)) 0 == 0 /\ nth i (data (pv_w v)) 0 == 0)) /\
  (forall i j, (i < n)%nat -> (j < n)%nat -> nth i (data (pv_mask v)) 0 == 1 -> nth j (data (pv_mask v)) 0 == 0 ->
     Qabs (nth j (data w) 0) < Qabs (nth i (data w) 0)).

(** The fraction of zero entries. *)
Definition zero_fraction (l : list Q) (f : Q) : Prop :=
  f * inject_Z (Z.of_nat (List.length l)) == inject_Z (Z.of_nat (count_if (fun x => Qeq_bool x 0) l)).

(** Multiples of [f] in [1..n], ascending. *)
Definition multiples (f n : nat) : list Z :=
  map Z.of_nat (filter (fun b => (b mod f =? 0)%nat) (seq 1 n)).
(** Running totals: batches seen at the end of each epoch. *)
Fixpoint totals (acc : nat) (ns : list nat) : list Z :=
  match ns with [] => [] | n :: r => Z.of_nat (acc + n) :: totals (acc + n) r end.

(** All wrappers of clustered layers at any depth, and whether they are logged. *)
Inductive in_model : slayer -> list slayer -> Prop :=
| im_here : forall l ls, In l ls -> in_model l ls
| im_nested : forall l sub ls, In (SModel sub) ls -> in_model l sub -> in_model l ls.

(** Lower-case form of an ASCII name: the i-th capital letter becomes the i-th small letter, everything else stays. *)
Definition capitals : string := "ABCDEFGHIJKLMNOPQRSTUVWXYZ".
Definition smalls : string := "abcdefghijklmnopqrstuvwxyz".
Definition small_of (c d : ascii) : Prop :=
  (exists i, get i capitals = Some c /\ get i smalls = Some d) \/ ((forall i, get i capitals <> Some c) /\ d = c).
Fixpoint small_form (s t : string) : Prop :=
  match s, t with
  | EmptyString, EmptyString => True
  | String c r, String d u => small_of c d /\ small_form r u
  | _, _ => False
  end.
(** The kinds of tensor the tool does not report. *)
Definition not_reported : list string := ["relu"; "pooling"; "reshape"; "identity"; "input"; "add"; "flatten"].

(** [v] holds the matrix [w] pruned to sparsity [s] in [bh] x [bw] blocks (average pooling): the mask is 0/1 and constant on
    every block, entries are kept or zeroed accordingly; if the block size divides the shape, blocks are ranked by their own mean
    magnitude: the required number of best blocks (ties included) is kept. *)
Definition pruned_in_blocks (s : Q) (bh bw : nat) (w : tensor Q) (v : pvar) : Prop :=
  exists r c, shape w = [r; c] /\ shape (pv_mask v) = [r; c] /\ shape (pv_w v) = [r; c] /\
  (forall i j, (i < r)%nat -> (j < c)%nat ->
     (tget 0 (pv_mask v) [i; j] = 1 /\ tget 0 (pv_w v) [i; j] == tget 0 w [i; j]) \/ (tget 0 (pv_mask v) [i; j] = 0 /\ tget 0 (pv_w v) [i; j] == 0)) /\
  (forall i j i' j', (i < r)%nat -> (j < c)%nat -> (i' < r)%nat -> (j' < c)%nat -> (i / bh = i' / bh)%nat -> (j / bw = j' / bw)%nat ->
     tget 0 (pv_mask v) [i; j] = tget 0 (pv_mask v) [i'; j']) /\
  (forall kr kc, r = (kr * bh)%nat -> c = (kc * bw)%nat ->
     exists q, wf q /\ shape q = [kr; kc] /\
       (forall bi bj, (bi < kr)%nat -> (bj < kc)%nat -> is_mean (block_magnitudes w bh bw bi bj) (tget 0 q [bi; bj])) /\
       (exists k, is_keep_count (kr * kc) s (Z.of_nat k) /\ kth_largest (magnitudes q) k (pv_thr v)) /\
       (forall i j, (i < r)%nat -> (j < c)%nat -> tget 0 (pv_mask v) [i; j] = if Qle_bool (pv_thr v) (tget 0 q [i / bh; j / bw]%nat) then 1 else 0)).
