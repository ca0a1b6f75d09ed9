(** Dense row-major tensors, the TensorFlow data model the code manipulates.
    These definitions model TensorFlow ops (documented meaning), not code of /repo; every use in a model
    file cites the call site. *)
From Verif Require Import Base.

Record tensor (A : Type) : Type := mkT { shape : list nat; data : list A }.
Arguments mkT {A}. Arguments shape {A}. Arguments data {A}.

Fixpoint prod (s : list nat) : nat := match s with [] => 1 | d :: r => d * prod r end.

Definition rank {A} (t : tensor A) : nat := length (shape t).
Definition wf {A} (t : tensor A) : Prop := length (data t) = prod (shape t).

(** Row-major position of a multi-index. *)
Fixpoint ravel (s idx : list nat) : nat :=
  match s, idx with
  | _ :: s', i :: idx' => i * prod s' + ravel s' idx'
  | _, _ => 0
  end.
Fixpoint unravel (s : list nat) (n : nat) : list nat :=
  match s with
  | [] => []
  | _ :: s' => (n / prod s') :: unravel s' (n mod prod s')
  end.
(** A multi-index within the bounds of a shape. *)
Definition valid (s idx : list nat) : Prop := Forall2 (fun i d => i < d) idx s.

(** Element access; the default is never used on valid indices of well-formed tensors. *)
Definition tget {A} (d : A) (t : tensor A) (idx : list nat) : A := nth (ravel (shape t) idx) (data t) d.

(** Tensor given by an index function. *)
Definition tab {A} (s : list nat) (f : list nat -> A) : tensor A :=
  mkT s (map (fun n => f (unravel s n)) (seq 0 (prod s))).

Definition tmap {A B} (f : A -> B) (t : tensor A) : tensor B := mkT (shape t) (map f (data t)).

(** tf.reshape to a fully specified shape. *)
Definition reshape {A} (t : tensor A) (s : list nat) : res (tensor A) :=
  if prod s =? length (data t) then Ok (mkT s (data t)) else Err InvalidArgument.

(** Position of [a] in [l]. *)
Fixpoint index_of (a : nat) (l : list nat) : nat :=
  match l with [] => 0 | b :: r => if a =? b then 0 else S (index_of a r) end.

(** tf.transpose(t, perm): output axis [i] is input axis [perm[i]]. *)
Definition unperm (perm idx : list nat) : list nat :=
  map (fun a => nth (index_of a perm) idx 0) (seq 0 (length perm)).
Definition transpose {A} (d : A) (perm : list nat) (t : tensor A) : tensor A :=
  tab (map (fun p => nth p (shape t) 0) perm) (fun idx => tget d t (unperm perm idx)).

(** tf.squeeze: drop all dimensions of size 1. *)
Definition squeeze {A} (t : tensor A) : tensor A :=
  mkT (filter (fun d => negb (d =? 1)) (shape t)) (data t).
