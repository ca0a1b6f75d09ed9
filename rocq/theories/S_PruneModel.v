(** Specification vocabulary for C18-C21. *)
From Verif Require Import Base M_Tensor M_Schedule M_PruneModel.
From Coq Require Import String.
Open Scope nat_scope.

(** No pruning wrapper anywhere in the object. *)
Fixpoint no_wrapper (o : kobj) : Prop :=
  match o with
  | OWrap _ => False
  | OModel _ _ ch => (fix all l := match l with [] => True | a :: r => no_wrapper a /\ all r end) ch
  | _ => True
  end.
(** All nested models are Sequential or functional. *)
Fixpoint no_subclassed (o : kobj) : Prop :=
  match o with
  | OModel Subclassed _ _ => False
  | OModel _ _ ch => (fix all l := match l with [] => True | a :: r => no_subclassed a /\ all r end) ch
  | _ => True
  end.
(** The plain layers and the wrapped layers occurring in an object, at any depth. *)
Fixpoint plain_layers (o : kobj) : list klayer :=
  match o with OLayer l => [l] | OModel _ _ ch => flat_map plain_layers ch | _ => [] end.
Fixpoint wrapped_layers (o : kobj) : list pwrap :=
  match o with OWrap w => [w] | OModel _ _ ch => flat_map wrapped_layers ch | _ => [] end.

(** Pointwise relation between two objects of the same nesting. *)
Inductive corresponds (R : kobj -> kobj -> Prop) : kobj -> kobj -> Prop :=
| corr_leaf a b : R a b -> corresponds R a b
| corr_model k g ch ch' : Forall2 (corresponds R) ch ch' -> corresponds R (OModel k g ch) (OModel k g ch').

(** What pruning does to a leaf: wrappers and inputs stay, a plain layer is wrapped with exactly the given arguments
    iff the policy allows it (no policy: always). *)
(** Nothing requested: None, 0 or an empty sequence. *)
Definition falsy (v : pyval) : Prop := v = PyNone \/ v = PyInt 0 \/ v = PySeq [].
Definition requested_m_by_n (v : pyval) (mn : option (Z * Z)) : Prop :=
  (falsy v /\ mn = None) \/ exists x y, v = PySeq [PyInt x; PyInt y] /\ mn = Some (x, y).
Inductive leaf_pruned (a : pargs) (policy : option (kobj -> bool)) : kobj -> kobj -> Prop :=
| lp_wrap w : leaf_pruned a policy (OWrap w) (OWrap w)
| lp_input i : leaf_pruned a policy (OInput i) (OInput i)
| lp_skip l p : policy = Some p -> p (OLayer l) = false -> leaf_pruned a policy (OLayer l) (OLayer l)
| lp_layer l w : match policy with Some p => p (OLayer l) = true | None => True end ->
    w_layer w = l -> c_sched (w_conf w) = a_sched a -> c_block (w_conf w) = a_block a ->
    c_pool (w_conf w) = a_pool a -> requested_m_by_n (a_mbyn a) (c_mbyn (w_conf w)) -> leaf_pruned a policy (OLayer l) (OWrap w).

(** ** Search in a graph *)
(** Nodes reached from the sources through nodes that do not satisfy the stop criterion. *)
Inductive reached (stop : nat -> bool) (next : nat -> list nat) (sources : list nat) : nat -> Prop :=
| r_src n : In n sources -> reached stop next sources n
| r_step u v : reached stop next sources u -> stop u = false -> In v (next u) -> reached stop next sources v.
(** Some path leaves the graph through a node that does not satisfy the criterion. *)
Definition dead_end (stop : nat -> bool) (next : nat -> list nat) (sources : list nat) : Prop :=
  exists u, reached stop next sources u /\ stop u = false /\ next u = [].
(** Acyclic: edges go up in some numbering. *)
Definition acyclic (next : nat -> list nat) : Prop :=
  exists depth : nat -> nat, forall u v, In v (next u) -> depth u < depth v.
Definition finite_graph (n : nat) (next : nat -> list nat) (sources : list nat) : Prop :=
  (forall v, In v sources -> v < n) /\ forall u v, In v (next u) -> v < n.

(** ** Which weights are pruned (C81) *)
Definition ends_with_kernel (n : string) : Prop := exists p, n = String.append p "kernel".
(** Built-in layers with a kernel. *)
Definition kernel_classes : list string :=
  ["Conv1D"; "Conv2D"; "Conv2DTranspose"; "Conv3D"; "Conv3DTranspose"; "Dense"; "LocallyConnected1D"; "LocallyConnected2D"]%string.
Definition builtin_cells : list string := ["GRUCell"; "LSTMCell"; "SimpleRNNCell"]%string.
Definition rnn_classes : list string := ["GRU"; "LSTM"; "RNN"; "SimpleRNN"]%string.
(** The wrapper [w] occurs in the object, at some depth. *)
Inductive occurs (w : pwrap) : kobj -> Prop :=
| occ_here : occurs w (OWrap w)
| occ_in k g ch o : In o ch -> occurs w o -> occurs w (OModel k g ch).
