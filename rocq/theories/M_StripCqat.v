(** strip_clustering_cqat.  Source: quantization/keras/collab_opts/cluster_preserve/cluster_utils.py.
    Simplifications: a variable is a number and its name; layers without a [layer] attribute are opaque; the clone of a
    functional or Sequential model is the list of its (non-input) layers; the graph connecting them is not modelled here. *)
From Coq Require Import String.
From Verif Require Import Base M_Tools.
Open Scope string_scope.

Record cvariable := mkVar { v_id : nat; v_name : string }.
(** isinstance of the wrapped layer, lines 93-94. *)
Inductive inner_kind := InnerConv2D | InnerDense | InnerOther.
Inductive node :=
| NGraph (children : list node)                    (* Sequential or functional model *)
| NSubclassed (model : option (list node))         (* subclassed model; the tracked objects of its attribute [model], if it has one *)
| NWrap (kind : inner_kind) (inner_name : string) (trainable_weights non_trainable_weights : list cvariable)   (* a layer with an attribute [layer] *)
| NLayer (id : nat)                                (* any other layer *)
| NThing (id : nat).                               (* neither a model nor a layer *)
(** 91-111 on one layer; the lists are attributes of the layer, so the layer passed in is changed as well. *)
Definition strip_vars (k : inner_kind) (name : string) (tw ntw : list cvariable) : list cvariable * list cvariable :=
  if contains "depthwise" name then (tw, ntw)
  else match k with
       | InnerOther => (tw, ntw)
       | _ => (filter (fun v => negb (contains "cluster_centroids_tf" (v_name v) || contains "ori_weights_vars_tf" (v_name v))) tw,
               filter (fun v => negb (contains "pulling_indices_tf" (v_name v))) ntw)
       end.
(** 77-111 [_strip_clustering_ops]; keras.models.clone_model accepts only functional and Sequential models. *)
Fixpoint strip_ops (n : node) : res node :=
  match n with
  | NGraph ch => do ch' <- (fix go (l : list node) := match l with [] => Ok [] | a :: r => do a' <- strip_ops a ;; do r' <- go r ;; Ok (a' :: r') end) ch ;; Ok (NGraph ch')
  | NSubclassed _ => Err ValueError
  | NWrap k name tw ntw => let '(tw', ntw') := strip_vars k name tw ntw in Ok (NWrap k name tw' ntw')
  | NLayer i => Ok (NLayer i)
  | NThing i => Ok (NThing i)
  end.
(** 64-75, 113-130: the result. *)
Definition strip_clustering_cqat (n : node) : res node :=
  match n with
  | NThing _ => Err ValueError
  | NGraph _ | NWrap _ _ _ _ | NLayer _ => strip_ops n
  | NSubclassed None => Err AttributeError
  | NSubclassed (Some ch) => do ch' <- mapM strip_ops ch ;; Ok (NGraph ch')
  end.
(** The object that was passed in, after a successful call: clone_model keeps the layer objects the clone function
    returns, and these are the original ones with their lists replaced. *)
Fixpoint strip_effect (n : node) : node :=
  match n with
  | NGraph ch => NGraph (map strip_effect ch)
  | NSubclassed m => NSubclassed (match m with Some ch => Some (map strip_effect ch) | None => None end)
  | NWrap k name tw ntw => let '(tw', ntw') := strip_vars k name tw ntw in NWrap k name tw' ntw'
  | NLayer i => NLayer i
  | NThing i => NThing i
  end.
