(** Specification vocabulary for the model transformer. *)
From Coq Require Import String.
From Verif Require Import Base M_Tensor M_Transform.

(** The nodes of a tree of layers. *)
Inductive node_in : node -> node -> Prop :=
| ni_here : forall n, node_in n n
| ni_below : forall a l w nw m ins x, In a ins -> node_in x a -> node_in x (Node l w nw m ins).

(** "Layer [l'] is layer [l]": same class, name and configuration. *)
Definition same_layer (l l' : layerc) : Prop := lc_class l' = lc_class l /\ lc_name l' = lc_name l /\ lc_cfg l' = lc_cfg l.
(** [l'] reads what [l] read, with [new] in place of [old]. *)
Definition reads (l : layerc) : list (list (list string)) := map (map conn_names) (lc_inbound l).
Definition redirected (old new : string) (l l' : layerc) : Prop :=
  reads l' = map (map (map (fun n => if String.eqb n old then new else n))) (reads l) /\
  map (map c_node) (lc_inbound l') = map (map c_node) (lc_inbound l) /\ map (map c_tensor) (lc_inbound l') = map (map c_tensor) (lc_inbound l).

(** A well-formed functional graph: distinct layer names, every connection and every output names a layer of the model, and
    the connections are acyclic (some numbering of the layers decreases along every connection). *)
Record wf_graph (st : state) : Prop := mkWf {
  wf_names : NoDup (names st);
  wf_conns : forall l n, In l (s_layers st) -> In n (inbound_layer_names l) -> In n (names st);
  wf_outputs : forall c, In c (s_outputs st) -> In (c_name c) (names st);
  wf_acyclic : exists rk : string -> nat, forall l n, In l (s_layers st) -> In n (inbound_layer_names l) -> rk n < rk (lc_name l) }.

(** A replacement invents only new names: the layers of the replacement have distinct names, each either a matched one or
    one that no layer of the model has. *)
Definition names_ok (st : state) (m r : node) : Prop :=
  NoDup (layer_names r) /\ forall n, In n (layer_names r) -> In n (layer_names m) \/ ~ In n (names st).

(** The step the transformer is about to make: pattern of [t] found as [m], to be replaced by [r]. *)
Definition about_to_replace meq k ts st0 (s : loop_state) (t : transform) (m r : node) : Prop :=
  (exists n, iterate meq k ts n (start ts st0) = Running s) /\ In t ts /\ (exists rest, ls_todo s = t :: rest) /\
  find_pattern k (ls_state s) (t_pattern t) (matched_names t (ls_matched s)) = Ok (Some m) /\
  t_repl t (List.length (ls_matched s)) m = Ok r.
(** Throughout the run, replacements invent only new names. *)
Definition run_names_ok meq k ts st0 : Prop := forall s t m r, about_to_replace meq k ts st0 s t m r -> names_ok (ls_state s) m r.

(** What becomes of a layer that is left alone: same class, name and configuration; it reads the same tensors, up to the
    renaming [f] of replaced layers. *)
Definition kept (f : string -> string) (l l' : layerc) : Prop :=
  same_layer l l' /\ reads l' = map (map (map f)) (reads l) /\
  map (map c_node) (lc_inbound l') = map (map c_node) (lc_inbound l) /\ map (map c_tensor) (lc_inbound l') = map (map c_tensor) (lc_inbound l).

(** "The tree of layers [m] is an instance of the pattern": classes and configurations match, position by position. *)
Inductive satisfies : pat -> node -> Prop :=
| sat_node : forall cls cfg ps l w nw md ins,
    match_pattern (lc_class l) cls = true ->
    (forall k v, In (k, v) cfg -> match_pattern (config_get l k) v = true \/ config_get l k = v) ->
    Forall2 satisfies ps ins -> satisfies (Pat cls cfg ps) (Node l w nw md ins).
(** The transformation ends, in at most some number of iterations. *)
Definition terminates meq k ts st0 : Prop := exists n, forall s, iterate meq k ts n (start ts st0) <> Running s.

(** The maps never hold an entry for a name that is not a layer's. *)
Definition maps_ok (st : state) : Prop :=
  forall n, ~ In n (names st) -> assoc n (s_w st) = None /\ assoc n (s_nw st) = None /\ assoc n (s_meta st) = None.


(** At some point of the run the transform of this name found its pattern with the layer [n] at the head. *)
Definition matched_in_run meq k ts st0 (tn n : string) : Prop :=
  exists i s t m, iterate meq k ts i (start ts st0) = Running s /\ In t ts /\ t_name t = tn /\
    find_pattern k (ls_state s) (t_pattern t) (matched_names t (ls_matched s)) = Ok (Some m) /\ n_name m = n.

(** Two trees of layers say the same: same layers (class, name, configuration, connections), the same weights under the same
    names, equal metadata, and inputs that say the same.  The weights that a layer keeps as (name, value) pairs because two of
    them share a name are NOT part of this. *)
Definition same_tensor (a b : tensor Q) : Prop := shape a = shape b /\ Forall2 Qeq (data a) (data b).
Definition same_named (a b : wts) : Prop := Forall2 (fun p q => fst p = fst q /\ same_tensor (snd p) (snd q)) a b.
Inductive same_node (meq : meta -> meta -> bool) : node -> node -> Prop :=
| sn_node : forall l w nw m ins w' nw' m' ins', same_named w w' -> meq m m' = true ->
    Forall2 (same_node meq) ins ins' -> same_node meq (Node l w nw m ins) (Node l w' nw' m' ins').
(** These layers are listed in the order in which the model lists them. *)
Definition in_model_order (st : state) (ls : list layerc) : Prop := exists f : layerc -> bool, ls = filter f (s_layers st).
