(** Specification vocabulary for the clustering wrapper. *)
From Verif Require Import Base M_Tensor M_Num M_Cluster S_Cluster M_ClusterWrapper.
Open Scope Q_scope.

(** Same number of centroids (in every channel). *)
Definition same_form (a b : centroids) : Prop :=
  match a, b with
  | Flat l, Flat m => length l = length m
  | Rows r, Rows s => map (@length Q) r = map (@length Q) s
  | _, _ => False
  end.
(** An update changes values arbitrarily but not shapes. *)
Definition fits_var (x : cvar) (t : tensor Q) (cs : centroids) : Prop := wf t /\ shape t = shape (cv_orig x) /\ same_form (cv_cents x) cs.
Definition fits (w : cwrapper) (e : event) : Prop :=
  match e with
  | Forward => True
  | Train origs cents rest => length origs = length (cw_vars w) /\ length cents = length (cw_vars w) /\
      (forall i x t cs, nth_error (cw_vars w) i = Some x -> nth_error origs i = Some t -> nth_error cents i = Some cs -> fits_var x t cs) /\
      map fst rest = map fst (cw_rest w)
  end.
(** A layer as Keras gives it: distinct variables, well-formed values, clusterable weights among them. *)
Definition proper_layer (l : clayer) : Prop :=
  NoDup (map fst (l_weights l)) /\ NoDup (l_clusterable l) /\ (forall v t, In (v, t) (l_weights l) -> wf t) /\
  (forall v, In v (l_clusterable l) -> In v (map fst (l_weights l))).
(** The centroids that apply to a position: all of them, or those of its channel. *)
Definition centroids_at (df : data_format) (cs : centroids) (idx : list nat) : list Q :=
  match cs with Flat l => l | Rows rows => nth (slice_of df idx) rows [] end.
(** The original weight that a forward pass looks at. *)
Definition strictly_above (b : Q) (t : tensor Q) : Prop := forall idx, valid (shape t) idx -> b < tget 0 t idx.
(** Arguments the constructor accepts (C31), with a random generator / kmeans++ op that behaves. *)
Definition accepted (cfg : ccfg) : Prop :=
  sound_initialiser (cluster_centroids_init cfg) /\ ((if preserve_sparsity cfg then 3 else 2) <= number_of_clusters cfg)%Z.
(** The value of variable [v] that the wrapped layer works with: the clustered tensor for a clusterable weight, the variable's own value otherwise. *)
Definition effective_value (w : cwrapper) (v : nat) : option (tensor Q) :=
  match find (fun x => Nat.eqb (cv_name x) v) (cw_vars w) with
  | Some x => cv_attr x
  | None => match find (fun p => Nat.eqb (fst p) v) (cw_rest w) with Some p => Some (snd p) | None => None end
  end.
(** get_clusterable_weights() lists the weights in the order of layer.weights. *)
Definition registered_in_order (l : clayer) : Prop :=
  l_clusterable l = filter (fun v => existsb (Nat.eqb v) (l_clusterable l)) (map fst (l_weights l)).
(** number_of_clusters is an int and large enough. *)
Definition valid_count (n : pynum) (sparse : bool) (z : Z) : Prop := n = PInt z /\ ((if sparse then 3 else 2) <= z)%Z.
(** Settings of a wrapper object that the constructor can have produced. *)
Definition constructible (w : wsettings) : Prop :=
  ((if ws_sparse w then 3 else 2) <= ws_number w)%Z /\ (ws_conv2d w = false -> ws_per_channel w = false).
