(** Properties C18-C21, C71. Statements only. *)
From Verif Require Import Base M_Tensor M_Schedule L_Schedule M_PruneModel S_PruneModel L_PruneModel L_Lookup.
From Coq Require Import String.
Open Scope string_scope.
Open Scope nat_scope.

Definition ex_args := mkA (ConstantSparsity (1#2) 0 100 10) [1; 1] "AVG" PyNone.
Definition ex_dense n := mkK n "Dense" false [] [("kernel", mkT [1; 2] [3; -(4)]%Q); ("bias", mkT [2] [1; 2]%Q)].
Definition ex_nested := OModel Functional 7 [OInput 0; OLayer (ex_dense 1);
  OModel Sequential 8 [OLayer (ex_dense 2); OLayer (mkK 3 "ReLU" false [] [])]; OLayer (mkK 4 "Custom" true [] [])].

(** C18: stripping a freshly pruned wrapper-free model gives back the very same model. *)
Theorem C18_strip_after_prune_is_identity : forall a policy ensure k g ch r,
  no_wrapper (OModel k g ch) ->
  prune_low_magnitude a policy ensure (TPObj (OModel k g ch)) = Ok r ->
  exists o', r = PObj o' /\ strip_pruning o' = Ok (OModel k g ch).
Proof. exact strip_prune_id'. Qed.
Print Assumptions C18_strip_after_prune_is_identity.
Theorem C18_strip_removes_every_wrapper : forall o o', strip_wrapper o = Ok o' -> no_wrapper o'.
Proof. exact strip_clean. Qed.
Print Assumptions C18_strip_removes_every_wrapper.
Theorem C18_strip_succeeds : forall o, no_subclassed o -> exists o', strip_wrapper o = Ok o'.
Proof. exact strip_total. Qed.
Print Assumptions C18_strip_succeeds.
(** also for models that already contain wrappers: pruning does not change what stripping yields *)
Theorem C18_pruning_is_invisible_to_strip : forall a p o o',
  add_pruning_wrapper a p o = Ok o' -> strip_wrapper o' = strip_wrapper o.
Proof. exact strip_prune. Qed.
Print Assumptions C18_pruning_is_invisible_to_strip.
Example C18_ex : exists o', prune_low_magnitude ex_args None (fun _ => Ok tt) (TPObj ex_nested) = Ok (PObj o') /\
  List.length (collect o') = 4 /\ strip_pruning o' = Ok ex_nested.
Proof. eexists. split; [reflexivity|]. split; reflexivity. Qed.

(** C19 *)
Theorem C19_wraps_exactly_the_allowed_layers : forall a p o o',
  add_pruning_wrapper a p o = Ok o' -> corresponds (leaf_pruned a p) o o'.
Proof. exact prune_corresponds. Qed.
Print Assumptions C19_wraps_exactly_the_allowed_layers.
Theorem C19_idempotent : forall a p a2 o o',
  add_pruning_wrapper a p o = Ok o' -> add_pruning_wrapper a2 p o' = Ok o'.
Proof. exact prune_idem. Qed.
Print Assumptions C19_idempotent.
Theorem C19_idempotent_on_lists : forall a l l' ens p, prune_low_magnitude a p ens (TPList l) = Ok (PList l') ->
  prune_low_magnitude a p ens (TPList l') = Ok (PList l').
Proof. exact prune_list_idem. Qed.
Print Assumptions C19_idempotent_on_lists.
Theorem C19_fails_iff_some_layer_unsupported : forall a p o, no_subclassed o ->
  ((exists o', add_pruning_wrapper a p o = Ok o') <->
   forall l, In l (plain_layers o) -> to_wrap p l -> wrappable a l).
Proof. exact prune_ok_iff. Qed.
Print Assumptions C19_fails_iff_some_layer_unsupported.
Theorem C19_wrappable_iff : forall a l, wrappable a l <->
  (a_pool a = "AVG" \/ a_pool a = "MAX") /\ (k_prunable l = true \/ registry_supports l = true) /\
  (falsy (a_mbyn a) \/ exists x y, a_mbyn a = PySeq [PyInt x; PyInt y]).
Proof. exact wrappable_iff. Qed.
Print Assumptions C19_wrappable_iff.
(** Every refusal is a ValueError, at any depth and for every kind of argument. *)
Theorem C19_refusals_are_value_errors : forall a p ensure x e, (forall o e, ensure o = Err e -> e = ValueError) ->
  prune_low_magnitude a p ensure x = Err e -> e = ValueError.
Proof. exact prune_error. Qed.
Print Assumptions C19_refusals_are_value_errors.
Theorem C18_refusals_are_value_errors : forall o e, strip_pruning o = Err e -> e = ValueError /\ forall k g ch, o = OModel k g ch -> ~ no_subclassed o.
Proof.
  intros o e H. split.
  - destruct o; cbn [strip_pruning] in H; try congruence. eapply strip_error, H.
  - intros k g ch -> N. destruct (strip_total _ N) as [o' E]. cbn [strip_pruning] in H. congruence.
Qed.
Print Assumptions C18_refusals_are_value_errors.
Example C19_ex_unsupported : prune_low_magnitude ex_args None (fun _ => Ok tt)
  (TPObj (OModel Sequential 0 [OLayer (ex_dense 1); OLayer (mkK 2 "GroupNormalization" false [] [])])) = Err ValueError.
Proof. reflexivity. Qed.
(** Two ways the English claim fails: a single already wrapped layer is rejected rather than left alone, and the
    policy is ignored for a list of layers (and for a single layer). *)
Theorem C19_refuted_single_wrapped_layer : exists l w, mk_wrapper ex_args l = Ok w /\
  prune_low_magnitude ex_args None (fun _ => Ok tt) (TPObj (OLayer l)) = Ok (PObj (OWrap w)) /\
  prune_low_magnitude ex_args None (fun _ => Ok tt) (TPObj (OWrap w)) = Err ValueError.
Proof. exists (ex_dense 1). eexists. repeat split; reflexivity. Qed.
Print Assumptions C19_refuted_single_wrapped_layer.
Theorem C19_refuted_policy_ignored_on_lists : exists l w,
  prune_low_magnitude ex_args (Some (fun _ => false)) (fun _ => Err ValueError) (TPList [OLayer l]) = Ok (PList [OWrap w]).
Proof. exists (ex_dense 1). eexists. reflexivity. Qed.
Print Assumptions C19_refuted_policy_ignored_on_lists.

(** C20: the round trip keeps everything but sparsity_m_by_n, so it is faithful iff that was None. *)
Theorem C20_config_roundtrip_iff_no_m_by_n_partial : forall w,
  schedule_from_config (schedule_get_config (c_sched (w_conf w))) = Ok (c_sched (w_conf w)) ->
  (exists a l, mk_wrapper a l = Ok w) ->
  (wrapper_from_config (wrapper_get_config w) = Ok w <-> c_mbyn (w_conf w) = None).
Proof. exact config_same. Qed.
Print Assumptions C20_config_roundtrip_iff_no_m_by_n_partial.
Theorem C20_refuted : exists w w', mk_wrapper (mkA (ConstantSparsity (1#2) 0 100 10) [1;1] "AVG" (PySeq [PyInt 2; PyInt 4]))
    (ex_dense 1) = Ok w /\ wrapper_from_config (wrapper_get_config w) = Ok w' /\
    c_mbyn (w_conf w) = Some (2, 4)%Z /\ c_mbyn (w_conf w') = None.
Proof. do 2 eexists. repeat split; reflexivity. Qed.
Print Assumptions C20_refuted.

(** C21: for every pop order and every finite graph the search ends, and finds exactly what it should. *)
Theorem C21_lookup_exact : forall pick stop next sources n fuel, finite_graph n next sources -> n <= fuel ->
  exists l, lookup_layers pick (fun u => Ok (stop u)) next fuel sources = Some (Ok l) /\
    ((dead_end stop next sources /\ l = []) \/
     (~ dead_end stop next sources /\ NoDup l /\ forall u, In u l <-> reached stop next sources u /\ stop u = true)).
Proof. exact lookup_total. Qed.
Print Assumptions C21_lookup_exact.
Theorem C21_empty_iff_dead_end : forall pick stop next sources n fuel, finite_graph n next sources -> n <= fuel ->
  acyclic next -> sources <> [] ->
  (lookup_layers pick (fun u => Ok (stop u)) next fuel sources = Some (Ok []) <-> dead_end stop next sources).
Proof. exact lookup_empty_iff. Qed.
Print Assumptions C21_empty_iff_dead_end.
(** diamond 0 -> {1,2} -> 3 -> 4, stop at 1 and 4 *)
Definition ex_next (u : nat) : list nat := match u with 0 => [1; 2] | 1 => [3] | 2 => [3] | 3 => [4] | _ => [] end.
Example C21_ex : lookup_layers (fun _ => 1) (fun u => Ok (mem u [1; 4])) ex_next 5 [0] = Some (Ok [4; 1]) /\
  finite_graph 5 ex_next [0] /\ acyclic ex_next.
Proof.
  split; [reflexivity|]. split.
  - split; [intros v [<-|[]]; lia|]. intros u v. destruct u as [|[|[|[|]]]]; cbn; intuition lia.
  - exists (fun x => x). intros u v. destruct u as [|[|[|[|]]]]; cbn; intuition lia.
Qed.

(** C71: the whole check of PruneForLatencyOnXNNPack. Missing from the full claim: the last alternative must be
    excluded, i.e. no path from a start layer may end in a supported layer without consumers. *)
Theorem C71_accepts_only_supported_partial : forall pick fuel is_start is_end supported consumers producers inputs outputs n,
  finite_graph n consumers inputs -> finite_graph n producers outputs -> n <= fuel ->
  ensure_supports pick fuel is_start is_end supported consumers producers inputs outputs = Some (Ok tt) ->
  exists starts ends,
    starts <> [] /\ ends <> [] /\
    ~ dead_end is_start consumers inputs /\ ~ dead_end is_end producers outputs /\
    (forall u, In u starts <-> reached is_start consumers inputs u /\ is_start u = true) /\
    (forall u, In u ends <-> reached is_end producers outputs u /\ is_end u = true) /\
    (dead_end (fun u => mem u ends || negb (supported u)) consumers (flat_map consumers starts) \/
     forall u, reached (fun u => mem u ends) consumers (flat_map consumers starts) u -> ~ In u ends -> supported u = true).
Proof. exact ensure_ok_inv. Qed.
Print Assumptions C71_accepts_only_supported_partial.
(** Whatever the pop order the check comes to an end, and a model is turned down only with a ValueError and for one of the
    documented reasons: no start layer (or a way around it), no end layer (or a way around it), an unsupported layer in between. *)
Theorem C71_rejects_only_with_cause : forall pick fuel is_start is_end supported consumers producers inputs outputs n,
  finite_graph n consumers inputs -> finite_graph n producers outputs -> n <= fuel ->
  ensure_supports pick fuel is_start is_end supported consumers producers inputs outputs <> None /\
  forall e, ensure_supports pick fuel is_start is_end supported consumers producers inputs outputs = Some (Err e) ->
  e = ValueError /\
  ((dead_end is_start consumers inputs \/ forall u, reached is_start consumers inputs u -> is_start u = false) \/
   (dead_end is_end producers outputs \/ forall u, reached is_end producers outputs u -> is_end u = false) \/
   exists starts ends u,
     (forall v, In v starts <-> reached is_start consumers inputs v /\ is_start v = true) /\
     (forall v, In v ends <-> reached is_end producers outputs v /\ is_end v = true) /\
     reached (fun v => mem v ends) consumers (flat_map consumers starts) u /\ ~ In u ends /\ supported u = false).
Proof. exact ensure_err. Qed.
Print Assumptions C71_rejects_only_with_cause.
(** input 0 -> start 1 -> conv 2 -> { relu 3 (output of another model), unsupported 4 } ; 4 -> pooling 5 = output.
    Popping 3 first ends the traversal with the empty set, and layer 4 is never looked at. *)
Definition bad_cons (u : nat) : list nat := match u with 0 => [1] | 1 => [2] | 2 => [4; 3] | 4 => [5] | _ => [] end.
Definition bad_prod (u : nat) : list nat := match u with 5 => [4] | 4 => [2] | 3 => [2] | 2 => [1] | 1 => [0] | _ => [] end.
Theorem C71_refuted : exists pick, ensure_supports pick 6 (Nat.eqb 1) (Nat.eqb 5) (fun u => negb (u =? 4)) bad_cons bad_prod [0] [5]
    = Some (Ok tt) /\ reached (Nat.eqb 5) bad_cons [2] 4 /\ 4 <> 5.
Proof.
  exists (fun _ => 0). split; [reflexivity|]. split; [|lia].
  apply r_step with 2; [apply r_src; left; auto|reflexivity|left; auto].
Qed.
Print Assumptions C71_refuted.
(** and another pop order rejects the same model *)
Example C71_order_dependent : ensure_supports (fun _ => 1) 6 (Nat.eqb 1) (Nat.eqb 5) (fun u => negb (u =? 4)) bad_cons bad_prod [0] [5]
    = Some (Err ValueError).
Proof. reflexivity. Qed.

(** ** C81: what is pruned in built-in layers *)
Theorem C81_only_kernels_and_embeddings : forall l ns n, prunable_names l = Ok ns -> In n ns -> n = "embeddings" \/ ends_with_kernel n.
Proof. exact pruned_are_kernels. Qed.
Print Assumptions C81_only_kernels_and_embeddings.
Theorem C81_kernels_are_pruned : forall l, In (k_class l) kernel_classes -> prunable_names l = Ok ["kernel"].
Proof. exact kernels_pruned. Qed.
Print Assumptions C81_kernels_are_pruned.
Theorem C81_every_recurrent_cell_is_pruned : forall l i cls b, In (k_class l) rnn_classes -> registry_supports l = true ->
  nth_error (k_cells l) i = Some (cls, b) -> In cls builtin_cells ->
  exists ns, prunable_names l = Ok ns /\ In (cell_name i "kernel") ns /\ In (cell_name i "recurrent_kernel") ns.
Proof. exact cells_pruned. Qed.
Print Assumptions C81_every_recurrent_cell_is_pruned.
Theorem C81_recurrent_layers_supported_iff : forall l, In (k_class l) rnn_classes ->
  (registry_supports l = true <-> forall cls b, In (cls, b) (k_cells l) -> In cls builtin_cells \/ b = true).
Proof. exact rnn_supported_iff. Qed.
Print Assumptions C81_recurrent_layers_supported_iff.
Example C81_ex : prunable_names (mkK 1 "RNN" false [("LSTMCell", false); ("Mine", true); ("GRUCell", false)] []) = Ok ["0.kernel"; "0.recurrent_kernel"; "2.kernel"; "2.recurrent_kernel"] /\
  prunable_names (mkK 1 "RNN" false [("LSTMCell", false); ("Mine", false)] []) = Err ValueError /\ prunable_names (mkK 1 "BatchNormalization" false [] []) = Ok [].
Proof. repeat split. Qed.

(** ** C82: the callback reaches every wrapped layer, at any depth *)
Theorem C82_collects_every_wrapper : forall w o, In w (collect o) <-> occurs w o.
Proof. exact collect_occurs. Qed.
Print Assumptions C82_collects_every_wrapper.
Theorem C82_collects_what_pruning_wrapped : forall a o o' l, add_pruning_wrapper a None o = Ok o' -> In l (plain_layers o) -> exists w, In w (collect o') /\ w_layer w = l.
Proof. exact pruned_collected. Qed.
Print Assumptions C82_collects_what_pruning_wrapped.
Example C82_ex : exists o', add_pruning_wrapper ex_args None ex_nested = Ok o' /\ map (fun w => k_id (w_layer w)) (collect o') = [1; 2; 3; 4].
Proof. eexists. split; reflexivity. Qed.
