(** Corollaries about histories in the form the property file states them. *)
From Verif Require Import Base M_Tensor M_Num M_Stages M_Cluster M_ClusterWrapper S_Cluster S_ClusterWrapper L_Num L_Tensor L_Stages L_Cluster L_Cluster2 L_Cluster3 L_Cluster4 L_Cluster5 L_Cluster6 L_Cluster7.
Open Scope Q_scope.

Lemma history_sparse cfg l w0 evs : accepted cfg -> preserve_sparsity cfg = true -> proper_layer l -> build cfg l = Ok w0 -> Forall (fits w0) evs ->
  exists w1 w2, run w0 evs = Ok w1 /\ step w1 Forward = Ok w2 /\ forall i v, nth_error (l_clusterable l) i = Some v ->
    exists t0 x t, In (v, t0) (l_weights l) /\ nth_error (cw_vars w2) i = Some x /\ cv_name x = v /\ cv_attr x = Some t /\ shape t = shape t0 /\ wf t /\
      forall idx, valid (shape t0) idx -> tget 0 t0 idx == 0 -> tget 0 t idx == 0.
Proof.
  intros Ac P Pl H F. destruct (history_full cfg l w0 evs Ac Pl H F) as (w1 & w2 & H1 & H2 & _ & _ & _ & Hv). exists w1, w2. repeat split; auto.
  intros i v Hi. destruct (Hv i v Hi) as (t0 & x1 & x2 & A & _ & B & C & _ & _ & _ & _ & (t & D1 & D2 & D3 & D4 & _)). exists t0, x2, t. repeat split; auto.
Qed.
Lemma history_nearest cfg l w0 evs : accepted cfg -> proper_layer l -> build cfg l = Ok w0 -> Forall (fits w0) evs ->
  exists w1 w2, run w0 evs = Ok w1 /\ step w1 Forward = Ok w2 /\ forall i v, nth_error (l_clusterable l) i = Some v ->
    exists t0 x t, In (v, t0) (l_weights l) /\ nth_error (cw_vars w2) i = Some x /\ cv_name x = v /\ cv_attr x = Some t /\ shape t = shape t0 /\ wf t /\
      forall idx, valid (shape t) idx -> -1000000 < tget 0 (cv_orig x) idx ->
        let cs := centroids_at (data_format_of cfg) (cv_cents x) idx in
        (Z.of_nat (length cs) <= number_of_clusters cfg)%Z /\
        exists o, (o == tget 0 (cv_orig x) idx \/ (preserve_sparsity cfg = true /\ o == 0)) /\ nearest_centroid cs o (tget 0 t idx).
Proof.
  intros Ac Pl H F. destruct (history_full cfg l w0 evs Ac Pl H F) as (w1 & w2 & H1 & H2 & _ & _ & _ & Hv). exists w1, w2. repeat split; auto.
  intros i v Hi. destruct (Hv i v Hi) as (t0 & x1 & x2 & A & _ & B & C & _ & _ & _ & Bd & (t & D1 & D2 & D3 & _ & D5)). exists t0, x2, t. repeat split; auto.
  - intros. pose proof (bounded_at _ (data_format_of cfg) (cv_cents x2) idx Bd). destruct Ac as [_ Ac]. destruct (preserve_sparsity cfg); lia.
  - rewrite D2 in H0. destruct (D5 idx H0) as (o & Ho & Nc & G & _). exists o. split.
    + destruct Ho as [->|(P & [->| ->])]; [left; reflexivity|right; split; [exact P|ring]|left; ring].
    + rewrite G. eapply nearest_compat; [symmetry; apply add_gradient_id|now apply nearest_gather]. destruct Ho as [->|(P & [->| ->])]; lra.
Qed.
Lemma nearest_In cs w v : nearest_centroid cs w v -> exists c, In c cs /\ v == c.
Proof. intros (i & c & H & E & _). exists c. split; [eapply nth_error_In, H|exact E]. Qed.
Lemma history_distinct cfg l w0 evs : accepted cfg -> proper_layer l -> build cfg l = Ok w0 -> Forall (fits w0) evs ->
  exists w1 w2, run w0 evs = Ok w1 /\ step w1 Forward = Ok w2 /\ forall i v, nth_error (l_clusterable l) i = Some v ->
    exists x t, nth_error (cw_vars w2) i = Some x /\ cv_name x = v /\ cv_attr x = Some t /\
      ((forall y, In y (data (cv_orig x)) -> -1000000 < y) -> (exists cs, cv_cents x = Flat cs) -> at_most_distinct (Z.to_nat (number_of_clusters cfg)) (data t)).
Proof.
  intros Ac Pl H F. destruct (history_nearest cfg l w0 evs Ac Pl H F) as (w1 & w2 & H1 & H2 & Hv). destruct (history_full cfg l w0 evs Ac Pl H F) as (w1' & w2' & H1' & H2' & _ & _ & _ & Hv').
  assert (w1' = w1) by congruence. subst w1'. assert (w2' = w2) by congruence. subst w2'. exists w1, w2. repeat split; auto.
  intros i v Hi. destruct (Hv i v Hi) as (t0 & x & t & A & B & C & D & E & W & G). destruct (Hv' i v Hi) as (t0' & x1' & x2' & A' & _ & B' & _ & _ & _ & So & Bd & U). assert (x2' = x) by congruence. subst x2'.
  exists x, t. repeat split; auto. intros Hy (cs & Ec). exists cs. rewrite Ec in *. split; [exact Bd|]. intros y Hin. destruct (In_data_idx 0 t y W Hin) as (idx & V & <-).
  destruct (G idx V) as (_ & o & _ & N); [|apply nearest_In in N; exact N].
  destruct U as (t2 & U1 & U2 & U3 & _ & U5). assert (t2 = t) by congruence. subst t2.
  destruct (Nat.lt_ge_cases (ravel (shape (cv_orig x)) idx) (List.length (data (cv_orig x)))) as [L|L].
  - apply Hy. unfold tget. now apply nth_In.
  - unfold tget. rewrite nth_overflow by exact L. lra.
Qed.
(** Per-channel clustering, property form. *)
Lemma per_channel_nearest df rows w a b h o : shape w = [a; b; h; o] -> wf w -> (0 < nth (slice_axis df) (shape w) 0)%nat -> length rows = nth (slice_axis df) (shape w) 0%nat -> (forall r, In r rows -> r <> []) ->
  (forall x, In x (data w) -> -1000000 < x) ->
  exists p r, get_pulling_indices_pc df rows w = Ok p /\ get_clustered_weight_pc df rows p w = Ok r /\ shape r = shape w /\
    forall idx, valid (shape w) idx -> nearest_centroid (nth (slice_of df idx) rows []) (tget 0 w idx) (tget 0 r idx).
Proof.
  intros E W Hc Lr NE Hw. assert (Q : nth (slice_axis df) (shape w) 0%nat = nchan df b o) by (rewrite E; destruct df; reflexivity). rewrite Q in *.
  destruct (cluster_pc df rows w a b h o E W Hc Lr) as (p & r & H1 & H2 & H3 & H4 & H5 & _). exists p, r. repeat split; auto. intros idx V. rewrite H5 by exact V.
  eapply nearest_compat; [symmetry; apply add_gradient_id|apply nearest_gather].
  - apply Hw. unfold tget. apply nth_In. rewrite W. now apply ravel_lt.
  - apply NE, nth_In. rewrite Lr. rewrite E in V. destruct (valid4 _ _ _ _ _ V) as (i & j & k & m & -> & ? & ? & ? & ?). destruct df; cbn; assumption.
Qed.
Lemma output_channel_In t c x : In x (output_channel_values t c) -> exists idx, valid (shape t) idx /\ output_channel idx = c /\ tget 0 t idx = x.
Proof.
  unfold output_channel_values. intros H. apply in_map_iff in H. destruct H as (idx & <- & H). apply filter_In in H. destruct H as [H1 H2]. apply Nat.eqb_eq in H2.
  apply in_map_iff in H1. destruct H1 as (n & <- & Hn). apply in_seq in Hn. exists (unravel (shape t) n). repeat split; auto. apply unravel_valid. lia.
Qed.
Lemma channels_last_distinct n rows w a b h o p r : shape w = [a; b; h; o] -> wf w -> length rows = o -> (forall x, In x rows -> x <> [] /\ (length x <= n)%nat) ->
  (forall x, In x (data w) -> -1000000 < x) -> get_pulling_indices_pc ChannelsLast rows w = Ok p -> get_clustered_weight_pc ChannelsLast rows p w = Ok r ->
  forall c, (c < o)%nat -> at_most_distinct n (output_channel_values r c).
Proof.
  intros E W Lr NE Hw Hp Hr c Hc. destruct (per_channel_nearest ChannelsLast rows w a b h o E W) as (p' & r' & Hp' & Hr' & Sr & N); auto.
  - rewrite E. cbn. lia.
  - rewrite E. exact Lr.
  - intros x Hx. now apply NE.
  - assert (p' = p) by congruence. subst p'. assert (r' = r) by congruence. subst r'. exists (nth c rows []). split; [apply NE, nth_In; lia|]. intros x Hx. apply output_channel_In in Hx. destruct Hx as (idx & V & Ec & <-).
    rewrite Sr in V. specialize (N idx V). change (slice_of ChannelsLast idx) with (output_channel idx) in N. rewrite Ec in N. now apply nearest_In in N.
Qed.

(** The association that the wrapper stores is the one the forward pass used. *)
Lemma history_indices cfg l w0 evs : accepted cfg -> proper_layer l -> build cfg l = Ok w0 -> Forall (fits w0) evs ->
  exists w1 w2, run w0 evs = Ok w1 /\ step w1 Forward = Ok w2 /\ forall i v, nth_error (l_clusterable l) i = Some v ->
    exists x t, nth_error (cw_vars w2) i = Some x /\ cv_name x = v /\ cv_attr x = Some t /\
      forall idx, valid (shape t) idx -> -1000000 < tget 0 (cv_orig x) idx ->
        exists c, nth_error (centroids_at (data_format_of cfg) (cv_cents x) idx) (tget 0%nat (cv_idx x) idx) = Some c /\ c == tget 0 t idx.
Proof.
  intros Ac Pl H F. destruct (history_full cfg l w0 evs Ac Pl H F) as (w1 & w2 & H1 & H2 & _ & _ & _ & Hv). exists w1, w2. repeat split; auto.
  intros i v Hi. destruct (Hv i v Hi) as (t0 & x1 & x2 & A & _ & B & C & _ & _ & _ & Bd & (t & D1 & D2 & D3 & _ & D5)). exists x2, t. repeat split; auto.
  intros idx V L. rewrite D2 in V. destruct (D5 idx V) as (o & Ho & Nc & G & P). set (cs := centroids_at _ _ _) in *.
  destruct (pulling_index_spec cs o Nc) as (c & Hc & _). exists c. rewrite P. split; [exact Hc|]. rewrite G, add_gradient_id.
  - symmetry. now rewrite (gather_error _ _ _ Hc).
  - destruct Ho as [->|(_ & [->| ->])]; lra.
Qed.
