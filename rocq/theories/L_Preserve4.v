(** Cluster-preserving quantizer: bounds, absence of failures, first pass, shared flags. *)
From Coq Require Import String.
From Verif Require Import Base M_Num L_Num M_Tensor L_Tensor M_Stages L_Stages M_Cluster M_ClusterWrapper S_Cluster S_ClusterWrapper L_Cluster L_Cluster5 L_Cluster6 L_Cluster7 L_Cluster8 L_Cluster9 M_Quant S_Quant L_Quant L_Quantizers L_Quantizers3 L_Quantizers4 M_Preserve S_Preserve L_Preserve L_Preserve2 L_Preserve3.
Open Scope Q_scope.

Lemma max_of_le l n : (forall x, In x l -> (x <= n)%nat) -> (max_of l <= n)%nat.
Proof. unfold max_of. induction l as [|a r IH]; intros H; cbn [fold_right]; [lia|]. apply Nat.max_lub; [apply H; now left|apply IH; intros x I; apply H; now right]. Qed.
Lemma exact_num n l : exactly_distinct n l -> length (uniques [] l) = n.
Proof. intros H. symmetry. apply (exactly_unique _ _ l H (uniques_exact l)). Qed.
Lemma at_flat df l idx : centroids_at df (Flat l) idx = l. Proof. reflexivity. Qed.
Lemma members_distinct df cs t n (w0 : tensor Q) : wf t -> shape t = shape w0 -> (exists l, cs = Flat l /\ (length l <= n)%nat) ->
  (forall idx, valid (shape w0) idx -> exists z, In z (centroids_at df cs idx) /\ tget 0 t idx == z) -> at_most_distinct n (data t).
Proof.
  intros W S (l & -> & L) H. exists l. split; [exact L|]. intros x I. destruct (In_data_idx 0 t x W I) as (idx & V & <-). rewrite S in V. destruct (H idx V) as (z & Iz & E). eauto.
Qed.
Lemma channel_bound t c n l : at_most_distinct n (data t) -> wf t -> (forall x, In x l -> exists idx, valid (shape t) idx /\ output_channel idx = c /\ tget 0 t idx = x) -> at_most_distinct n l.
Proof. intros D W H. eapply distinct_sub; [|exact D]. intros x I. destruct (H x I) as (idx & V & _ & <-). exists (tget 0 t idx). split; [now apply In_data|reflexivity]. Qed.
Lemma same_form_flat l cs : same_form (Flat l) cs -> exists m, cs = Flat m /\ length m = length l.
Proof. destruct cs as [m|]; cbn; [|contradiction]. intros E. exists m. auto. Qed.

Section Bounds.
Context (k : kclass) (df : data_format) (flag0 flagb fl : bool) (w0 : tensor Q) (v0 v : cpvars) (evs : list cpevent) (y : tensor Q) (v' : cpvars).
Context (K : kernel k w0) (B : cp_build k df flag0 w0 = Ok (flagb, v0)) (F : Forall (cp_fits w0 v0) evs) (R : cp_run k df fl v0 evs = Ok v).
Lemma hist_inv : vinv k w0 v0 v.
Proof. eapply run_inv; eauto. eapply vinv0; eauto. Qed.
Context (Ra : orig_in_range v) (C : cp_call k df fl true v = Ok (y, v')).

Theorem dense_bound n : k = KDense -> exactly_distinct n (data w0) -> (2 <= n <= 1024)%nat -> at_most_distinct n (data (cp_kernel v')) /\ at_most_distinct n (data y).
Proof.
  intros Ek D Hn. destruct (cp_build_cases _ _ _ _ _ _ K B) as (_ & _ & _ & _ & cs & num & lk & G & Cl). rewrite Ek in G. cbn [get_centroids] in G. injection G as <- <- <-. unfold get_unique in Cl. rewrite (exact_num n _ D) in Cl.
  destruct Cl as [[_ X]|(_ & p & _ & _ & Cl)]; [lia|]. destruct (train_members k df flag0 flagb w0 v0 K B fl v y v' hist_inv) as (Lk & (u & u' & Q) & c0 & cs & E0 & Sf & H); auto; [congruence|].
  rewrite Cl in E0. injection E0 as <-. cbn [cc_cents] in Sf. apply same_form_flat in Sf as (m & -> & Lm). fold (get_unique w0) in *.
  assert (at_most_distinct n (data (cp_kernel v'))) as D'. { apply (members_distinct df (Flat m) _ n w0); [apply Lk|apply Lk| |exact H]. exists m. split; [reflexivity|]. rewrite Lm. unfold get_unique. rewrite (exact_num n _ D). lia. }
  split; [exact D'|]. rewrite Ek in Q. eapply base_call_dense; [|exact Q|exact D']. rewrite <- Ek. eapply like_kernel; eauto.
Qed.
Lemma conv_uneven : k = KConv2D -> df = ChannelsLast -> ~ evenly_clustered w0 -> forall cs num lk, get_centroids k df w0 = Ok (cs, num, lk) -> cs = Flat (get_unique w0) /\ num = length (get_unique w0).
Proof. intros Ek Ed NE cs num lk G. destruct (get_centroids_cases k df w0 cs num lk K G) as (_ & [(-> & -> & _)|(_ & a & b & h & o & _ & _ & _ & _ & _ & X)]); [auto|]. exfalso. apply NE. apply X. exact Ed. Qed.
Theorem conv_whole_bound n : k = KConv2D -> df = ChannelsLast -> ~ evenly_clustered w0 -> exactly_distinct n (data w0) -> (2 <= n <= 1024)%nat ->
  at_most_distinct n (data (cp_kernel v')) /\ forall c, at_most_distinct n (output_channel_values y c).
Proof.
  intros Ek Ed NE D Hn. destruct (cp_build_cases _ _ _ _ _ _ K B) as (_ & _ & _ & _ & cs & num & lk & G & Cl). destruct (conv_uneven Ek Ed NE cs num lk G) as [-> ->]. unfold get_unique in Cl. rewrite (exact_num n _ D) in Cl.
  destruct Cl as [[_ X]|(_ & p & _ & _ & Cl)]; [lia|]. destruct (train_members k df flag0 flagb w0 v0 K B fl v y v' hist_inv) as (Lk & (u & u' & Q) & c0 & cs & E0 & Sf & H); auto; [congruence|].
  rewrite Cl in E0. injection E0 as <-. cbn [cc_cents] in Sf. apply same_form_flat in Sf as (m & -> & Lm).
  assert (at_most_distinct n (data (cp_kernel v'))) as D'. { apply (members_distinct df (Flat m) _ n w0); [apply Lk|apply Lk| |exact H]. exists m. split; [reflexivity|]. rewrite Lm. unfold get_unique. rewrite (exact_num n _ D). lia. }
  split; [exact D'|]. intros c. rewrite Ek in Q. eapply base_call_channel; [rewrite <- Ek; eapply like_kernel; eauto|exact Q|]. apply (channel_bound (cp_kernel v') c n); [exact D'|apply Lk|]. intros x I. apply output_channel_In in I as (idx & V & O & E). exists idx. auto.
Qed.
End Bounds.

(** Rows of a channels_last kernel. *)
Lemma rows_of_nth w a b h o n c : (c < n)%nat -> nth c (rows_of w a b h o n) [] = get_unique (the_slice 0 ChannelsLast w a b h o c).
Proof. intros Hc. unfold rows_of. rewrite (nth_map_indep _ _ c [] 0%nat) by (now rewrite seq_length). now rewrite seq_nth. Qed.
Lemma rows_of_length w a b h o n : length (rows_of w a b h o n) = n. Proof. unfold rows_of. now rewrite map_length, seq_length. Qed.
Lemma slice_channel w a b h o c x : shape w = [a; b; h; o] -> (c < o)%nat -> In x (data (the_slice 0 ChannelsLast w a b h o c)) <-> In x (output_channel_values w c).
Proof.
  intros E Hc. split; intros I.
  - apply (slice_In ChannelsLast w a b h o c x E Hc) in I as (idx & V & Oc & <-). now apply output_channel_intro.
  - apply output_channel_In in I as (idx & V & Oc & <-). apply (slice_In ChannelsLast w a b h o c _ E Hc). exists idx. auto.
Qed.
Lemma distinct_same n l m : (forall x, In x l <-> In x m) -> at_most_distinct n l <-> at_most_distinct n m.
Proof. intros H. split; apply distinct_sub; intros x I; exists x; (split; [now apply H|reflexivity]). Qed.
Definition padded (m : nat) (r : list Q) : list Q := (r ++ repeat 1 (m - length r))%list.
Lemma padded_length m r : (length r <= m)%nat -> length (padded m r) = m.
Proof. intros L. unfold padded. rewrite app_length, repeat_length. lia. Qed.

Section Channels.
Context (flag0 flagb fl : bool) (w0 : tensor Q) (v0 v : cpvars) (evs : list cpevent) (y : tensor Q) (v' : cpvars).
Context (K : kernel KConv2D w0) (B : cp_build KConv2D ChannelsLast flag0 w0 = Ok (flagb, v0)) (F : Forall (cp_fits w0 v0) evs) (R : cp_run KConv2D ChannelsLast fl v0 evs = Ok v).
Context (Ra : orig_in_range v) (C : cp_call KConv2D ChannelsLast fl true v = Ok (y, v')).
Lemma even_case : evenly_clustered w0 -> forall cs num lk, get_centroids KConv2D ChannelsLast w0 = Ok (cs, num, lk) -> exists a b h o, shape w0 = [a; b; h; o] /\
  num = max_of (map (@length Q) (rows_of w0 a b h o o)) /\ cs = Rows (map (padded num) (rows_of w0 a b h o o)).
Proof.
  intros Ev cs num lk G. destruct (get_centroids_cases _ _ w0 cs num lk K G) as (_ & [(_ & _ & _ & X)|(_ & a & b & h & o & E & X)]); [now destruct (X eq_refl eq_refl)|].
  cbn [nchan] in X. destruct X as (_ & -> & -> & _). exists a, b, h, o. auto.
Qed.
Theorem channels_bound n : evenly_clustered w0 -> (forall c, (c < filters w0)%nat -> at_most_distinct n (output_channel_values w0 c)) -> (n <= 1024)%nat ->
  (exists c, (c < filters w0)%nat /\ ~ at_most_distinct 1 (output_channel_values w0 c)) ->
  forall c, (c < filters w0)%nat -> at_most_distinct n (output_channel_values (cp_kernel v') c) /\ at_most_distinct n (output_channel_values y c).
Proof.
  intros Ev D Hn (c1 & L1 & N1) c Lc. destruct (cp_build_cases _ _ _ _ _ _ K B) as (_ & _ & _ & _ & cs & num & lk & G & Cl). destruct (even_case Ev cs num lk G) as (a & b & h & o & E & En & Ec).
  unfold filters in *. rewrite E in *. cbn [nth] in *.
  assert (forall r, In r (rows_of w0 a b h o o) -> (length r <= num)%nat) as Lr by (intros r I; rewrite En; apply max_of_ge, in_map, I).
  assert (num <= n)%nat as Ln.
  { rewrite En. apply max_of_le. intros x I. apply in_map_iff in I as (r & <- & I). destruct (In_split_nth _ _ [] I) as (c2 & L2 & <-). rewrite rows_of_length in L2. rewrite rows_of_nth by exact L2. apply uniques_least.
    apply (distinct_same n _ (output_channel_values w0 c2)); [intros x; now apply slice_channel|]. now apply D. }
  assert (1 < num)%nat as Ln1.
  { destruct (Nat.lt_ge_cases 1 num) as [|G1]; [auto|]. exfalso. apply N1. assert (at_most_distinct 1 (data (the_slice 0 ChannelsLast w0 a b h o c1))) as D1.
    { exists (get_unique (the_slice 0 ChannelsLast w0 a b h o c1)). split; [|intros x I; now apply uniques_all]. etransitivity; [|exact G1]. apply Lr. rewrite <- (rows_of_nth w0 a b h o o c1 L1). apply nth_In. now rewrite rows_of_length. }
    revert D1. apply (distinct_same 1). intros x. symmetry. now apply slice_channel. }
  destruct Cl as [[_ X]|(_ & p & _ & _ & Cl)]; [lia|].
  assert (vinv KConv2D w0 v0 v) as Iv by (eapply hist_inv; eauto).
  destruct (train_members _ _ flag0 flagb w0 v0 K B fl v y v' Iv) as (Lk & (u & u' & Q) & c0 & cs' & E0 & Sf & H); auto; [congruence|].
  rewrite Cl in E0. injection E0 as <-. cbn [cc_cents] in Sf. rewrite Ec in Sf. destruct cs' as [|rows]; [contradiction|]. cbn [same_form] in Sf.
  assert (at_most_distinct n (output_channel_values (cp_kernel v') c)) as D'.
  { exists (nth c rows []). split.
    - rewrite <- (same_form_lengths _ _ c Sf). rewrite (nth_map_indep _ _ c [] []) by (now rewrite rows_of_length). rewrite padded_length; [exact Ln|]. apply Lr, nth_In. now rewrite rows_of_length.
    - intros x I. apply output_channel_In in I as (idx & V & O & <-). destruct Lk as [_ Sk]. rewrite Sk in V. destruct (H idx V) as (z & Iz & Ez). exists z. split; [|exact Ez]. cbn [centroids_at] in Iz. replace (slice_of ChannelsLast idx) with c in Iz by (symmetry; exact O). exact Iz. }
  split; [exact D'|]. eapply base_call_channel; [eapply like_kernel; eauto|exact Q|exact D'].
Qed.
End Channels.
