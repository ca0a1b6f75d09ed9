From Verif Require Import Base M_Tensor M_Num M_Stages M_Cluster S_Cluster L_Num L_Tensor L_Stages.
Open Scope Q_scope.

(** argmin *)
Lemma argmin_from_spec l : forall best besti i,
  let k := argmin_from best besti i l in
  (k = besti /\ (forall j c, nth_error l j = Some c -> best <= c)) \/
  (exists m c, k = (i + m)%nat /\ nth_error l m = Some c /\ c < best /\ (forall j d, nth_error l j = Some d -> c <= d) /\
     (forall j d, (j < m)%nat -> nth_error l j = Some d -> c < d)).
Proof.
  induction l as [|a l IH]; intros best besti i; cbn [argmin_from].
  - left. split; [reflexivity|]. intros [|j] c H; discriminate.
  - destruct (qltb a best) eqn:E.
    + apply qltb_iff in E. specialize (IH a i (S i)). cbn zeta in IH. destruct IH as [[-> H]|(m & c & -> & H1 & H2 & H3 & H4)].
      * right. exists 0%nat, a. repeat split; [lia|exact E| |lia].
        intros [|j] d; cbn; [intros [= ->]; lra|apply H].
      * right. exists (S m), c. repeat split; [lia|exact H1|lra| |].
        -- intros [|j] d; cbn; [intros [= <-]; lra|apply H3].
        -- intros [|j] d Hj; cbn; [intros [= <-]; exact H2|apply H4; lia].
    + apply qltb_false in E. specialize (IH best besti (S i)). cbn zeta in IH. destruct IH as [[-> H]|(m & c & -> & H1 & H2 & H3 & H4)].
      * left. split; [reflexivity|]. intros [|j] c; cbn; [intros [= <-]; lra|apply H].
      * right. exists (S m), c. repeat split; [lia|exact H1|lra| |].
        -- intros [|j] d; cbn; [intros [= <-]; lra|apply H3].
        -- intros [|j] d Hj; cbn; [intros [= <-]; lra|apply H4; lia].
Qed.
Lemma argmin_spec l : l <> [] -> exists c, nth_error l (argmin l) = Some c /\ (forall j d, nth_error l j = Some d -> c <= d) /\
  (forall j d, (j < argmin l)%nat -> nth_error l j = Some d -> c < d).
Proof.
  destruct l as [|a l]; [congruence|]. intros _. unfold argmin. destruct (argmin_from_spec l a 0 1) as [[-> H]|(m & c & -> & H1 & H2 & H3 & H4)].
  - exists a. cbn. repeat split; [|lia]. intros [|j] d; cbn; [intros [= ->]; lra|apply H].
  - exists c. cbn. repeat split; [exact H1| |].
    + intros [|j] d; cbn; [intros [= <-]; lra|apply H3].
    + intros [|j] d Hj; cbn; [intros [= <-]; lra|apply H4; lia].
Qed.

Lemma pulling_index_spec cs w : cs <> [] -> exists c, nth_error cs (pulling_index cs w) = Some c /\
  (forall j c', nth_error cs j = Some c' -> Qabs (w - c) <= Qabs (w - c')) /\
  (forall j c', (j < pulling_index cs w)%nat -> nth_error cs j = Some c' -> Qabs (w - c) < Qabs (w - c')).
Proof.
  intros N. assert (M : map (fun c => Qabs (w - c)) cs <> []) by (destruct cs; [congruence|discriminate]).
  destruct (argmin_spec _ M) as (d & H1 & H2 & H3). unfold pulling_index.
  rewrite nth_error_map in H1. destruct (nth_error cs (argmin (map (fun c => Qabs (w - c)) cs))) as [c|] eqn:E; [|discriminate]. cbn in H1. injection H1 as <-.
  exists c. split; [reflexivity|]. split.
  - intros j c' Hj. apply (H2 j). rewrite nth_error_map, Hj. reflexivity.
  - intros j c' Lj Hj. apply (H3 j _ Lj). rewrite nth_error_map, Hj. reflexivity.
Qed.
Lemma pulling_index_lt cs w : cs <> [] -> (pulling_index cs w < length cs)%nat.
Proof. intros N. destruct (pulling_index_spec cs w N) as (c & H & _). apply nth_error_Some. congruence. Qed.
Lemma gather_error cs i c : nth_error cs i = Some c -> gather cs i = c.
Proof. intros H. unfold gather. now apply nth_error_nth. Qed.
Lemma gather_In cs w : cs <> [] -> In (gather cs (pulling_index cs w)) cs.
Proof. intros N. destruct (pulling_index_spec cs w N) as (c & H & _). rewrite (gather_error _ _ _ H). eapply nth_error_In, H. Qed.

(** sign *)
Lemma qsign_pos x : 0 < x -> qsign x = 1.
Proof. intros H. unfold qsign. now rewrite (proj2 (qltb_iff 0 x) H). Qed.
Lemma qsign_zero x : x == 0 -> qsign x = 0.
Proof. intros H. unfold qsign. rewrite (proj2 (qltb_false 0 x)), (proj2 (qltb_false x 0)) by lra. reflexivity. Qed.
Lemma qsign_neg x : x < 0 -> qsign x = -1 # 1.
Proof. intros H. unfold qsign. rewrite (proj2 (qltb_false 0 x)) by lra. now rewrite (proj2 (qltb_iff x 0) H). Qed.
Lemma add_gradient_id c w : -1000000 < w -> add_gradient c w == c.
Proof. intros H. unfold add_gradient. rewrite qsign_pos by lra. ring. Qed.
Lemma add_gradient_cases c w :
  (-1000000 < w -> add_gradient c w == c) /\ (w == -1000000 -> add_gradient c w == 0) /\ (w < -1000000 -> add_gradient c w == - c).
Proof.
  split; [apply add_gradient_id|]. unfold add_gradient. split; intros H.
  - rewrite qsign_zero by lra. ring.
  - rewrite qsign_neg by lra. ring.
Qed.

(** pointwise reading of the tensor ops *)
Lemma combine_nth_lt {A B} (l : list A) (m : list B) i a b : length l = length m -> nth i (combine l m) (a, b) = (nth i l a, nth i m b).
Proof. apply combine_nth. Qed.
Lemma tmap2_shape {A B C} (f : A -> B -> C) x y : shape (tmap2 f x y) = shape x. Proof. reflexivity. Qed.
Lemma tmap2_wf {A B C} (f : A -> B -> C) x y : wf x -> wf y -> shape x = shape y -> wf (tmap2 f x y).
Proof. unfold wf, tmap2; cbn. intros Hx Hy E. rewrite map_length, combine_length, Hx, Hy, E, Nat.min_id. reflexivity. Qed.
Lemma tget_tmap2 {A B C} (f : A -> B -> C) (da : A) (db : B) (dc : C) x y idx : wf x -> wf y -> shape x = shape y -> valid (shape x) idx ->
  tget dc (tmap2 f x y) idx = f (tget da x idx) (tget db y idx).
Proof.
  intros Hx Hy E V. unfold tget. rewrite tmap2_shape. rewrite <- E. unfold tmap2. cbn [data]. pose proof (ravel_lt _ _ V) as L.
  assert (LL : length (data x) = length (data y)) by (unfold wf in *; congruence).
  set (i := ravel (shape x) idx) in *. unfold wf in Hx.
  rewrite (nth_indep _ dc (f da db)) by (rewrite map_length, combine_length; lia).
  change (f da db) with ((fun p : A * B => f (fst p) (snd p)) (da, db)).
  rewrite map_nth. rewrite combine_nth by exact LL. reflexivity.
Qed.

Lemma nearest_gather cs w : cs <> [] -> nearest_centroid cs w (gather cs (pulling_index cs w)).
Proof.
  intros N. destruct (pulling_index_spec cs w N) as (c & H & H2 & H3). exists (pulling_index cs w), c.
  rewrite (gather_error _ _ _ H). repeat split; auto.
Qed.
Lemma nearest_compat cs w v v' : v == v' -> nearest_centroid cs w v -> nearest_centroid cs w v'.
Proof. intros E (i & c & H1 & H2 & H3). exists i, c. split; [exact H1|]. split; [lra|exact H3]. Qed.

Definition cluster_flat (cs : list Q) (w : tensor Q) : tensor Q := get_clustered_weight cs (get_pulling_indices cs w) w.

Lemma cluster_flat_get cs w idx : wf w -> valid (shape w) idx ->
  tget 0 (cluster_flat cs w) idx = add_gradient (gather cs (pulling_index cs (tget 0 w idx))) (tget 0 w idx).
Proof.
  intros W V. unfold cluster_flat, get_clustered_weight.
  rewrite (tget_tmap2 _ 0 0) by (try assumption; try reflexivity; unfold wf, tmap, get_pulling_indices in *; cbn in *; rewrite ?map_length; assumption).
  f_equal. unfold get_pulling_indices. rewrite (tget_tmap (gather cs) 0%nat 0) by (try apply tmap_wf; assumption).
  rewrite (tget_tmap (pulling_index cs) 0 0%nat) by assumption. reflexivity.
Qed.
Lemma cluster_flat_wf cs w : wf w -> wf (cluster_flat cs w).
Proof. intros W. unfold cluster_flat, get_clustered_weight. apply tmap2_wf; [| assumption | reflexivity]. apply tmap_wf, tmap_wf, W. Qed.
Lemma cluster_flat_shape cs w : shape (cluster_flat cs w) = shape w. Proof. reflexivity. Qed.

Lemma cluster_flat_nearest cs w idx : cs <> [] -> wf w -> valid (shape w) idx -> -1000000 < tget 0 w idx ->
  nearest_centroid cs (tget 0 w idx) (tget 0 (cluster_flat cs w) idx).
Proof.
  intros N W V H. rewrite cluster_flat_get by assumption. eapply nearest_compat; [symmetry; apply add_gradient_id, H|]. now apply nearest_gather.
Qed.
Lemma In_data_idx {A} (d : A) t x : wf t -> In x (data t) -> exists idx, valid (shape t) idx /\ tget d t idx = x.
Proof.
  intros W H. destruct (In_split_nth _ _ d H) as (i & L & E). unfold wf in W. exists (unravel (shape t) i). split.
  - apply unravel_valid. lia.
  - unfold tget. rewrite ravel_unravel by lia. exact E.
Qed.
Lemma cluster_flat_distinct cs w : cs <> [] -> wf w -> (forall x, In x (data w) -> -1000000 < x) -> at_most_distinct (length cs) (data (cluster_flat cs w)).
Proof.
  intros N W H. exists cs. split; [lia|]. intros x Hx. destruct (In_data_idx 0 _ _ (cluster_flat_wf cs w W) Hx) as (idx & V & <-). rewrite cluster_flat_shape in V.
  rewrite cluster_flat_get by assumption. eexists. split; [apply (gather_In cs (tget 0 w idx) N)|]. apply add_gradient_id, H.
  unfold tget. apply nth_In. rewrite W. now apply ravel_lt.
Qed.
Lemma cluster_flat_idempotent cs w idx : cs <> [] -> wf w -> valid (shape w) idx -> (forall x, In x (data w) -> -1000000 < x) -> (forall c, In c cs -> -1000000 < c) ->
  tget 0 (cluster_flat cs (cluster_flat cs w)) idx == tget 0 (cluster_flat cs w) idx.
Proof.
  intros N W V Hw Hc. set (v := tget 0 (cluster_flat cs w) idx).
  assert (Lw : -1000000 < tget 0 w idx). { apply Hw. unfold tget. apply nth_In. rewrite W. now apply ravel_lt. }
  assert (E : v == gather cs (pulling_index cs (tget 0 w idx))). { unfold v. rewrite cluster_flat_get by assumption. now apply add_gradient_id. }
  pose proof (gather_In cs (tget 0 w idx) N) as I. pose proof (Hc _ I) as LI.
  rewrite (cluster_flat_get cs (cluster_flat cs w)) by (try apply cluster_flat_wf; assumption). fold v.
  rewrite add_gradient_id by lra. destruct (pulling_index_spec cs v N) as (c & H & H2 & _). rewrite (gather_error _ _ _ H).
  apply In_nth_error in I. destruct I as [j I]. specialize (H2 j _ I).
  assert (Z : Qabs (v - gather cs (pulling_index cs (tget 0 w idx))) == 0). { setoid_replace (v - gather cs (pulling_index cs (tget 0 w idx))) with 0 by lra. reflexivity. }
  rewrite Z in H2. pose proof (Qabs_nonneg (v - c)). assert (Z2 : Qabs (v - c) == 0) by lra. clear -Z2. revert Z2. apply Qabs_case; intros; lra.
Qed.
