(** The clustering wrapper (C24, C22 over histories). *)
From Verif Require Import Base M_Tensor M_Num M_Stages M_Cluster M_ClusterWrapper S_Cluster S_ClusterWrapper L_Num L_Tensor L_Stages L_Cluster L_Cluster2 L_Cluster3 L_Cluster4 L_Cluster5.
Open Scope Q_scope.

Definition compat (df : data_format) (cs : centroids) (t : tensor Q) : Prop :=
  match cs with
  | Flat l => l <> [] /\ wf t
  | Rows rows => exists a b h o, shape t = [a; b; h; o] /\ wf t /\ (0 < nchan df b o)%nat /\ length rows = nchan df b o /\ (forall r, In r rows -> r <> [])
  end.
Lemma compat_wf df cs t : compat df cs t -> wf t.
Proof. destruct cs; cbn; [tauto|]. intros (a & b & h & o & _ & W & _). exact W. Qed.
Lemma compat_row df cs t idx : compat df cs t -> valid (shape t) idx -> centroids_at df cs idx <> [].
Proof.
  destruct cs as [l|rows]; cbn; [tauto|]. intros (a & b & h & o & E & W & Hc & Lr & NE) V. rewrite E in V. apply NE. apply nth_In. rewrite Lr.
  destruct (valid4 _ _ _ _ _ V) as (i & j & k & m & -> & ? & ? & ? & ?). destruct df; cbn; assumption.
Qed.
Lemma pull_cluster df cs t : compat df cs t -> exists p r, pull df cs t = Ok p /\ clustered df cs p t = Ok r /\ shape r = shape t /\ wf r /\
  (forall idx, valid (shape t) idx -> tget 0 r idx = add_gradient (gather (centroids_at df cs idx) (pulling_index (centroids_at df cs idx) (tget 0 t idx))) (tget 0 t idx)) /\
  (forall idx, valid (shape t) idx -> tget 0%nat p idx = pulling_index (centroids_at df cs idx) (tget 0 t idx)).
Proof.
  destruct cs as [l|rows]; intros C.
  - destruct C as [N W]. do 2 eexists. split; [unfold pull; destruct l; [congruence|reflexivity]|]. split; [reflexivity|]. fold (cluster_flat l t).
    split; [reflexivity|]. split; [now apply cluster_flat_wf|]. split; intros idx V; [now apply cluster_flat_get|]. unfold get_pulling_indices. rewrite (tget_tmap _ 0 0%nat); auto.
  - destruct C as (a & b & h & o & E & W & Hc & Lr & _). destruct (cluster_pc df rows t a b h o E W Hc Lr) as (p & r & H1 & H2 & H3 & H4 & H5 & H6). exists p, r. repeat split; auto.
Qed.
Lemma zero_nearest cs w : In 0 cs \/ (exists z, In z cs /\ z == 0) -> w == 0 -> gather cs (pulling_index cs w) == 0.
Proof.
  intros H E. assert (Hz : exists z, In z cs /\ z == 0) by (destruct H as [H|H]; [exists 0; split; [exact H|reflexivity]|exact H]). clear H. destruct Hz as (z & Iz & Ez).
  assert (N : cs <> []) by (intros ->; destruct Iz). destruct (pulling_index_spec cs w N) as (c & Hc & M & _). rewrite (gather_error _ _ _ Hc).
  apply In_nth_error in Iz. destruct Iz as [j Iz]. specialize (M j z Iz).
  assert (A : Qabs (w - z) == 0). { setoid_replace (w - z) with 0 by lra. reflexivity. }
  rewrite A in M. pose proof (Qabs_nonneg (w - c)). assert (B : Qabs (w - c) == 0) by lra. revert B. apply Qabs_case; intros; lra.
Qed.
Lemma add_gradient_zero c w : c == 0 -> add_gradient c w == 0.
Proof. intros E. unfold add_gradient. rewrite E. ring. Qed.

(** Centroids as built with sparsity preservation. *)
Definition has_zero (df : data_format) (cs : centroids) (t : tensor Q) : Prop := forall idx, valid (shape t) idx -> exists z, In z (centroids_at df cs idx) /\ z == 0.
Lemma per_channel_rows f df w cs : per_channel f df w = Ok cs -> exists rows a b h o, cs = Rows rows /\ shape w = [a; b; h; o] /\ (0 < nchan df b o)%nat /\ length rows = nchan df b o /\
  (forall c, (c < nchan df b o)%nat -> f (data (the_slice 0 df w a b h o c)) = Ok (nth c rows [])) /\ (forall r s, In r rows -> In s rows -> length r = length s).
Proof.
  unfold per_channel. destruct (mapM _ _) as [rows|] eqn:M; [|discriminate]. cbn [bind]. intros H.
  destruct rows as [|r0 rr] eqn:Er; [discriminate|]. rewrite <- Er in *. assert (NR : rows <> []) by (rewrite Er; discriminate).
  assert (Hs : exists a b h o, shape w = [a; b; h; o]).
  { destruct (seq 0 (num_channels df w)) as [|c cs'] eqn:Es; [cbn in M; injection M as <-; congruence|]. cbn in M. unfold channel_slice at 1 in M.
    destruct (shape w) as [|a [|b [|h [|o [|? ?]]]]]; try (destruct df; discriminate M). now exists a, b, h, o. }
  destruct Hs as (a & b & h & o & E). rewrite (num_channels_eq df w a b h o E) in M.
  assert (F : Forall2 (fun c r => f (data (the_slice 0 df w a b h o c)) = Ok r) (seq 0 (nchan df b o)) rows).
  { revert M. generalize (seq 0 (nchan df b o)). clear - E. intros l. revert rows. induction l as [|c l IH]; intros rows M; cbn in M; [injection M as <-; constructor|].
    rewrite (channel_slice_eq 0 df w a b h o c E) in M. cbn [bind] in M. destruct (f _) as [r|] eqn:Ef; [|discriminate]. cbn [bind] in M.
    destruct (mapM _ l) as [rs|] eqn:Em; [|discriminate]. cbn in M. injection M as <-. constructor; [exact Ef|]. now apply IH. }
  assert (L : length rows = nchan df b o). { transitivity (length (seq 0 (nchan df b o))); [|apply seq_length]. clear - F. induction F; cbn; auto. }
  assert (Cs : cs = Rows rows /\ (forall r s, In r rows -> In s rows -> length r = length s)).
  { unfold stack_rows in H. rewrite Er in H. destruct (forallb _ _) eqn:Fb; [|discriminate]. rewrite <- Er in *. injection H as <-. split; [reflexivity|]. rewrite forallb_forall in Fb.
    intros r s Hr Hs. apply Fb, Nat.eqb_eq in Hr, Hs. congruence. }
  exists rows, a, b, h, o. destruct Cs as [-> Cs]. repeat split; auto.
  - rewrite <- L. destruct rows; [congruence|cbn; lia].
  - intros c Hc. assert (Hn : forall l rs, Forall2 (fun c r => f (data (the_slice 0 df w a b h o c)) = Ok r) l rs -> forall k, (k < length l)%nat -> f (data (the_slice 0 df w a b h o (nth k l 0%nat))) = Ok (nth k rs [])).
    { induction 1; intros k Hk; [cbn in Hk; lia|]. destruct k; [assumption|]. cbn in *. apply IHForall2. lia. }
    specialize (Hn _ _ F c). rewrite seq_length, seq_nth in Hn by exact Hc. apply Hn. exact Hc.
Qed.
Lemma slice_lt df a b h o idx : valid [a; b; h; o] idx -> (slice_of df idx < nchan df b o)%nat.
Proof. intros V. destruct (valid4 _ _ _ _ _ V) as (i & j & k & m & -> & ? & ? & ? & ?). destruct df; cbn; assumption. Qed.

Lemma sparse_centroids init n pc df w cs : wf w -> get_cluster_centroids init n pc true df w = Ok cs -> compat df cs w /\ has_zero df cs w.
Proof.
  intros W. unfold get_cluster_centroids. destruct pc.
  - intros H. apply per_channel_rows in H. destruct H as (rows & a & b & h & o & -> & E & Hc & Lr & Hf & _). split.
    + exists a, b, h, o. repeat split; auto. intros r Hr. destruct (In_split_nth _ _ [] Hr) as (c & Lc & <-). rewrite Lr in Lc. specialize (Hf c Lc). apply zero_init_has_zero in Hf. intros Z. rewrite Z in Hf. destruct Hf.
    + intros idx V. cbn [centroids_at]. rewrite E in V. specialize (Hf _ (slice_lt df a b h o idx V)). apply zero_init_has_zero in Hf. exists 0. split; [exact Hf|reflexivity].
  - destruct (zero_centroid_initialization init n (data w)) as [l|] eqn:E; [|discriminate]. cbn. intros [= <-]. apply zero_init_has_zero in E. split.
    + split; [intros ->; destruct E|exact W].
    + intros idx _. exists 0. split; [exact E|reflexivity].
Qed.
(** Invariant of a sparsity-preserving variable: its mask vanishes wherever the weight was zero at build time. *)
Definition zero_fits (cs : centroids) (zi : list nat) : Prop :=
  match cs with
  | Flat l => (nth 0 zi 0 < length l)%nat
  | Rows rows => length zi = length rows /\ forall c, (c < length rows)%nat -> (nth c zi 0 < length (nth c rows []))%nat
  end.
Lemma same_form_refl cs : same_form cs cs. Proof. destruct cs; reflexivity. Qed.
Lemma same_form_trans a b c : same_form a b -> same_form b c -> same_form a c.
Proof. destruct a, b, c; cbn; try tauto; congruence. Qed.
Lemma same_form_lengths r s c : map (@length Q) r = map (@length Q) s -> length (nth c r []) = length (nth c s []).
Proof. intros E. rewrite <- (map_nth (@length Q) r []), <- (map_nth (@length Q) s []), E. reflexivity. Qed.
Lemma same_form_compat df a b t t' : same_form a b -> compat df a t -> wf t' -> shape t' = shape t -> compat df b t'.
Proof.
  destruct a as [l|r], b as [m|s]; cbn; try tauto.
  - intros E [N W] W' _. split; [destruct l, m; try discriminate; congruence|exact W'].
  - intros E (a & b & h & o & Sh & W & Hc & Lr & NE) W' Sh'. exists a, b, h, o. rewrite Sh'. repeat split; auto.
    + rewrite <- Lr. rewrite <- (map_length (@length Q) s), <- (map_length (@length Q) r). congruence.
    + intros x Hx. destruct (In_split_nth _ _ [] Hx) as (c & Lc & <-). pose proof (same_form_lengths _ _ c E) as L.
      assert (Lc' : (c < length r)%nat). { rewrite <- (map_length (@length Q) r), E, map_length. exact Lc. }
      specialize (NE (nth c r []) (nth_In _ _ Lc')). destruct (nth c r []); [congruence|]. destruct (nth c s []); [discriminate|congruence].
Qed.
Lemma same_form_zero a b zi : same_form a b -> zero_fits a zi -> zero_fits b zi.
Proof.
  destruct a as [l|r], b as [m|s]; cbn; try tauto; [intros -> ; auto|]. intros E [L H].
  assert (Ls : length r = length s) by (rewrite <- (map_length (@length Q) r), E, map_length; reflexivity). split; [congruence|]. intros c Hc. rewrite <- (same_form_lengths _ _ c E). apply H. lia.
Qed.
Lemma argmin_lt l : l <> [] -> (argmin l < length l)%nat.
Proof. intros N. destruct (argmin_spec l N) as (c & H & _). apply nth_error_Some. congruence. Qed.
Lemma zero_index_fits df cs t : compat df cs t -> zero_fits cs (zero_index cs).
Proof.
  destruct cs as [l|rows]; cbn [compat zero_index zero_fits].
  - intros [N _]. cbn [nth]. rewrite <- (map_length Qabs l). apply argmin_lt. destruct l; [congruence|discriminate].
  - intros (a & b & h & o & _ & _ & _ & _ & NE). split; [apply map_length|]. intros c Hc.
    rewrite (nth_indep _ 0%nat (argmin (map Qabs []))) by (rewrite map_length; exact Hc). rewrite (map_nth (fun r => argmin (map Qabs r)) rows []).
    specialize (NE (nth c rows []) (nth_In _ _ Hc)). rewrite <- (map_length Qabs (nth c rows [])). apply argmin_lt. destruct (nth c rows []); [congruence|discriminate].
Qed.
Lemma force_zero_length l z : length (force_zero l z) = length l. Proof. apply map_length. Qed.
Lemma force_zero_form cs zi : zero_fits cs zi -> same_form cs (force_zero_all cs zi).
Proof.
  destruct cs as [l|rows]; cbn; [intros _; symmetry; apply force_zero_length|]. intros [L _]. revert zi L. induction rows as [|r rows IH]; intros [|z zi] L; cbn in *; try discriminate; [reflexivity|].
  f_equal; [symmetry; apply force_zero_length|]. apply IH. lia.
Qed.
Lemma force_zero_has l z : (z < length l)%nat -> exists c, In c (force_zero l z) /\ c == 0.
Proof.
  intros H. exists (nth z l 0 * b2q (negb (Qeq_bool (nth z l 0) (nth z l 0)))). split.
  - unfold force_zero. apply in_map_iff. exists (nth z l 0). split; [reflexivity|now apply nth_In].
  - rewrite (proj2 (Qeq_bool_iff _ _)) by reflexivity. cbn. ring.
Qed.
Lemma force_zero_has_zero df cs zi t : compat df cs t -> zero_fits cs zi -> has_zero df (force_zero_all cs zi) t.
Proof.
  destruct cs as [l|rows]; cbn [compat zero_fits force_zero_all].
  - intros _ H idx _. cbn [centroids_at]. now apply force_zero_has.
  - intros (a & b & h & o & E & _ & _ & Lr & _) [L H] idx V. cbn [centroids_at]. rewrite E in V. pose proof (slice_lt df a b h o idx V) as Hs. rewrite <- Lr in Hs.
    set (c := slice_of df idx) in *. rewrite (nth_indep _ [] (force_zero [] 0)) by (rewrite map_length, combine_length; lia).
    rewrite (map_nth (fun p => force_zero (fst p) (snd p)) (combine rows zi) ([], 0%nat)). rewrite combine_nth by auto. cbn [fst snd]. apply force_zero_has. now apply H.
Qed.

Definition inv (df : data_format) (t0 : tensor Q) (x : cvar) : Prop :=
  exists m, cv_mask x = Some m /\ wf m /\ shape m = shape t0 /\ (forall idx, valid (shape t0) idx -> tget 0 t0 idx == 0 -> tget 0 m idx == 0) /\
    (forall idx, valid (shape t0) idx -> tget 0 m idx = 0 \/ tget 0 m idx = 1) /\
    shape (cv_orig x) = shape t0 /\ compat df (cv_cents x) (cv_orig x) /\ zero_fits (cv_cents x) (cv_zero x).
(** The same for a variable without sparsity preservation. *)
Definition inv0 (df : data_format) (t0 : tensor Q) (x : cvar) : Prop :=
  cv_mask x = None /\ shape (cv_orig x) = shape t0 /\ compat df (cv_cents x) (cv_orig x).

Lemma mask_wf t : wf t -> wf (not_zero_mask t). Proof. apply tmap_wf. Qed.
Lemma mask_get t idx : wf t -> valid (shape t) idx -> tget 0 (not_zero_mask t) idx = b2q (negb (Qeq_bool (tget 0 t idx) 0)).
Proof. intros W V. unfold not_zero_mask. now rewrite (tget_tmap _ 0 0) by assumption. Qed.

Lemma find_var_spec v ws : forall i pos t, find_var v i ws = Ok (pos, t) -> (i <= pos)%nat /\ nth_error ws (pos - i) = Some (v, t).
Proof.
  induction ws as [|(u, t0) ws IH]; intros i pos t H; cbn in H; [discriminate|]. destruct (Nat.eqb_spec u v) as [->|Ne].
  - injection H as <- <-. split; [lia|]. now rewrite Nat.sub_diag.
  - apply IH in H. destruct H as [L H]. split; [lia|]. replace (pos - i)%nat with (S (pos - S i)) by lia. exact H.
Qed.
Lemma build_var_inv cfg l v x : (forall u t, In (u, t) (l_weights l) -> wf t) -> preserve_sparsity cfg = true -> build_var cfg l v = Ok x ->
  cv_name x = v /\ nth_error (l_weights l) (cv_pos x) = Some (v, cv_orig x) /\ inv (data_format_of cfg) (cv_orig x) x.
Proof.
  intros W P. unfold build_var. destruct (find_var v 0 (l_weights l)) as [[pos w]|] eqn:F; [|discriminate]. cbn [bind]. apply find_var_spec in F. destruct F as [_ F]. rewrite Nat.sub_0_r in F.
  pose proof (W _ _ (nth_error_In _ _ F)) as Ww. rewrite P. destruct (get_cluster_centroids _ _ _ _ _ _) as [cs|] eqn:C; [|discriminate]. cbn [bind].
  destruct (sparse_centroids _ _ _ _ _ _ Ww C) as [Cc Hz]. destruct (pull_cluster _ _ _ Cc) as (p & r & -> & H2 & Sr & Wr & Gr & Gp). cbn [bind]. rewrite H2. cbn [bind]. intros [= <-].
  cbn [cv_name cv_pos cv_orig]. split; [reflexivity|]. split; [exact F|].
  exists (not_zero_mask r). cbn [cv_mask cv_orig cv_cents cv_zero]. repeat split; auto.
  - now apply mask_wf.
  - intros idx V Z. rewrite mask_get by (try assumption; now rewrite Sr). rewrite Gr by exact V.
    rewrite (proj2 (Qeq_bool_iff _ _)); [reflexivity|]. apply add_gradient_zero, zero_nearest; [right; now apply Hz|exact Z].
  - intros idx V. rewrite mask_get by (try assumption; now rewrite Sr). destruct (Qeq_bool _ _); cbn; auto.
  - now apply (zero_index_fits (data_format_of cfg) cs w).
Qed.
(** One forward pass of a sparsity-preserving variable. *)
Lemma update_var_sparse cfg t0 x : inv (data_format_of cfg) t0 x -> exists x' t, update_var cfg x = Ok x' /\ inv (data_format_of cfg) t0 x' /\ cv_name x' = cv_name x /\ cv_pos x' = cv_pos x /\
  cv_orig x' = cv_orig x /\ same_form (cv_cents x) (cv_cents x') /\ cv_attr x' = Some t /\ shape t = shape t0 /\ wf t /\
  (forall idx, valid (shape t0) idx -> tget 0 t0 idx == 0 -> tget 0 t idx == 0) /\
  (forall idx, valid (shape t0) idx -> exists o, (o = tget 0 (cv_orig x) idx * 0 \/ o = tget 0 (cv_orig x) idx * 1) /\ centroids_at (data_format_of cfg) (cv_cents x') idx <> [] /\
     tget 0 t idx = add_gradient (gather (centroids_at (data_format_of cfg) (cv_cents x') idx) (pulling_index (centroids_at (data_format_of cfg) (cv_cents x') idx) o)) o /\
     tget 0%nat (cv_idx x') idx = pulling_index (centroids_at (data_format_of cfg) (cv_cents x') idx) o).
Proof.
  intros (m & Em & Wm & Sm & Hm & Hb & So & Cc & Zf). unfold update_var. rewrite Em. set (cs := force_zero_all (cv_cents x) (cv_zero x)). set (og := tmap2 Qmult (cv_orig x) m).
  pose proof (compat_wf _ _ _ Cc) as Wo. assert (Wog : wf og) by (apply tmap2_wf; auto; congruence). assert (Sog : shape og = shape (cv_orig x)) by reflexivity.
  pose proof (force_zero_form _ _ Zf) as Sf. fold cs in Sf. pose proof (same_form_compat _ _ _ _ og Sf Cc Wog Sog) as Cog.
  destruct (pull_cluster _ _ _ Cog) as (p & r & -> & H2 & Sr & Wr & Gr & Gp). cbn [bind]. rewrite H2. cbn [bind].
  assert (Go : forall idx, valid (shape t0) idx -> tget 0 og idx = tget 0 (cv_orig x) idx * tget 0 m idx). { intros idx V. unfold og. rewrite (tget_tmap2 _ 0 0); [reflexivity|exact Wo|exact Wm|congruence|congruence]. }
  do 2 eexists. split; [reflexivity|]. cbn [cv_name cv_pos cv_orig cv_attr cv_cents]. repeat split; auto.
  - exists m. cbn [cv_mask cv_orig cv_cents cv_zero]. repeat split; auto.
    + apply (same_form_compat _ (cv_cents x) _ (cv_orig x)); auto.
    + now apply (same_form_zero (cv_cents x)).
  - congruence.
  - intros idx V Z. assert (V' : valid (shape og) idx) by congruence. rewrite Gr by exact V'. apply add_gradient_zero, zero_nearest.
    + right. apply (force_zero_has_zero _ _ _ og); [|exact Zf|exact V']. apply (same_form_compat _ (cv_cents x) _ (cv_orig x)); auto. apply same_form_refl.
    + rewrite Go by exact V. rewrite (Hm idx V Z). ring.
  - intros idx V. assert (V' : valid (shape og) idx) by congruence. exists (tget 0 og idx). split.
    + rewrite Go by exact V. destruct (Hb idx V) as [-> | ->]; auto.
    + split; [now apply (compat_row _ _ og)|]. split; [now apply Gr|now apply Gp].
Qed.
