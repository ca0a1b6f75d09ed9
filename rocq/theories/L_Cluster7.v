(** Histories of a clustering wrapper. *)
From Verif Require Import Base M_Tensor M_Num M_Stages M_Cluster M_ClusterWrapper S_Cluster S_ClusterWrapper L_Num L_Tensor L_Stages L_Cluster L_Cluster2 L_Cluster3 L_Cluster4 L_Cluster5 L_Cluster6.
Open Scope Q_scope.

Definition bounded (n : nat) (cs : centroids) : Prop := match cs with Flat l => (length l <= n)%nat | Rows rows => forall r, In r rows -> (length r <= n)%nat end.
Lemma bounded_form n a b : same_form a b -> bounded n a -> bounded n b.
Proof.
  destruct a as [l|r], b as [m|s]; cbn; try tauto; [intros ->; auto|]. intros E H x Hx. destruct (In_split_nth _ _ [] Hx) as (c & Lc & <-). rewrite <- (same_form_lengths _ _ c E). apply H.
  apply nth_In. rewrite <- (map_length (@length Q) r), E, map_length. exact Lc.
Qed.
Lemma bounded_at n df cs idx : bounded n cs -> (length (centroids_at df cs idx) <= n)%nat.
Proof.
  destruct cs as [l|rows]; cbn; [auto|]. intros H. destruct (Nat.lt_ge_cases (slice_of df idx) (length rows)) as [L|L]; [apply H, nth_In, L|]. rewrite nth_overflow by exact L. cbn. lia.
Qed.

Definition J (cfg : ccfg) (t0 : tensor Q) (x : cvar) : Prop := if preserve_sparsity cfg then inv (data_format_of cfg) t0 x else inv0 (data_format_of cfg) t0 x.
Definition built (cfg : ccfg) (l : clayer) (v : nat) (x : cvar) : Prop :=
  cv_name x = v /\ nth_error (l_weights l) (cv_pos x) = Some (v, cv_orig x) /\ J cfg (cv_orig x) x /\ bounded (Z.to_nat (number_of_clusters cfg)) (cv_cents x).

Lemma zero_init_bounded init n ws l : sound_initialiser init -> (3 <= n)%Z -> zero_centroid_initialization init n ws = Ok l -> (length l <= Z.to_nat n)%nat.
Proof.
  intros Si Hn E. destruct (Nat.eq_dec (count_negative ws + count_positive ws) 0) as [Z0|NZ].
  - assert (H : forall x, In x ws -> x == 0). { intros x Hx. destruct (Qeq_dec x 0) as [|Ne]; [assumption|exfalso]. assert (X : exists x, In x ws /\ ~ x == 0) by (exists x; auto). apply count_nonzero in X. lia. }
    rewrite (zero_init_all_zero init n ws H) in E. injection E as <-. cbn. lia.
  - assert (X : (0 < count_negative ws + count_positive ws)%nat) by lia. apply count_nonzero in X. destruct (zero_init_spec init n ws l Si Hn X E) as (nc & pc & _ & L & _). lia.
Qed.
Lemma plain_centroids init n pc df w cs : wf w -> sound_initialiser init -> (2 <= n)%Z -> get_cluster_centroids init n pc false df w = Ok cs -> compat df cs w /\ bounded (Z.to_nat n) cs.
Proof.
  intros W Si Hn. unfold get_cluster_centroids. destruct pc.
  - intros H. apply per_channel_rows in H. destruct H as (rows & a & b & h & o & -> & E & Hc & Lr & Hf & _).
    assert (G : forall r, In r rows -> length r = Z.to_nat n). { intros r Hr. destruct (In_split_nth _ _ [] Hr) as (c & Lc & <-). rewrite Lr in Lc. specialize (Hf c Lc). apply cfi_spec in Hf; [tauto|exact Si|discriminate]. }
    split.
    + exists a, b, h, o. repeat split; auto. intros r Hr Z0. specialize (G r Hr). rewrite Z0 in G. cbn in G. lia.
    + intros r Hr. rewrite (G r Hr). lia.
  - destruct (centroids_for_interval _ _ _ _) as [l|] eqn:E; [|discriminate]. cbn. intros [= <-]. apply cfi_spec in E; [|exact Si|discriminate]. destruct E as [L _]. split.
    + split; [intros ->; cbn in L; lia|exact W].
    + cbn. lia.
Qed.
Lemma build_var_built cfg l v x : accepted cfg -> (forall u t, In (u, t) (l_weights l) -> wf t) -> build_var cfg l v = Ok x -> built cfg l v x.
Proof.
  intros [Si Hn] W H. unfold built, J. destruct (preserve_sparsity cfg) eqn:P.
  - destruct (build_var_inv cfg l v x W P H) as (A & B & C). repeat split; auto. unfold build_var in H. rewrite P in H.
    destruct (find_var v 0 (l_weights l)) as [[pos w]|] eqn:F; [|discriminate]. cbn [bind] in H. destruct (get_cluster_centroids _ _ _ _ _ _) as [cs|] eqn:C0; [|discriminate]. cbn [bind] in H.
    destruct (pull _ _ _); [|discriminate]. cbn [bind] in H. destruct (clustered _ _ _ _); [|discriminate]. cbn [bind] in H. injection H as <-. cbn [cv_cents].
    unfold get_cluster_centroids in C0. destruct (cluster_per_channel cfg).
    + apply per_channel_rows in C0. destruct C0 as (rows & a1 & b & h & o & -> & E & Hc & Lr & Hf & _). intros r Hr. destruct (In_split_nth _ _ [] Hr) as (c & Lc & <-). rewrite Lr in Lc. specialize (Hf c Lc).
      now apply zero_init_bounded in Hf.
    + destruct (zero_centroid_initialization _ _ _) as [l0|] eqn:E0; [|discriminate]. cbn in C0. injection C0 as <-. cbn. now apply zero_init_bounded in E0.
  - unfold build_var in H. rewrite P in H. destruct (find_var v 0 (l_weights l)) as [[pos w]|] eqn:F; [|discriminate]. cbn [bind] in H. apply find_var_spec in F. destruct F as [_ F]. rewrite Nat.sub_0_r in F.
    pose proof (W _ _ (nth_error_In _ _ F)) as Ww. destruct (get_cluster_centroids _ _ _ _ _ _) as [cs|] eqn:C0; [|discriminate]. cbn [bind] in H. destruct (pull _ _ _) eqn:Ep; [|discriminate]. cbn [bind] in H. injection H as <-.
    cbn [cv_name cv_pos cv_orig cv_cents]. apply plain_centroids in C0; auto. destruct C0 as [C1 C2]. repeat split; auto.
Qed.

Definition vrel (cfg : ccfg) (x0 x : cvar) : Prop := cv_name x = cv_name x0 /\ cv_pos x = cv_pos x0 /\ J cfg (cv_orig x0) x /\ same_form (cv_cents x0) (cv_cents x).
Definition wrel (w0 w : cwrapper) : Prop := cw_cfg w = cw_cfg w0 /\ Forall2 (vrel (cw_cfg w0)) (cw_vars w0) (cw_vars w) /\ map fst (cw_rest w) = map fst (cw_rest w0).

Lemma Forall2_len {A B} (R : A -> B -> Prop) l m : Forall2 R l m -> length l = length m. Proof. induction 1; cbn; auto. Qed.
(** One forward pass, whatever the flag. *)
Definition used (cfg : ccfg) (t0 : tensor Q) (x x' : cvar) : Prop := exists t, cv_attr x' = Some t /\ shape t = shape t0 /\ wf t /\
  (preserve_sparsity cfg = true -> forall idx, valid (shape t0) idx -> tget 0 t0 idx == 0 -> tget 0 t idx == 0) /\
  (forall idx, valid (shape t0) idx -> exists o, (o = tget 0 (cv_orig x') idx \/ (preserve_sparsity cfg = true /\ (o = tget 0 (cv_orig x') idx * 0 \/ o = tget 0 (cv_orig x') idx * 1))) /\
     centroids_at (data_format_of cfg) (cv_cents x') idx <> [] /\
     tget 0 t idx = add_gradient (gather (centroids_at (data_format_of cfg) (cv_cents x') idx) (pulling_index (centroids_at (data_format_of cfg) (cv_cents x') idx) o)) o /\
     tget 0%nat (cv_idx x') idx = pulling_index (centroids_at (data_format_of cfg) (cv_cents x') idx) o).
Lemma update_var_any cfg x0 x : vrel cfg x0 x -> exists x', update_var cfg x = Ok x' /\ vrel cfg x0 x' /\ used cfg (cv_orig x0) x x' /\ cv_orig x' = cv_orig x.
Proof.
  intros (A & B & C & D). unfold vrel, J, used in *. destruct (preserve_sparsity cfg) eqn:P.
  - destruct (update_var_sparse cfg _ _ C) as (x' & t & H1 & H2 & H3 & H4 & H5 & H6 & H7 & H8 & H9 & H10 & H11). exists x'. split; [exact H1|]. split; [split; [congruence|split; [congruence|split; [exact H2|eapply same_form_trans; eassumption]]]|].
    split; [|exact H5]. exists t. repeat split; auto. intros idx V. destruct (H11 idx V) as (o & Ho & Hc & Hg). exists o. rewrite H5. auto.
  - destruct C as (C1 & C2 & C3). unfold update_var. rewrite C1. destruct (pull_cluster _ _ _ C3) as (p & r & -> & H2 & Sr & Wr & Gr & Gp). cbn [bind]. rewrite H2. cbn [bind]. eexists. split; [reflexivity|].
    cbn [cv_name cv_pos cv_mask cv_orig cv_cents cv_attr cv_idx]. split; [repeat split; auto|]. split; [|reflexivity]. exists r. repeat split; auto; [congruence|discriminate|].
    intros idx V. exists (tget 0 (cv_orig x) idx). split; [now left|]. split; [apply (compat_row _ _ (cv_orig x)); [exact C3|congruence]|]. split; [apply Gr|apply Gp]; congruence.
Qed.
Lemma update_vars_any cfg l0 l : Forall2 (vrel cfg) l0 l -> exists l', mapM (update_var cfg) l = Ok l' /\ Forall2 (vrel cfg) l0 l' /\
  (forall i x0 x', nth_error l0 i = Some x0 -> nth_error l' i = Some x' -> exists x, nth_error l i = Some x /\ used cfg (cv_orig x0) x x' /\ cv_orig x' = cv_orig x).
Proof.
  induction 1 as [|x0 x l0 l Hx Hl (l' & H1 & H2 & H3)]; cbn [mapM].
  - exists []. repeat split; [constructor|]. intros [|i] x0 x' H; discriminate.
  - destruct (update_var_any cfg x0 x Hx) as (x' & -> & V & U & O). cbn [bind]. rewrite H1. cbn [bind]. exists (x' :: l'). split; [reflexivity|]. split; [now constructor|].
    intros [|i] y0 y' Hy Hy'; cbn in *; [injection Hy as <-; injection Hy' as <-; exists x; auto|eauto].
Qed.
Lemma forward_ok w0 w : wrel w0 w -> exists w', step w Forward = Ok w' /\ wrel w0 w' /\
  (forall i x0 x', nth_error (cw_vars w0) i = Some x0 -> nth_error (cw_vars w') i = Some x' -> exists x, nth_error (cw_vars w) i = Some x /\ used (cw_cfg w0) (cv_orig x0) x x' /\ cv_orig x' = cv_orig x) /\ cw_rest w' = cw_rest w.
Proof.
  intros (A & B & C). cbn [step]. unfold update. rewrite A. destruct (update_vars_any _ _ _ B) as (l' & -> & H2 & H3). cbn [bind]. eexists. split; [reflexivity|]. repeat split; auto.
Qed.
Lemma set_vrel cfg x0 x t cs : vrel cfg x0 x -> J cfg (cv_orig x0) x0 -> fits_var x0 t cs -> vrel cfg x0 (set_var (x, (t, cs))).
Proof.
  intros (A & B & C & D) J0 (W & Sh & F). unfold vrel, J, set_var in *. cbn [cv_name cv_pos cv_cents]. destruct (preserve_sparsity cfg).
  - repeat split; auto. destruct C as (m & C1 & C2 & C3 & C4 & C5 & C6 & C7 & C8). destruct J0 as (m0 & _ & _ & _ & _ & _ & _ & K7 & K8). exists m. cbn [cv_mask cv_orig cv_cents cv_zero]. repeat split; auto.
    + now apply (same_form_compat _ (cv_cents x0) _ (cv_orig x0)).
    + apply (same_form_zero (cv_cents x)); [|exact C8]. apply (same_form_trans _ (cv_cents x0)); [|exact F].
      destruct (cv_cents x0), (cv_cents x); cbn in *; try tauto; congruence.
  - repeat split; auto; [apply C|]. destruct J0 as (_ & _ & K). now apply (same_form_compat _ (cv_cents x0) _ (cv_orig x0)).
Qed.
Lemma step_ok w0 w e : Forall (fun x0 => J (cw_cfg w0) (cv_orig x0) x0) (cw_vars w0) -> wrel w0 w -> fits w0 e -> exists w', step w e = Ok w' /\ wrel w0 w'.
Proof.
  intros J0 R F. destruct e as [|origs cents rest].
  - destruct (forward_ok w0 w R) as (w' & H & R' & _). eauto.
  - destruct R as (A & B & C). destruct F as (L1 & L2 & F & Rr). eexists. split; [reflexivity|]. split; [exact A|]. split; [|exact Rr]. cbn [cw_vars].
    revert origs cents L1 L2 F. revert J0 B. generalize (cw_vars w0) (cw_vars w). intros l0 l J0 B. induction B as [|x0 x l0 l Hx Hl IH]; intros [|t origs] [|cs cents] L1 L2 F; try discriminate; [constructor|].
    inversion J0; subst. cbn. constructor.
    + apply set_vrel; auto. now apply (F 0%nat).
    + apply IH; auto. intros i x1 t1 c1 E1 E2 E3. now apply (F (S i)).
Qed.
Lemma run_ok w0 evs : Forall (fun x0 => J (cw_cfg w0) (cv_orig x0) x0) (cw_vars w0) -> Forall (fits w0) evs -> forall w, wrel w0 w -> exists w', run w evs = Ok w' /\ wrel w0 w'.
Proof.
  intros J0. induction 1 as [|e evs He Hevs IH]; intros w R; cbn [run]; [eauto|]. destruct (step_ok w0 w e J0 R He) as (w' & -> & R'). cbn [bind]. now apply IH.
Qed.
Lemma build_built cfg l w0 : accepted cfg -> proper_layer l -> build cfg l = Ok w0 -> cw_cfg w0 = cfg /\ Forall2 (built cfg l) (l_clusterable l) (cw_vars w0) /\
  cw_rest w0 = filter (fun p => negb (existsb (Nat.eqb (fst p)) (l_clusterable l))) (l_weights l).
Proof.
  intros Ac (_ & _ & W & _) H. unfold build in H. destruct (mapM (build_var cfg l) (l_clusterable l)) as [vs|] eqn:M; [|discriminate]. cbn [bind] in H. injection H as <-. cbn [cw_cfg cw_vars cw_rest].
  split; [reflexivity|]. split; [|reflexivity]. revert vs M. generalize (l_clusterable l). induction l0 as [|v vl IH]; intros vs M; cbn in M; [injection M as <-; constructor|].
  destruct (build_var cfg l v) as [x|] eqn:B; [|discriminate]. cbn [bind] in M. destruct (mapM _ vl) as [xs|]; [|discriminate]. cbn [bind] in M. injection M as <-. constructor; [|now apply IH].
  now apply build_var_built.
Qed.
Lemma built_self cfg l vs l0 : Forall2 (built cfg l) vs l0 -> Forall2 (vrel cfg) l0 l0 /\ Forall (fun x0 => J cfg (cv_orig x0) x0) l0.
Proof.
  induction 1 as [|v x vs l0 (A & B & C & D) H [IH1 IH2]]; [split; constructor|]. split; constructor; auto. repeat split; auto. apply same_form_refl.
Qed.
Lemma Forall2_nth_r {A B} (R : A -> B -> Prop) l m : Forall2 R l m -> forall i a, nth_error l i = Some a -> exists b, nth_error m i = Some b /\ R a b.
Proof. induction 1; intros [|i] a E; try discriminate; cbn in *; [injection E as <-; eauto|eauto]. Qed.

(** Everything about an arbitrary history followed by a forward pass. *)
Lemma history_full cfg l w0 evs : accepted cfg -> proper_layer l -> build cfg l = Ok w0 -> Forall (fits w0) evs ->
  exists w1 w2, run w0 evs = Ok w1 /\ step w1 Forward = Ok w2 /\ cw_rest w2 = cw_rest w1 /\ map fst (cw_rest w1) = map fst (cw_rest w0) /\
    length (cw_vars w2) = length (l_clusterable l) /\
    forall i v, nth_error (l_clusterable l) i = Some v -> exists t0 x1 x2, In (v, t0) (l_weights l) /\ nth_error (cw_vars w1) i = Some x1 /\ nth_error (cw_vars w2) i = Some x2 /\
      cv_name x2 = v /\ nth_error (l_weights l) (cv_pos x2) = Some (v, t0) /\ cv_orig x2 = cv_orig x1 /\ shape (cv_orig x1) = shape t0 /\
      bounded (Z.to_nat (number_of_clusters cfg)) (cv_cents x2) /\ used cfg t0 x1 x2.
Proof.
  intros Ac Pl H F. destruct (build_built cfg l w0 Ac Pl H) as (E1 & E2 & E3). subst cfg. destruct (built_self _ _ _ _ E2) as [S1 S2].
  assert (R0 : wrel w0 w0) by (split; [reflexivity|split; [exact S1|reflexivity]]). destruct (run_ok w0 evs S2 F w0 R0) as (w1 & H1 & R1). destruct (forward_ok w0 w1 R1) as (w2 & H2 & R2 & U & Er).
  exists w1, w2. split; [exact H1|]. split; [exact H2|]. split; [exact Er|]. split; [apply R1|]. split; [rewrite <- (Forall2_len _ _ _ (proj1 (proj2 R2))), (Forall2_len _ _ _ E2); reflexivity|].
  intros i v Hv. destruct (Forall2_nth_r _ _ _ E2 i v Hv) as (x0 & Hx0 & (B1 & B2 & B3 & B4)). destruct (Forall2_nth_r _ _ _ (proj1 (proj2 R2)) i x0 Hx0) as (x2 & Hx2 & (V1 & V2 & V3 & V4)).
  destruct (U i x0 x2 Hx0 Hx2) as (x1 & Hx1 & Us & Uo). exists (cv_orig x0), x1, x2. rewrite V1, V2. repeat split; auto.
  - eapply nth_error_In, B2.
  - destruct (Forall2_nth_r _ _ _ (proj1 (proj2 R1)) i x0 Hx0) as (x1' & Hx1' & (_ & _ & V3' & _)). rewrite Hx1 in Hx1'. injection Hx1' as <-. unfold J in V3'. destruct (preserve_sparsity (cw_cfg w0)); [destruct V3' as (m & K); tauto|apply V3'].
  - now apply (bounded_form _ (cv_cents x0)).
Qed.
