(** Cluster-preserving quantizer: absence of failures, first pass, shared flags. *)
From Coq Require Import String.
From Verif Require Import Base M_Num L_Num M_Tensor L_Tensor M_Stages L_Stages M_Cluster M_ClusterWrapper S_Cluster S_ClusterWrapper L_Cluster L_Cluster5 L_Cluster6 L_Cluster7 L_Cluster8 L_Cluster9 M_Quant S_Quant L_Quant L_Quantizers L_Quantizers3 L_Quantizers4 M_Preserve S_Preserve L_Preserve L_Preserve2 L_Preserve3 L_Preserve4.
Open Scope Q_scope.

Lemma pull_shape df cs t p : compat df cs t -> pull df cs t = Ok p -> shape p = shape t /\ wf p.
Proof.
  destruct cs as [l|rows]; cbn [compat pull].
  - intros [N W] H. destruct l; [congruence|]. injection H as <-. split; [reflexivity|]. now apply tmap_wf.
  - intros (a & b & h & o & E & W & Hc & Lr & _) H. destruct (pulling_pc df rows t a b h o E W Hc Lr) as (q & Hq & Sq & Wq & _). rewrite Hq in H. injection H as <-. auto.
Qed.
Lemma get_centroids_ok k df w : kernel k w -> regular k df -> exists cs num, get_centroids k df w = Ok (cs, num, shape w).
Proof.
  intros (W & N & R) Rg. destruct k; cbn [get_centroids]; [eauto|]. destruct Rg as [|Rg]; [discriminate|]. subst df. destruct (shape w) as [|a [|b [|h [|o [|]]]]] eqn:E; try discriminate.
  rewrite (num_channels_eq ChannelsLast w a b h o E). cbn [nchan]. rewrite Nat.ltb_irrefl. destruct (Nat.eqb_spec o 0) as [Z|Z].
  { exfalso. apply N. destruct (data w) eqn:D; [reflexivity|]. unfold wf in W. rewrite D, E, Z in W. cbn in W. rewrite !Nat.mul_0_r in W. discriminate. }
  rewrite (mapM_slices w a b h o o E). cbn [bind]. destruct (1 <? _)%nat; eauto.
Qed.
Lemma cp_build_ok k df flag w : kernel k w -> regular k df -> exists v, cp_build k df flag w = Ok ((flag && has_zero_entry w)%bool, v) /\ fits (base_quantizer k) (shape w) (cp_range v) /\
  forall c, cp_cluster v = Some c -> shape (cc_idx c) = shape w.
Proof.
  intros K Rg. destruct (get_centroids_ok k df w K Rg) as (cs & num & G). destruct (build_fits _ _ (base_well_used k w K)) as (r & Br & Fr).
  unfold cp_build. rewrite G. cbn [bind]. change (existsb (fun v0 => Qeq_bool v0 0) (data w)) with (has_zero_entry w).
  destruct ((1024 <? num) || (num <=? 1))%nat; cbn [bind]; [rewrite Br; cbn [bind]; eexists; split; [reflexivity|]; split; [exact Fr|discriminate]|].
  destruct (get_centroids_cases k df w cs num (shape w) K G) as (C & _). destruct (pull_cluster df cs w C) as (p & _ & P & _). rewrite P. cbn [bind]. destruct (pull_shape df cs w p C P) as [Sp _]. rewrite Sp, Nat.eqb_refl. cbn [negb bind]. rewrite Br. cbn [bind].
  eexists. split; [reflexivity|]. split; [exact Fr|]. cbn [cp_cluster]. intros c [= <-]. reflexivity.
Qed.
Section Never.
Context (k : kclass) (df : data_format) (flag0 flagb : bool) (w0 : tensor Q) (v0 : cpvars).
Context (K : kernel k w0) (B : cp_build k df flag0 w0 = Ok (flagb, v0)).
Definition ninv (v : cpvars) : Prop := vinv k w0 v0 v /\ fits (base_quantizer k) (shape w0) (cp_range v) /\ forall c, cp_cluster v = Some c -> shape (cc_idx c) = shape w0.
Lemma call_any tr r x : like w0 x -> fits (base_quantizer k) (shape w0) r -> exists y r', call (base_quantizer k) tr r x = Ok (y, r') /\ fits (base_quantizer k) (shape w0) r'.
Proof.
  intros [Wx Sx] Fr. pose proof (base_well_used k w0 K) as U. rewrite <- Sx in U, Fr. destruct (call_fits _ x tr r U Fr) as (y & r' & E & _ & F'). exists y, r'. rewrite <- Sx. auto.
Qed.
(** [fl]: whether the masks are used at call time; they are if the flag is still set. *)
Lemma call_never fl tr v : ninv v -> (fl = true -> flagb = true) -> exists y v', cp_call k df fl tr v = Ok (y, v') /\ ninv v'.
Proof.
  intros (I & Fr & Si) Ff. assert (exists y v', cp_call k df fl tr v = Ok (y, v') /\ fits (base_quantizer k) (shape w0) (cp_range v') /\ forall c, cp_cluster v' = Some c -> shape (cc_idx c) = shape w0) as (y & v' & E & X).
  2:{ exists y, v'. split; [exact E|]. split; [|exact X]. apply (step_inv k df flag0 flagb w0 v0 K B fl v (Pass tr) v' I Logic.I). cbn [cp_step]. rewrite E. reflexivity. }
  pose proof I as (Lk & Sm & Ci & calls & Rc). destruct (cp_build_cases _ _ _ _ _ _ K B) as (_ & _ & Es & _ & cs0 & num0 & lk0 & G0 & Cl0).
  assert (fl = true -> cp_smask v = Some (sparsity_mask w0)) as Sm1 by (intros E; rewrite Sm, Es, (Ff E); reflexivity).
  unfold cp_call. destruct tr.
  2:{ cbn [bind]. destruct (call_any false (cp_range v) (cp_kernel v) Lk Fr) as (y & r' & E & F'). rewrite E. cbn [bind]. exists y. eexists. split; [reflexivity|]. split; [exact F'|exact Si]. }
  destruct (cp_cluster v) as [c|] eqn:E1.
  - destruct (cp_cluster v0) as [c0|] eqn:E0; [|contradiction]. destruct Ci as (Fo & L & M). destruct (cluster0 k df flag0 flagb w0 v0 K B c0 E0) as (Co & _ & _).
    assert (fl = true -> cc_mask c = Some (centroids_mask (cc_cents c0))) as Mc. { intros E. rewrite M. destruct Cl0 as [[X _]|(_ & p & _ & _ & X)]; [congruence|]. injection X as ->. cbn [cc_mask cc_cents]. now rewrite (Ff E). }
    assert (exists cs og, same_form (cc_cents c0) cs /\ like w0 og /\
     (if fl then match cp_smask v, cc_mask c with Some m, Some cm => do og <- mask_product (cc_orig c) m ;; Ok (mkCPC (mask_centroids (cc_cents c) cm) og (cc_idx c) (cc_mask c)) | _, _ => Err KeyError end else Ok c) = Ok (mkCPC cs og (cc_idx c) (cc_mask c))) as (cs & og & F' & L' & E).
    { destruct fl.
      - rewrite (Sm1 eq_refl), (Mc eq_refl). rewrite product_ok by apply L. cbn [bind]. do 2 eexists. split; [apply mask_form; exact Fo|]. split; [|reflexivity]. apply masked_like; [apply K|exact L].
      - exists (cc_cents c), (cc_orig c). split; [exact Fo|]. split; [exact L|]. now destruct c. }
    rewrite E. cbn [bind cc_cents cc_orig cc_idx cc_mask]. assert (compat df cs og) as C' by (apply (same_form_compat df (cc_cents c0) cs w0 og F' Co); apply L').
    destruct (pull_cluster df cs og C') as (p & r & P & Rr & Sr & Wr & _). rewrite P. cbn [bind]. destruct (pull_shape df cs og p C' P) as [Sp _].
    assert (same_shape p (cc_idx c) = true) as Ss. { unfold same_shape. destruct (list_eq_dec _ _ _) as [|X]; [reflexivity|]. exfalso. apply X. rewrite Sp, (Si c eq_refl). apply L'. }
    rewrite Ss. cbn [negb]. rewrite Rr. cbn [bind cp_range]. assert (like w0 r) as Lr by (split; [exact Wr|rewrite Sr; apply L']).
    destruct (call_any true (cp_range v) r Lr Fr) as (y & r' & Ey & F2). rewrite Ey. cbn [bind cp_kernel cp_smask cp_cluster]. exists y. eexists. split; [reflexivity|]. split; [exact F2|]. cbn [cp_cluster]. intros c2 [= <-]. cbn [cc_idx]. rewrite Sp. apply L'.
  - assert (exists x, like w0 x /\ (if fl then match cp_smask v with Some m => do x <- mask_product (cp_kernel v) m ;; Ok (x, v) | None => Err KeyError end else Ok (cp_kernel v, v)) = Ok (x, v)) as (x & Lx & X).
    { destruct fl; [|exists (cp_kernel v); auto]. rewrite (Sm1 eq_refl), product_ok by apply Lk. cbn [bind]. eexists. split; [|reflexivity]. apply masked_like; [apply K|exact Lk]. }
    rewrite X. cbn [bind]. destruct (call_any true (cp_range v) x Lx Fr) as (y & r' & Ey & F2). rewrite Ey. cbn [bind]. exists y. eexists. split; [reflexivity|]. split; [exact F2|]. cbn [cp_cluster]. intros c Ec. congruence.
Qed.
Lemma run_never fl evs : (fl = true -> flagb = true) -> Forall (cp_fits w0 v0) evs -> forall v, ninv v -> exists v', cp_run k df fl v evs = Ok v' /\ ninv v'.
Proof.
  intros Ff. induction 1 as [|e r Fi F IH]; intros v I; cbn [cp_run]; [eauto|].
  assert (exists u, cp_step k df fl v e = Ok u /\ ninv u) as (u & E & Iu).
  { destruct e as [tr|kr og cs]; cbn [cp_step].
    - destruct (call_never fl tr v I Ff) as (y & v' & E & I'). rewrite E. cbn [bind]. eauto.
    - eexists. split; [reflexivity|]. destruct I as (I & Fr & Si). split; [apply (step_inv k df flag0 flagb w0 v0 K B fl v (Assign kr og cs)); auto|]. split; [exact Fr|]. unfold cp_assign. cbn [cp_cluster]. destruct (cp_cluster v) as [c|]; [|discriminate]. intros c2 [= <-]. cbn. now apply Si. }
  rewrite E. cbn [bind]. now apply IH.
Qed.
End Never.
Theorem cp_never_fails k df flag w : kernel k w -> regular k df -> exists fb v0, cp_build k df flag w = Ok (fb, v0) /\
  forall fl evs, (fl = true -> fb = true) -> Forall (cp_fits w v0) evs -> exists v, cp_run k df fl v0 evs = Ok v.
Proof.
  intros K Rg. destruct (cp_build_ok k df flag w K Rg) as (v0 & B & Fr & Si). do 2 eexists. split; [exact B|]. intros fl evs Ff F.
  destruct (run_never k df flag _ w v0 K B fl evs Ff F v0) as (v' & E & _); [|eauto]. split; [eapply vinv0; eauto|]. auto.
Qed.

(** ** The first pass *)
Lemma exact_nearest cs w : (exists z, In z cs /\ z == w) -> gather cs (pulling_index cs w) == w.
Proof.
  intros (z & Iz & Ez). assert (N : cs <> []) by (intros ->; destruct Iz). destruct (pulling_index_spec cs w N) as (c & Hc & M & _). rewrite (gather_error _ _ _ Hc).
  apply In_nth_error in Iz. destruct Iz as [j Iz]. specialize (M j z Iz).
  assert (A : Qabs (w - z) == 0). { setoid_replace (w - z) with 0 by lra. reflexivity. }
  rewrite A in M. pose proof (Qabs_nonneg (w - c)). assert (B : Qabs (w - c) == 0) by lra. revert B. apply Qabs_case; intros; lra.
Qed.
Lemma argmin_zero l : (exists z, In z l /\ z == 0) -> nth (argmin (map Qabs l)) l 0 == 0.
Proof.
  intros (z & I & E). assert (map Qabs l <> []) as N by (destruct l; [destruct I|discriminate]). destruct (argmin_spec (map Qabs l) N) as (c & Hc & M & _).
  apply (in_map Qabs) in I. apply In_nth_error in I as (j & Hj). specialize (M j _ Hj). assert (Qabs z == 0) as A by (rewrite E; reflexivity). rewrite A in M.
  rewrite nth_error_map in Hc. destruct (nth_error l (argmin (map Qabs l))) as [u|] eqn:Eu; [|discriminate]. injection Hc as <-. rewrite (nth_error_nth _ _ 0 Eu). pose proof (Qabs_nonneg u).
  assert (B : Qabs u == 0) by lra. revert B. apply Qabs_case; intros; lra.
Qed.
Lemma zip_keeps l x : (exists z, In z l /\ z == 0) -> In x l -> exists z, In z (zip_mult l (one_cold l)) /\ z == x.
Proof.
  intros Z I. pose proof (argmin_zero l Z) as A. destruct (In_split_nth _ _ 0 I) as (i & Li & E). exists (nth i (zip_mult l (one_cold l)) 0). split; [apply nth_In; rewrite zip_length; auto; now rewrite one_cold_length|].
  rewrite nth_zip by (auto; now rewrite one_cold_length). rewrite nth_one_cold by exact Li. rewrite E. destruct (Nat.eqb_spec i (argmin (map Qabs l))) as [Ei|_]; cbn [negb b2q]; [|ring].
  rewrite <- Ei, E in A. rewrite A. ring.
Qed.
Lemma has_zero_iff w : has_zero_entry w = true <-> exists x, In x (data w) /\ x == 0.
Proof. unfold has_zero_entry. rewrite existsb_exists. split; intros (x & I & E); exists x; (split; [exact I|]); now apply Qeq_bool_iff. Qed.
Lemma uniques_zero l : (exists x, In x l /\ x == 0) -> exists z, In z (uniques [] l) /\ z == 0.
Proof. intros (x & I & E). destruct (uniques_all x l I) as (u & Iu & Eu). exists u. split; [exact Iu|]. now rewrite <- Eu. Qed.
Section First.
Context (k : kclass) (df : data_format) (flag0 fb : bool) (w0 : tensor Q) (v0 : cpvars).
Context (K : kernel k w0) (B : cp_build k df flag0 w0 = Ok (fb, v0)).
Lemma centroid_of c0 cs idx : cp_cluster v0 = Some c0 -> regular k df -> (fb = false \/ k = KDense \/ ~ evenly_clustered w0 \/ channel_zeros w0) ->
  cs = (if fb then mask_centroids (cc_cents c0) (centroids_mask (cc_cents c0)) else cc_cents c0) -> valid (shape w0) idx -> exists z, In z (centroids_at df cs idx) /\ z == tget 0 w0 idx.
Proof.
  intros E0 Rg Hy Ecs V. destruct (cp_build_cases _ _ _ _ _ _ K B) as (Ef & _ & _ & _ & cs0 & num & lk & G & Cl). destruct Cl as [[X _]|(_ & p & _ & _ & X)]; [congruence|]. rewrite E0 in X. injection X as ->. cbn [cc_cents] in Ecs.
  pose proof (In_data w0 idx (proj1 K) V) as Id.
  destruct (get_centroids_cases k df w0 cs0 num lk K G) as (_ & [(-> & _ & _ & Ne)|(-> & a & b & h & o & E & X)]).
  - (* one vector *) destruct (uniques_all _ _ Id) as (u & Iu & Eu). destruct fb; cbn [mask_centroids centroids_mask] in Ecs; subst cs; cbn [centroids_at].
    + destruct (zip_keeps (get_unique w0) u) as (z & Iz & Ez); [|exact Iu|exists z; split; [exact Iz|now rewrite Ez, Eu]].
      apply uniques_zero, has_zero_iff. symmetry in Ef. now apply andb_prop in Ef.
    + exists u. split; [exact Iu|now symmetry].
  - destruct Rg as [ | -> ]; [discriminate|]. cbn [nchan] in X. destruct X as (_ & -> & Enum & _ & Ev). set (rows := rows_of w0 a b h o o) in *. set (m := max_of (map (@length Q) rows)) in *.
    set (c := slice_of ChannelsLast idx). assert (c < o)%nat as Lc by (unfold c; rewrite E in V; exact (slice_lt ChannelsLast a b h o idx V)).
    assert (In (tget 0 w0 idx) (data (the_slice 0 ChannelsLast w0 a b h o c))) as Is. { apply (slice_In ChannelsLast w0 a b h o c _ E Lc). exists idx. auto. }
    destruct (uniques_all _ _ Is) as (u & Iu & Eu).
    assert (nth c (map (padded m) rows) [] = padded m (get_unique (the_slice 0 ChannelsLast w0 a b h o c))) as Nc. { rewrite (nth_map_indep _ _ c [] []) by (unfold rows; now rewrite rows_of_length). unfold rows. now rewrite rows_of_nth. }
    assert (In u (nth c (map (padded m) rows) [])) as Iu2. { rewrite Nc. apply in_or_app. now left. }
    change (map (fun r => (r ++ repeat 1 (m - length r))%list) rows) with (map (padded m) rows) in Ecs.
    destruct fb; cbn [mask_centroids centroids_mask] in Ecs; subst cs; cbn [centroids_at].
    + rewrite nth_mask_rows; [|reflexivity|unfold rows; rewrite map_length, rows_of_length; exact Lc]. destruct (zip_keeps (nth c (map (padded m) rows) []) u) as (z & Iz & Ez); [|exact Iu2|exists z; split; [exact Iz|now rewrite Ez, Eu]].
      destruct Hy as [ | [ | [Ne|Cz]]]; [discriminate|discriminate|exfalso; apply Ne, Ev; reflexivity|].
      destruct (uniques_zero (data (the_slice 0 ChannelsLast w0 a b h o c))) as (z & Iz & Ez). { destruct (Cz c) as (x & Ix & Ex); [unfold filters; now rewrite E|]. exists x. split; [now apply slice_channel|exact Ex]. }
      exists z. split; [|exact Ez]. rewrite Nc. apply in_or_app. now left.
    + exists u. split; [exact Iu2|now symmetry].
Qed.
Theorem first_pass y v' : regular k df -> (fb = false \/ k = KDense \/ ~ evenly_clustered w0 \/ channel_zeros w0) -> in_range w0 -> cp_call k df fb true v0 = Ok (y, v') -> same_values w0 (cp_kernel v').
Proof.
  intros Rg Hy Ra H. pose proof (vinv0 k df flag0 fb w0 v0 K B) as I. destruct (cp_build_cases _ _ _ _ _ _ K B) as (Ef & Ek & Es & _ & cs0 & num & lk & G & Cl).
  destruct (cp_cluster v0) as [c0|] eqn:E0.
  - assert (cc_orig c0 = w0) as Eo. { destruct Cl as [[X _]|(_ & p & _ & _ & X)]; [congruence|]. injection X as ->. reflexivity. }
    destruct (train_clustered k df flag0 fb w0 v0 K B fb v0 c0 c0 y v' I E0 E0 H) as (cs & og & F & L & C & Efx & Ec & _ & _ & Lk & _ & Gx & _).
    assert (cs = (if fb then mask_centroids (cc_cents c0) (centroids_mask (cc_cents c0)) else cc_cents c0)) as Ecs. { destruct fb; [now apply Ec|]. cbn in Efx. apply Efx. }
    split; [apply Lk|]. intros idx V. rewrite (Gx idx V).
    assert (tget 0 og idx == tget 0 w0 idx) as Eg. { destruct fb; cbn in Efx; [|destruct Efx as [_ ->]; now rewrite Eo]. subst og. rewrite Eo. rewrite (masked_get w0 w0 idx); [|apply K|split; [apply K|reflexivity]|exact V]. destruct (Qeq_bool _ _) eqn:Q; [symmetry; now apply Qeq_bool_iff|reflexivity]. }
    rewrite add_gradient_id. 2:{ rewrite Eg. apply Ra, In_data; [apply K|exact V]. }
    transitivity (tget 0 og idx); [|exact Eg]. apply exact_nearest. destruct (centroid_of c0 cs idx E0 Rg Hy Ecs V) as (z & Iz & Ez). exists z. split; [exact Iz|]. now rewrite Ez, Eg.
  - assert (cp_kernel v' = cp_kernel v0) as E'. { unfold cp_call in H. rewrite E0 in H. destruct fb.
      - destruct (cp_smask v0); [|discriminate]. destruct (mask_product _ _); [|discriminate]. cbn [bind] in H. destruct (call _ _ _ _) as [[y' u']|]; [|discriminate]. cbn [bind] in H. injection H as _ <-. reflexivity.
      - cbn [bind] in H. destruct (call _ _ _ _) as [[y' u']|]; [|discriminate]. cbn [bind] in H. injection H as _ <-. reflexivity. }
    rewrite E', Ek. split; [reflexivity|]. intros; reflexivity.
Qed.
End First.

(** ** Shared flags *)
Lemma build_flag k df flag w fb v : cp_build k df flag w = Ok (fb, v) -> fb = (flag && has_zero_entry w)%bool.
Proof.
  unfold cp_build. change (existsb (fun v0 => Qeq_bool v0 0) (data w)) with (has_zero_entry w). destruct (get_centroids k df w) as [[[cs num] lk]|]; [|discriminate]. cbn [bind]. intros H.
  match type of H with (do cl <- ?e ;; _) = _ => destruct e; [|discriminate] end. cbn [bind] in H. destruct (build _ _); [|discriminate]. cbn [bind] in H. now injection H as <- _.
Qed.
Definition class_of_entry (e : kclass * data_format * tensor Q) : kclass := fst (fst e).
Lemma flag_set f k b k' : flag_of (set_flag f k b) k' = if (match k, k' with KDense, KDense | KConv2D, KConv2D => true | _, _ => false end) then b else flag_of f k'.
Proof. destruct k, k'; reflexivity. Qed.
Lemma model_flags ls : forall f f' vs, cp_build_model f ls = Ok (f', vs) -> forall k, flag_of f' k = true <-> flag_of f k = true /\ forall df w, In (k, df, w) ls -> exists x, In x (data w) /\ x == 0.
Proof.
  induction ls as [|[[k0 df0] w] r IH]; intros f f' vs H k; cbn [cp_build_model] in H.
  - injection H as <- <-. split; [intros X; split; [exact X|intros df w []]|tauto].
  - destruct (cp_build k0 df0 (flag_of f k0) w) as [[b v]|] eqn:Bd; [|discriminate]. cbn [bind] in H. destruct (cp_build_model _ r) as [[f2 vs2]|] eqn:E; [|discriminate]. cbn [bind] in H. injection H as <- <-.
    rewrite (IH _ _ _ E k). apply build_flag in Bd. rewrite flag_set. split.
    + intros [A C]. assert (flag_of f k = true /\ (k = k0 -> has_zero_entry w = true)) as [A1 A2]. { destruct k0, k; try (subst b; apply andb_prop in A as [A1 A2]; tauto); (split; [exact A|discriminate]). }
      split; [exact A1|]. intros df u [X|X]; [|now apply (C df u)]. injection X as -> -> ->. apply has_zero_iff. now apply A2.
    + intros [A C]. split; [|intros df u I; apply (C df u); now right].
      destruct k0, k; try exact A; subst b; rewrite A; cbn [andb]; apply has_zero_iff, (C df0 w); now left.
Qed.
Lemma model_entries ls : forall f f' vs, cp_build_model f ls = Ok (f', vs) -> forall i k df w v, nth_error ls i = Some (k, df, w) -> nth_error vs i = Some v ->
  exists g fb, cp_build k df g w = Ok (fb, v) /\ (flag_of f' k = true -> g = true /\ fb = true).
Proof.
  induction ls as [|[[k0 df0] w0] r IH]; intros f f' vs H i k df w v Hi Hv; [destruct i; discriminate|]. cbn [cp_build_model] in H.
  destruct (cp_build k0 df0 (flag_of f k0) w0) as [[b v1]|] eqn:Bd; [|discriminate]. cbn [bind] in H. destruct (cp_build_model _ r) as [[f2 vs2]|] eqn:E; [|discriminate]. cbn [bind] in H. injection H as <- <-.
  destruct i as [|i].
  - cbn in Hi, Hv. injection Hi as <- <- <-. injection Hv as <-. exists (flag_of f k0), b. split; [exact Bd|]. intros Ft. apply (model_flags _ _ _ _ E) in Ft as [Ft _]. rewrite flag_set in Ft. assert (b = true) as Eb by (destruct k0; exact Ft). split; [|exact Eb]. apply build_flag in Bd. rewrite Eb in Bd. symmetry in Bd. now apply andb_prop in Bd.
  - cbn in Hi, Hv. apply (IH _ _ _ E i k df w v Hi Hv).
Qed.
