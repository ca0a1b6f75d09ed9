(** Per-channel clustering (C23, C25). *)
From Verif Require Import Base M_Tensor M_Num M_Stages M_Cluster S_Cluster L_Num L_Tensor L_Stages L_Cluster L_Cluster2.
Open Scope Q_scope.

Lemma mapM_map {A B} (f : A -> res B) (g : A -> B) l : (forall x, In x l -> f x = Ok (g x)) -> mapM f l = Ok (map g l).
Proof.
  induction l as [|a l IH]; intros H; cbn; [reflexivity|]. rewrite (H a) by now left. cbn [bind]. rewrite IH by (intros; apply H; now right). reflexivity.
Qed.
Lemma concat_nth_block {A} (d : A) k (ll : list (list A)) : (forall l, In l ll -> length l = k) -> forall c r, (c < length ll)%nat -> (r < k)%nat ->
  nth (c * k + r) (List.concat ll) d = nth r (nth c ll []) d.
Proof.
  induction ll as [|l ll IH]; intros H c r Lc Lr; [cbn in Lc; lia|]. cbn [List.concat]. pose proof (H l (or_introl eq_refl)) as E. destruct c as [|c].
  - cbn [nth Nat.mul Nat.add]. rewrite app_nth1 by lia. reflexivity.
  - cbn [nth]. rewrite app_nth2 by (cbn; lia). rewrite E. replace (S c * k + r - k)%nat with (c * k + r)%nat by (cbn; lia). apply IH; [intros; apply H; now right|cbn in Lc; lia|exact Lr].
Qed.
Lemma concat_len_block {A} k (ll : list (list A)) : (forall l, In l ll -> length l = k) -> length (List.concat ll) = (length ll * k)%nat.
Proof. induction ll as [|l ll IH]; intros H; cbn; [reflexivity|]. rewrite app_length, (H l), IH by (try (intros; apply H; now right); now left). reflexivity. Qed.

Lemma stack_spec {A} (d : A) (g : nat -> tensor A) n sh : (0 < n)%nat -> (forall c, (c < n)%nat -> shape (g c) = sh /\ wf (g c)) ->
  exists s, stack (map g (seq 0 n)) = Ok s /\ shape s = n :: sh /\ wf s /\ forall c idx, (c < n)%nat -> valid sh idx -> tget d s (c :: idx) = tget d (g c) idx.
Proof.
  intros N H. assert (L : length (map g (seq 0 n)) = n) by (rewrite map_length; apply seq_length).
  assert (B : forall l, In l (map data (map g (seq 0 n))) -> length l = prod sh).
  { intros l Hl. apply in_map_iff in Hl. destruct Hl as (t & <- & Ht). apply in_map_iff in Ht. destruct Ht as (c & <- & Hc). apply in_seq in Hc. destruct (H c) as [E W]; [lia|]. rewrite <- E. exact W. }
  unfold stack. destruct (map g (seq 0 n)) as [|t0 r] eqn:E; [destruct n; [lia|discriminate E]|].
  assert (S0 : shape t0 = sh). { destruct n; [lia|]. cbn in E. injection E as <- _. apply H. lia. }
  rewrite <- E in *. clear E. rewrite S0.
  assert (F : forallb (fun u : tensor A => if list_eq_dec Nat.eq_dec (shape u) sh then true else false) (map g (seq 0 n)) = true).
  { apply forallb_forall. intros u Hu. apply in_map_iff in Hu. destruct Hu as (c & <- & Hc). apply in_seq in Hc. destruct (H c) as [-> _]; [lia|]. now destruct (list_eq_dec Nat.eq_dec sh sh). }
  rewrite F. eexists. split; [reflexivity|]. cbn [shape]. rewrite L. split; [reflexivity|]. split.
  - unfold wf. cbn [data shape prod]. rewrite (concat_len_block (prod sh)) by exact B. now rewrite map_length, L.
  - intros c idx Hc V. unfold tget. cbn [shape data ravel]. rewrite (concat_nth_block d (prod sh)); [|exact B|rewrite map_length, L; exact Hc|now apply ravel_lt].
    destruct (H c Hc) as [-> _]. f_equal. rewrite (nth_indep _ [] (data (g 0%nat))) by (rewrite !map_length, seq_length; exact Hc).
    rewrite map_nth. rewrite (map_nth g). rewrite seq_nth by exact Hc. reflexivity.
Qed.

Lemma valid4 a b c d idx : valid [a; b; c; d] idx -> exists i j k l, idx = [i; j; k; l] /\ (i < a)%nat /\ (j < b)%nat /\ (k < c)%nat /\ (l < d)%nat.
Proof.
  intros V. apply valid_cons_inv in V. destruct V as (i & r & -> & Hi & V). apply valid_cons_inv in V. destruct V as (j & r2 & -> & Hj & V).
  apply valid_cons_inv in V. destruct V as (k & r3 & -> & Hk & V). apply valid_cons_inv in V. destruct V as (l & r4 & -> & Hl & V). apply valid_nil_iff in V. subst. now exists i, j, k, l.
Qed.
Lemma valid4_intro a b c d i j k l : (i < a)%nat -> (j < b)%nat -> (k < c)%nat -> (l < d)%nat -> valid [a; b; c; d] [i; j; k; l].
Proof. intros. repeat constructor; assumption. Qed.
Lemma valid3_intro a b c i j k : (i < a)%nat -> (j < b)%nat -> (k < c)%nat -> valid [a; b; c] [i; j; k].
Proof. intros. repeat constructor; assumption. Qed.

(** Kernel index of entry [i j k] of slice [c]. *)
Definition kidx (df : data_format) (c i j k : nat) : list nat := match df with ChannelsFirst => [i; c; j; k] | ChannelsLast => [i; j; k; c] end.
Definition sdims (df : data_format) (a b h o : nat) : list nat := match df with ChannelsFirst => [a; h; o] | ChannelsLast => [a; b; h] end.
Definition nchan (df : data_format) (b o : nat) : nat := match df with ChannelsFirst => b | ChannelsLast => o end.
Definition the_slice {A} (d0 : A) (df : data_format) (t : tensor A) (a b h o c : nat) : tensor A :=
  tab (sdims df a b h o) (fun i => match i with [i0; i1; i2] => tget d0 t (kidx df c i0 i1 i2) | _ => d0 end).
Lemma channel_slice_eq {A} (d0 : A) df t a b h o c : shape t = [a; b; h; o] -> channel_slice d0 df t c = Ok (the_slice d0 df t a b h o c).
Proof. intros E. unfold channel_slice. rewrite E. destruct df; reflexivity. Qed.
Lemma num_channels_eq {A} df (t : tensor A) a b h o : shape t = [a; b; h; o] -> num_channels df t = nchan df b o.
Proof. intros E. unfold num_channels. rewrite E. destruct df; reflexivity. Qed.

Lemma transpose_front {A} (d : A) df t a b h o c i j k : shape t = [a; b; h; o] -> (c < nchan df b o)%nat -> valid (sdims df a b h o) [i; j; k] ->
  tget d (transpose d (perm_front df) t) [c; i; j; k] = tget d t (kidx df c i j k).
Proof.
  intros E Hc V. unfold transpose. rewrite tget_tab.
  - destruct df; reflexivity.
  - rewrite E. destruct df; cbn [sdims nchan perm_front map nth] in *; apply valid_cons_iff in V; destruct V as [Hi V]; apply valid_cons_iff in V; destruct V as [Hj V];
    apply valid_cons_iff in V; destruct V as [Hk _]; apply valid4_intro; assumption.
Qed.
Lemma transpose_front_shape {A} (d : A) df t a b h o : shape t = [a; b; h; o] -> shape (transpose d (perm_front df) t) = nchan df b o :: sdims df a b h o.
Proof. intros E. unfold transpose. rewrite tab_shape, E. destruct df; reflexivity. Qed.
Lemma transpose_back {A} (d : A) df t a b h o idx : shape t = nchan df b o :: sdims df a b h o -> valid [a; b; h; o] idx ->
  exists i j k, idx = kidx df (slice_of df idx) i j k /\ valid (sdims df a b h o) [i; j; k] /\ (slice_of df idx < nchan df b o)%nat /\
    tget d (transpose d (perm_back df) t) idx = tget d t [slice_of df idx; i; j; k].
Proof.
  intros E V. destruct (valid4 _ _ _ _ _ V) as (i & j & k & l & -> & Hi & Hj & Hk & Hl). destruct df; unfold slice_of, slice_axis; cbn [nchan sdims nth kidx perm_back] in *.
  - exists i, k, l. repeat split; try assumption; [now apply valid3_intro|]. unfold transpose. rewrite tget_tab; [reflexivity|]. rewrite E. cbn [map nth]. now apply valid4_intro.
  - exists i, j, k. repeat split; try assumption; [now apply valid3_intro|]. unfold transpose. rewrite tget_tab; [reflexivity|]. rewrite E. cbn [map nth]. now apply valid4_intro.
Qed.
Lemma transpose_back_shape {A} (d : A) df t a b h o : shape t = nchan df b o :: sdims df a b h o -> shape (transpose d (perm_back df) t) = [a; b; h; o].
Proof. intros E. unfold transpose. rewrite tab_shape, E. destruct df; reflexivity. Qed.

Lemma row_ok rows c : (c < length rows)%nat -> row rows c = Ok (nth c rows []).
Proof. intros H. unfold row. destruct (nth_error rows c) eqn:E; [|apply nth_error_None in E; lia]. f_equal. symmetry. now apply nth_error_nth. Qed.

Lemma pulling_pc df rows w a b h o : shape w = [a; b; h; o] -> wf w -> (0 < nchan df b o)%nat -> length rows = nchan df b o ->
  exists p, get_pulling_indices_pc df rows w = Ok p /\ shape p = shape w /\ wf p /\
    forall idx, valid (shape w) idx -> tget 0%nat p idx = pulling_index (nth (slice_of df idx) rows []) (tget 0 w idx).
Proof.
  intros E W Hc Lr. unfold get_pulling_indices_pc. rewrite (num_channels_eq df w a b h o E).
  rewrite (mapM_map _ (fun c => get_pulling_indices (nth c rows []) (the_slice 0 df w a b h o c))).
  2:{ intros c Hin. apply in_seq in Hin. rewrite (channel_slice_eq 0 df w a b h o c E). cbn [bind]. rewrite row_ok by lia. reflexivity. }
  cbn [bind].
  destruct (stack_spec 0%nat (fun c => get_pulling_indices (nth c rows []) (the_slice 0 df w a b h o c)) (nchan df b o) (sdims df a b h o) Hc) as (s & Es & Ss & Ws & Gs).
  { intros c _. split; [reflexivity|]. apply tmap_wf, tab_wf. }
  rewrite Es. cbn [bind]. eexists. split; [reflexivity|]. rewrite (transpose_back_shape 0%nat df s a b h o Ss). split; [symmetry; exact E|]. split; [apply transpose_wf|].
  intros idx V. rewrite E in V. destruct (transpose_back 0%nat df s a b h o idx Ss V) as (i & j & k & Ei & V3 & Hs & G). rewrite G, Gs by assumption.
  unfold get_pulling_indices. rewrite (tget_tmap _ 0 0%nat); [|apply tab_wf|exact V3]. f_equal. unfold the_slice. rewrite tget_tab by exact V3. now rewrite <- Ei.
Qed.

Lemma subtensor_get {A} (d : A) t n sh c idx : shape t = n :: sh -> valid sh idx -> tget d (subtensor d t c) idx = tget d t (c :: idx).
Proof. intros E V. unfold subtensor. rewrite tget_tab by (rewrite E; exact V). reflexivity. Qed.

Lemma clustered_pc df rows p w a b h o : shape w = [a; b; h; o] -> wf w -> shape p = shape w -> wf p -> (0 < nchan df b o)%nat -> length rows = nchan df b o ->
  exists r, get_clustered_weight_pc df rows p w = Ok r /\ shape r = shape w /\ wf r /\
    forall idx, valid (shape w) idx -> tget 0 r idx = add_gradient (gather (nth (slice_of df idx) rows []) (tget 0%nat p idx)) (tget 0 w idx).
Proof.
  intros E W Ep Wp Hc Lr. unfold get_clustered_weight_pc. rewrite (num_channels_eq df w a b h o E). set (q := transpose 0%nat (perm_front df) p).
  assert (Ep' : shape p = [a; b; h; o]) by congruence. pose proof (transpose_front_shape 0%nat df p a b h o Ep') as Eq. fold q in Eq.
  rewrite (mapM_map _ (fun c => tmap (gather (nth c rows [])) (subtensor 0%nat q c))).
  2:{ intros c Hin. apply in_seq in Hin. rewrite row_ok by lia. reflexivity. }
  cbn [bind].
  destruct (stack_spec 0 (fun c => tmap (gather (nth c rows [])) (subtensor 0%nat q c)) (nchan df b o) (sdims df a b h o) Hc) as (s & Es & Ss & Ws & Gs).
  { intros c _. split; [unfold tmap, subtensor; cbn [shape]; rewrite tab_shape, Eq; reflexivity|]. apply tmap_wf, tab_wf. }
  rewrite Es. cbn [bind]. eexists. split; [reflexivity|]. rewrite tmap2_shape. rewrite (transpose_back_shape 0 df s a b h o Ss). split; [symmetry; exact E|]. split.
  { apply tmap2_wf; [apply transpose_wf|exact W|]. now rewrite (transpose_back_shape 0 df s a b h o Ss). }
  intros idx V. rewrite E in V. rewrite (tget_tmap2 _ 0 0); [|apply transpose_wf|exact W|now rewrite (transpose_back_shape 0 df s a b h o Ss)|now rewrite (transpose_back_shape 0 df s a b h o Ss)].
  f_equal. destruct (transpose_back 0 df s a b h o idx Ss V) as (i & j & k & Ei & V3 & Hs & G). rewrite G, Gs by assumption.
  rewrite (tget_tmap _ 0%nat 0); [|apply tab_wf|unfold subtensor; rewrite tab_shape, Eq; exact V3]. f_equal.
  rewrite (subtensor_get 0%nat q _ _ _ _ Eq V3). unfold q. rewrite (transpose_front 0%nat df p a b h o) by assumption. now rewrite <- Ei.
Qed.

Lemma cluster_pc df rows w a b h o : shape w = [a; b; h; o] -> wf w -> (0 < nchan df b o)%nat -> length rows = nchan df b o ->
  exists p r, get_pulling_indices_pc df rows w = Ok p /\ get_clustered_weight_pc df rows p w = Ok r /\ shape r = shape w /\ wf r /\
    (forall idx, valid (shape w) idx -> tget 0 r idx = add_gradient (gather (nth (slice_of df idx) rows []) (pulling_index (nth (slice_of df idx) rows []) (tget 0 w idx))) (tget 0 w idx)) /\
    (forall idx, valid (shape w) idx -> tget 0%nat p idx = pulling_index (nth (slice_of df idx) rows []) (tget 0 w idx)).
Proof.
  intros E W Hc Lr. destruct (pulling_pc df rows w a b h o E W Hc Lr) as (p & Hp & Sp & Wp & Gp).
  destruct (clustered_pc df rows p w a b h o E W Sp Wp Hc Lr) as (r & Hr & Sr & Wr & Gr). exists p, r. repeat split; auto.
  intros idx V. rewrite Gr by exact V. now rewrite Gp by exact V.
Qed.

(** Gradient of a row = scatter over its slice. *)
Lemma subtensor_front df p a b h o c : shape p = [a; b; h; o] -> (c < nchan df b o)%nat ->
  subtensor 0%nat (transpose 0%nat (perm_front df) p) c = the_slice 0%nat df p a b h o c.
Proof.
  intros E Hc. apply (tensor_ext 0%nat); [apply tab_wf|apply tab_wf| |].
  - unfold subtensor, the_slice. rewrite !tab_shape, (transpose_front_shape 0%nat df p a b h o E). reflexivity.
  - intros idx V. unfold subtensor in V. rewrite tab_shape, (transpose_front_shape 0%nat df p a b h o E) in V. cbn [tl] in V.
    rewrite (subtensor_get 0%nat _ _ _ _ _ (transpose_front_shape 0%nat df p a b h o E) V). unfold the_slice. rewrite tget_tab by exact V.
    assert (X : exists i j k, idx = [i; j; k]). { destruct df; cbn in V; apply valid_cons_inv in V; destruct V as (i & r & -> & _ & V); apply valid_cons_inv in V; destruct V as (j & r2 & -> & _ & V);
      apply valid_cons_inv in V; destruct V as (k & r3 & -> & _ & V); apply valid_nil_iff in V; subst; now exists i, j, k. }
    destruct X as (i & j & k & ->). now apply (transpose_front 0%nat df p a b h o).
Qed.
Lemma centroid_grad_pc_eq agg df rows p g a b h o : shape p = [a; b; h; o] -> shape g = [a; b; h; o] -> length rows = nchan df b o ->
  centroid_grad_pc agg df rows p g =
  Ok (map (fun c => centroid_grad agg (length (nth c rows [])) (data (the_slice 0%nat df p a b h o c)) (data (the_slice 0 df g a b h o c))) (seq 0 (nchan df b o))).
Proof.
  intros Ep Eg Lr. unfold centroid_grad_pc. rewrite (num_channels_eq df g a b h o Eg). apply mapM_map. intros c Hin. apply in_seq in Hin.
  rewrite row_ok by lia. cbn [bind]. rewrite (channel_slice_eq 0 df g a b h o c Eg). cbn [bind]. now rewrite (subtensor_front df p a b h o c Ep) by lia.
Qed.
Lemma member_map_list {B} j (f : B -> nat) (v : B -> Q) l : member_grads j (map f l) (map v l) = map v (filter (fun x => Nat.eqb (f x) j) l).
Proof.
  induction l as [|x l IH]; [reflexivity|]. unfold member_grads in *. cbn [map combine filter fst]. destruct (Nat.eqb (f x) j); cbn; [f_equal|]; apply IH.
Qed.
Lemma slice_data {A} (d0 : A) df t a b h o c : data (the_slice d0 df t a b h o c) =
  map (fun idx => tget d0 t idx) (map (fun n => match unravel (sdims df a b h o) n with [i; j; k] => kidx df c i j k | _ => [] end) (seq 0 (prod (sdims df a b h o)))).
Proof.
  unfold the_slice, tab. cbn [data]. rewrite map_map. apply map_ext_in. intros n Hn. apply in_seq in Hn.
  assert (V : valid (sdims df a b h o) (unravel (sdims df a b h o) n)) by (apply unravel_valid; lia).
  destruct df; cbn [sdims] in *; apply valid_cons_inv in V; destruct V as (i & r & -> & _ & V); apply valid_cons_inv in V; destruct V as (j & r2 & -> & _ & V);
      apply valid_cons_inv in V; destruct V as (k & r3 & -> & _ & V); apply valid_nil_iff in V; subst; reflexivity.
Qed.
Lemma kidx_inj df c i j k i' j' k' : kidx df c i j k = kidx df c i' j' k' -> [i; j; k] = [i'; j'; k'].
Proof. destruct df; intros [= -> -> ->]; reflexivity. Qed.
Lemma slice_members df (p : tensor nat) a b h o c j : shape p = [a; b; h; o] -> (c < nchan df b o)%nat ->
  members_of df p c j (filter (fun idx => Nat.eqb (tget 0%nat p idx) j)
    (map (fun n => match unravel (sdims df a b h o) n with [i; j; k] => kidx df c i j k | _ => [] end) (seq 0 (prod (sdims df a b h o))))).
Proof.
  intros E Hc. set (f := fun n => match unravel (sdims df a b h o) n with [i; j; k] => kidx df c i j k | _ => [] end).
  assert (F : forall n, (n < prod (sdims df a b h o))%nat -> exists i j k, unravel (sdims df a b h o) n = [i; j; k] /\ f n = kidx df c i j k /\ valid (sdims df a b h o) [i; j; k]).
  { intros n Hn. assert (V : valid (sdims df a b h o) (unravel (sdims df a b h o) n)) by (apply unravel_valid; lia).
    unfold f. pose proof V as V0. destruct df; cbn [sdims] in *; apply valid_cons_inv in V; destruct V as (i & r & Er & _ & V); apply valid_cons_inv in V; destruct V as (j' & r2 & -> & _ & V);
      apply valid_cons_inv in V; destruct V as (k & r3 & -> & _ & V); apply valid_nil_iff in V; subst; exists i, j', k; rewrite Er in *; auto. }
  split.
  - apply NoDup_filter. assert (G : NoDup (map f (seq 0 (prod (sdims df a b h o))))); [|exact G].
    assert (Inj : forall x y, In x (seq 0 (prod (sdims df a b h o))) -> In y (seq 0 (prod (sdims df a b h o))) -> f x = f y -> x = y).
    { intros x y Hx Hy Exy. apply in_seq in Hx, Hy. destruct (F x) as (i & j1 & k & U & Fx & _); [lia|]. destruct (F y) as (i' & j' & k' & U' & Fy & _); [lia|].
      rewrite Fx, Fy in Exy. apply kidx_inj in Exy. rewrite <- U, <- U' in Exy. apply (f_equal (ravel (sdims df a b h o))) in Exy. now rewrite !ravel_unravel in Exy by lia. }
    clear F. revert Inj. generalize (seq_NoDup (prod (sdims df a b h o)) 0). generalize (seq 0 (prod (sdims df a b h o))). induction l as [|x l IH]; intros Nd Inj; [constructor|].
    inversion Nd; subst. cbn. constructor.
    + intros Hin. apply in_map_iff in Hin. destruct Hin as (y & Ey & Hy). apply Inj in Ey; [subst; contradiction|now right|now left].
    + apply IH; [assumption|]. intros; apply Inj; auto; now right.
  - intros idx. rewrite filter_In, in_map_iff, Nat.eqb_eq. split.
    + intros ((n & <- & Hn) & Hj). apply in_seq in Hn. destruct (F n) as (i & j1 & k & _ & Fx & V); [lia|]. fold (f n) in *. rewrite Fx in *. rewrite E.
      destruct df; cbn [sdims nchan kidx] in *; apply valid_cons_iff in V; destruct V as [Hi V]; apply valid_cons_iff in V; destruct V as [Hjj V]; apply valid_cons_iff in V; destruct V as [Hk _];
      (split; [now apply valid4_intro|split; [reflexivity|exact Hj]]).
    + intros (V & Hs & Hj). split; [|exact Hj]. rewrite E in V. destruct (valid4 _ _ _ _ _ V) as (i & j1 & k & l & -> & Hi & Hj1 & Hk & Hl).
      destruct df; cbn in Hs; subst c.
      * exists (ravel [a; h; o] [i; k; l]). assert (V3 : valid [a; h; o] [i; k; l]) by now apply valid3_intro. split; [|apply in_seq; split; [lia|now apply ravel_lt]]. unfold f; cbn [sdims]. rewrite unravel_ravel by exact V3. reflexivity.
      * exists (ravel [a; b; h] [i; j1; k]). assert (V3 : valid [a; b; h] [i; j1; k]) by now apply valid3_intro. split; [|apply in_seq; split; [lia|now apply ravel_lt]]. unfold f; cbn [sdims]. rewrite unravel_ravel by exact V3. reflexivity.
Qed.

Lemma grad_pc_spec agg df rows p g a b h o c j : shape p = [a; b; h; o] -> shape g = [a; b; h; o] -> length rows = nchan df b o ->
  (c < nchan df b o)%nat -> (j < length (nth c rows []))%nat ->
  exists gs L, centroid_grad_pc agg df rows p g = Ok gs /\ length gs = length rows /\ members_of df p c j L /\
    match agg with
    | SUM => nth j (nth c gs []) 0 == sumQ (map (tget 0 g) L)
    | AVG => nth j (nth c gs []) 0 == match L with [] => 0 | _ => sumQ (map (tget 0 g) L) / inject_Z (Z.of_nat (length L)) end
    end.
Proof.
  intros Ep Eg Lr Hc Hj. rewrite (centroid_grad_pc_eq agg df rows p g a b h o Ep Eg Lr). do 2 eexists. split; [reflexivity|]. split; [rewrite map_length, seq_length; auto|].
  split; [apply (slice_members df p a b h o c j Ep Hc)|].
  rewrite nth_map_seq by exact Hc. rewrite !slice_data. set (ix := map (fun n => match unravel _ n with [i; j; k] => kidx df c i j k | _ => [] end) _).
  destruct agg.
  - rewrite centroid_grad_sum by exact Hj. rewrite member_map_list. reflexivity.
  - destruct (centroid_grad_avg (length (nth c rows [])) (map (fun idx => tget 0%nat p idx) ix) (map (fun idx => tget 0 g idx) ix) j Hj) as [A B]; [now rewrite !map_length|].
    rewrite member_map_list in A, B. set (L := filter _ ix) in *. change (filter (fun idx => Nat.eqb (tget 0%nat p idx) j) ix) with L. destruct L as [|x L'].
    + now apply A.
    + rewrite B by discriminate. rewrite map_length. reflexivity.
Qed.
