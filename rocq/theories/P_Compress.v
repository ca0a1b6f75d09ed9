(** Properties C65-C67 and C92-C96: the weight-compression framework.  Statements only. *)
From Coq Require Import String Ascii.
From Verif Require Import Base M_Tensor M_Num M_Stages M_Cluster M_Compress S_Cluster S_Compress L_Tensor L_Cluster L_Compress L_Compress2 L_Compress3 L_Compress4 L_Compress5 L_Compress6.
Open Scope string_scope.
Open Scope list_scope.
Open Scope nat_scope.

(** ** An instance of the assumptions on [tf.linalg.svd] and concrete layers *)
Definition delta (i j : nat) : Q := if i =? j then 1%Q else 0%Q.
Definition some_svd : svd_op := fun w =>
  let p := lead (shape w) in let m := row2 (shape w) in let n := col (shape w) in
  if n <=? m
  then (tab (p ++ [n]) (fun _ => 1%Q), tab (p ++ [m; n]) (tget 0%Q w), tab (p ++ [n; n]) (fun i => delta (row2 i) (col i)))
  else (tab (p ++ [m]) (fun _ => 1%Q), tab (p ++ [m; m]) (fun i => delta (row2 i) (col i)),
        tab (p ++ [n; m]) (fun i => tget 0%Q w (lead i ++ [col i; row2 i]))).
Example some_svd_shapes : svd_shapes some_svd.
Proof.
  intros w p m n Hw. unfold some_svd. rewrite Hw, lead_app, row2_app, col_app.
  destruct (Nat.leb_spec n m); cbn [shape tab]; repeat split; do 2 f_equal; lia || (f_equal; lia).
Qed.
Lemma sum_delta_r (f : nat -> Q) j n s : (j < s + n) -> s <= j ->
  (sumQ (map (fun k => f k * (1 * delta j k)) (seq s n)) == f j)%Q.
Proof.
  revert s. induction n as [|n IH]; intros s H1 H2; [lia|]. cbn [seq map sumQ]. unfold delta at 1.
  destruct (Nat.eqb_spec j s) as [->|N].
  - assert (Z0 : forall k0 s0, s < s0 -> (sumQ (map (fun k => f k * (1 * delta s k)) (seq s0 k0)) == 0)%Q).
    { induction k0; intros s0 Hs0; cbn [seq map sumQ]. reflexivity. rewrite IHk0 by lia. unfold delta.
      destruct (Nat.eqb_spec s s0); [lia|]. ring. }
    rewrite Z0 by lia. ring.
  - rewrite IH by lia. ring.
Qed.
Lemma sum_delta_l (f : nat -> Q) i n s : (i < s + n) -> s <= i ->
  (sumQ (map (fun k => delta i k * (1 * f k)) (seq s n)) == f i)%Q.
Proof.
  intros. rewrite <- (sum_delta_r f i n s) by lia. apply sumQ_ext. intros. ring.
Qed.
Example some_svd_exact : svd_exact some_svd.
Proof.
  intros w p m n Hw Wf. unfold some_svd. rewrite Hw, lead_app, row2_app, col_app.
  destruct (Nat.leb_spec n m) as [L|L]; intros q i j Hq Hi Hj.
  - rewrite Nat.min_r by lia. rewrite <- (sum_delta_r (fun k => tget 0%Q w (q ++ [i; k])) j n 0) by lia.
    apply sumQ_ext. intros k Hk. apply in_seq in Hk. rewrite !tget_tab; try (apply valid2; auto; lia).
    rewrite row2_app, col_app. reflexivity. apply Forall2_app; auto. repeat constructor. lia.
  - rewrite Nat.min_l by lia. rewrite <- (sum_delta_l (fun k => tget 0%Q w (q ++ [k; j])) i m 0) by lia.
    apply sumQ_ext. intros k Hk. apply in_seq in Hk. rewrite !tget_tab; try (apply valid2; auto; lia).
    rewrite !row2_app, !col_app, lead_app. reflexivity. apply Forall2_app; auto. repeat constructor. lia.
Qed.

Definition fl (s : list nat) (l : list Q) : cv := VF (mkT s l).
Definition lw (layer n : string) (i v : cv) : lweight := mkLW n (layer ++ "/" ++ n ++ ":0")%string i v.
Definition k22 : lweight := lw "dense" "kernel" (fl [2; 2] [0; 0; 0; 0]%Q) (fl [2; 2] [1; 2; 3; 4]%Q).
Definition b2 : lweight := lw "dense" "bias" (fl [2] [0; 0]%Q) (fl [2] [5; 7]%Q).
Definition dense : ylayer := mkY "dense" KDense true [k22; b2].
Definition dense_nobias : ylayer := mkY "dense" KDense true [k22].
Definition batchnorm : ylayer := mkY "bn" KOther true
  [lw "bn" "gamma" (fl [2] [1; 1]%Q) (fl [2] [2; 3]%Q); lw "bn" "beta" (fl [2] [0; 0]%Q) (fl [2] [4; 5]%Q);
   lw "bn" "moving_mean" (fl [2] [0; 0]%Q) (fl [2] [6; 7]%Q); lw "bn" "moving_variance" (fl [2] [1; 1]%Q) (fl [2] [8; 9]%Q)].
Definition flatten : ylayer := mkY "flatten" KOther true [].
Ltac proper_ex := split; [reflexivity|]; split;
  [repeat constructor; cbn; intuition discriminate|cbn; intuition (subst; repeat split)].
Example dense_ok : kernel_and_bias dense k22 b2 /\ svd_kernel (lw_value k22).
Proof.
  split. { split; [proper_ex|]. split; [now left|]. repeat split. }
  eexists. repeat split. now left.
Qed.
Example dense_nobias_ok : kernel_only dense_nobias k22.
Proof. split; [proper_ex|]. split; [now left|]. repeat split. Qed.
Example trained_ex : trained (mkTW dense [("kernel", [lw_value k22])] [("bias", lw_value b2)])
                             (mkTW dense [("kernel", [fl [2; 2] [9; 9; 1; 0]%Q])] [("bias", fl [2] [0; 1]%Q)]).
Proof. repeat (constructor; cbn; try discriminate; try reflexivity). Qed.

(** ** C65: creating the inference layer carries over every trained weight.
    True for layers with a kernel and a bias when the kernel is compressed; false otherwise. *)
Theorem C65_kernel_and_bias_partial : forall a y k b ts w w', compresses_kernel a -> kernel_and_bias y k b ->
  a_init a (lw_value k) = Ok ts -> create_layer_for_training a y = Ok w -> trained w w' ->
  exists ts' b', tw_training w' = [("kernel", ts')] /\ tw_rest w' = [("bias", b')] /\
    forall cs kv, a_compress a ts' = Ok cs -> a_decompress a cs = Ok kv ->
      exists iw, create_layer_for_inference a w' = Ok iw /\ iw_get_weights iw = cs ++ [b'] /\
        infer_call a iw = Ok [("kernel", kv); ("bias", b')].
Proof. exact kernel_bias_carried. Qed.
Print Assumptions C65_kernel_and_bias_partial.
(** Every kernel-compressing algorithm, every layer without bias, after any training: no inference layer (IndexError). *)
Theorem C65_without_bias_refuted : forall a y k ts w w', compresses_kernel a -> kernel_only y k ->
  a_init a (lw_value k) = Ok ts -> ts <> [] -> create_layer_for_training a y = Ok w -> trained w w' ->
  (forall iw, create_layer_for_inference a w' <> Ok iw) /\
  (forall ts' cs, tw_training w' = [("kernel", ts')] -> a_compress a ts' = Ok cs -> create_layer_for_inference a w' = Err IndexError).
Proof. intros. split; [eapply kernel_only_raises; eauto|intros; eapply kernel_only_index; eauto]. Qed.
Print Assumptions C65_without_bias_refuted.
Theorem C65_bias_only_refuted : forall y k b t w w', kernel_and_bias y k b -> lw_value b = VF t ->
  create_layer_for_training bias_only y = Ok w -> trained w w' -> create_layer_for_inference bias_only w' = Err ValueError.
Proof. exact bias_only_raises. Qed.
Print Assumptions C65_bias_only_refuted.
(** Layers without compressible weight: accepted exactly when they have no weight or two weights. *)
Theorem C65_other_layers_refuted : forall a y w w', y_built y = true -> a_compressible a y = [] ->
  create_layer_for_training a y = Ok w -> trained w w' ->
  ((exists iw, create_layer_for_inference a w' = Ok iw) <-> (List.length (y_weights y) = 0 \/ List.length (y_weights y) = 2)) /\
  (forall iw, create_layer_for_inference a w' = Ok iw -> infer_call a iw = Ok (tw_rest w')).
Proof.
  intros a y w w' Hb Hn Hc Ht. rewrite (fresh_outcome a y w w' Hb Hn Hc Ht).
  assert (E : List.length (tw_rest w') = List.length (y_weights y)).
  { destruct Ht as (_ & _ & G). apply F2_len in G. rewrite <- G. rewrite (train_create_none a y Hb Hn) in Hc.
    injection Hc as <-. cbn. unfold fresh_weights. apply map_length. }
  destruct (y_weights y) as [|x [|x2 [|x3 l]]]; cbn [List.length] in *.
  - split; [split; eauto|]. intros iw [= <-]. destruct (tw_rest w'); [reflexivity|discriminate].
  - split; [split; [intros [? ?]; discriminate|lia]|discriminate].
  - split; [split; eauto|]. intros iw [= <-]. reflexivity.
  - split; [split; [intros [? ?]; discriminate|lia]|discriminate].
Qed.
Print Assumptions C65_other_layers_refuted.
(** Whole models (the SVD algorithm with different training and inference graphs). *)
Theorem C65_model_partial : forall svd rk layers, svd_shapes svd -> (1 <= rk)%Z -> Forall svd_layer layers ->
  exists ws iws, compress_model_train (different_svd svd rk) layers = Ok ws /\
    compress_model_infer (different_svd svd rk) ws = Ok iws /\ Forall2 (svd_result svd rk) layers iws.
Proof. intros svd rk layers H1 H2. exact (svd_model_ok svd rk H1 H2 layers). Qed.
Print Assumptions C65_model_partial.
Theorem C65_model_refuted : forall svd rk layers y, In y layers -> uncarried y ->
  (forall k, In k (y_weights y) -> wfv (lw_init k)) -> forall ws iws,
  compress_model_train (different_svd svd rk) layers = Ok ws -> compress_model_infer (different_svd svd rk) ws <> Ok iws.
Proof. exact svd_model_raises. Qed.
Print Assumptions C65_model_refuted.
Example C65_ex : Forall svd_layer [flatten; dense] /\ In batchnorm [dense; batchnorm] /\ uncarried batchnorm /\ uncarried dense_nobias /\
  (exists ws, compress_model_train (different_svd some_svd 1) [dense; batchnorm] = Ok ws /\
              compress_model_infer (different_svd some_svd 1) ws = Err ValueError) /\
  (exists ws, compress_model_train (different_svd some_svd 1) [dense_nobias] = Ok ws /\
              compress_model_infer (different_svd some_svd 1) ws = Err IndexError).
Proof.
  split. { constructor. right; split; [reflexivity|]. split; [intros [X|X]; discriminate X|reflexivity]. constructor; [|constructor]. left. exists k22, b2. apply dense_ok. }
  split; [cbn; auto|]. split. { right. split; [reflexivity|]. split; [intros [X|X]; discriminate X|cbn; split; lia]. }
  split; [left; exists k22; apply dense_nobias_ok|].
  split; (eexists; split; [vm_compute; reflexivity|vm_compute; reflexivity]).
Qed.

(** ** C66: layers with no compressible weight keep their trained weights.  False: they are re-initialised. *)
Theorem C66_refuted : forall a y, y_built y = true -> a_compressible a y = [] ->
  exists w, create_layer_for_training a y = Ok w /\ train_call a w = Ok (fresh_weights y, w) /\
            tw_get_weights w = map lw_init (y_weights y).
Proof. exact fresh_reset. Qed.
Print Assumptions C66_refuted.
Theorem C66_compressed_layers_partial : forall a y w, proper y -> dense_or_conv2d y -> shape_stable a ->
  (exists sel, a_compressible a y = map (fun x => Some (lw_name x)) (filter sel (y_weights y))) -> a_compressible a y <> [] ->
  (forall x, In x (y_weights y) -> exists vs, a_init a (lw_value x) = Ok vs) ->
  create_layer_for_training a y = Ok w ->
  forall x, In x (y_weights y) -> ~ In (Some (lw_name x)) (a_compressible a y) -> In (lw_name x, lw_value x) (tw_rest w).
Proof. exact other_weights_kept. Qed.
Print Assumptions C66_compressed_layers_partial.
(** Trained BatchNormalization statistics are gone. *)
Example C66_ex : exists w, create_layer_for_training (different_svd some_svd 1) batchnorm = Ok w /\
  tw_get_weights w = [fl [2] [1; 1]%Q; fl [2] [0; 0]%Q; fl [2] [0; 0]%Q; fl [2] [1; 1]%Q] /\ tw_get_weights w <> map lw_value (y_weights batchnorm).
Proof. eexists. split; [vm_compute; reflexivity|]. split; [reflexivity|discriminate]. Qed.

(** ** C67: the periodic SVD *)
Theorem C67_rank : forall target warmup full, (0 < warmup)%Z -> (0 <= target)%Z -> (0 <= full)%Z ->
  scheduled_rank target warmup full 0 = full /\
  (forall n, (warmup <= n)%Z -> scheduled_rank target warmup full n = Z.min full target) /\
  (forall n, (0 <= n)%Z -> Z.min full target <= scheduled_rank target warmup full n <= full)%Z /\
  (forall n1 n2, (0 <= n1 <= n2)%Z -> scheduled_rank target warmup full n2 <= scheduled_rank target warmup full n1)%Z.
Proof. exact scheduled_props. Qed.
Print Assumptions C67_rank.
(** After any history with [n] forward passes the counter is [n]; the next pass stores a kernel of the scheduled rank
    if [n] is a multiple of the update frequency and leaves it alone otherwise. *)
Theorem C67_history : forall svd target freq warmup, svd_shapes svd -> (0 <= target)%Z ->
  forall y k b t0 w0 n w, kernel_and_bias y k b -> lw_value k = VF t0 -> svd_kernel (lw_value k) ->
  create_layer_for_training (periodical_svd svd target freq warmup) y = Ok w0 ->
  history (periodical_svd svd target freq warmup) w0 n w ->
  exists t t' bv, tw_training w = [("kernel", [VF t; VI (mkT [] [Z.of_nat n])])] /\ shape t = shape t0 /\ shape t' = shape t0 /\
    train_call (periodical_svd svd target freq warmup) w =
      Ok ([("kernel", VF t); ("bias", bv)], mkTW y [("kernel", [VF t'; VI (mkT [] [Z.of_nat (S n)])])] [("bias", bv)]) /\
    ((Z.of_nat n mod freq)%Z = 0%Z -> rank_at_most (Z.to_nat (scheduled_rank target warmup (full_rank t0) (Z.of_nat n))) t') /\
    ((Z.of_nat n mod freq)%Z <> 0%Z -> t' = t).
Proof. intros svd target freq warmup Hs Ht y k b t0 w0 n w. exact (period_call svd target freq warmup Hs Ht y k b t0 w0 n w). Qed.
Print Assumptions C67_history.
Example C67_ex : (exists w0, create_layer_for_training (periodical_svd some_svd 1 100 1000) dense = Ok w0) /\
  map (scheduled_rank 4 1000 64) [0; 100; 500; 999; 1000; 5000]%Z = [64; 58; 34; 4; 4; 4]%Z.
Proof. split; [eexists; vm_compute; reflexivity|reflexivity]. Qed.

(** ** C92: a layer wrapped for compression-aware training starts from the trained weights *)
Theorem C92_different_svd : forall svd rk y k b, kernel_and_bias y k b ->
  exists w fw w', create_layer_for_training (different_svd svd rk) y = Ok w /\
    train_call (different_svd svd rk) w = Ok (fw, w') /\ fw = trained_weights y.
Proof. exact start_different. Qed.
Print Assumptions C92_different_svd.
Theorem C92_periodical_svd : forall svd rk f wm y k b, svd_shapes svd -> (0 <= rk)%Z -> kernel_and_bias y k b -> svd_kernel (lw_value k) ->
  exists w fw w', create_layer_for_training (periodical_svd svd rk f wm) y = Ok w /\
    train_call (periodical_svd svd rk f wm) w = Ok (fw, w') /\ fw = trained_weights y.
Proof. exact start_periodical. Qed.
Print Assumptions C92_periodical_svd.
Theorem C92_same_svd : forall svd rk y k b t, svd_shapes svd -> (1 <= rk)%Z -> kernel_and_bias y k b -> lw_value k = VF t -> wf t ->
  (rank t = 2 \/ rank t = 4) ->
  exists w w' t', create_layer_for_training (same_svd svd rk) y = Ok w /\
    train_call (same_svd svd rk) w = Ok ([("kernel", VF t'); ("bias", lw_value b)], w') /\ shape t' = shape t /\
    rank_at_most (Z.to_nat (Z.min rk (full_rank t))) t' /\ (svd_exact svd -> (full_rank t <= rk)%Z -> same_tensor t' t).
Proof.
  intros svd rk y k b t Hs Hk H E Wf R. destruct (svd_infer_kernel svd rk t Hs Hk Wf R) as (u & sv & Ef & Sh & Rk & Ex & _).
  do 3 eexists. split. { eapply kb_create; eauto. now apply ck_same. rewrite E. cbn [a_init same_svd]. rewrite Ef. reflexivity. }
  split; [reflexivity|]. auto.
Qed.
Print Assumptions C92_same_svd.
Theorem C92_bias_only : forall y k b t, kernel_and_bias y k b -> lw_value b = VF t ->
  exists w w', create_layer_for_training bias_only y = Ok w /\
    train_call bias_only w = Ok ([("bias", VF (mkT (shape t) (repeat (average (data t)) (prod (shape t))))); ("kernel", lw_value k)], w').
Proof. exact bias_start. Qed.
Print Assumptions C92_bias_only.
Theorem C92_weight_clustering : forall init n y k b t0 w0, sound_initialiser init -> kernel_and_bias y k b -> lw_value k = VF t0 ->
  create_layer_for_training (weight_clustering init n) y = Ok w0 ->
  exists cs t, List.length cs = Z.to_nat n /\
    train_call (weight_clustering init n) w0 = Ok ([("kernel", VF t); ("bias", lw_value b)], w0) /\ shape t = shape t0 /\
    forall idx, valid (shape t0) idx -> nearest_centroid cs (tget 0%Q t0 idx) (tget 0%Q t idx).
Proof.
  intros init n y k b t0 w0 Si H Hk Hc. destruct (wc_history init n Si y k b t0 w0 H Hk Hc) as (cs0 & L & Hn & Hh).
  destruct (Hh 0 w0 (h_start _ _)) as (cs & bv & E & L2 & Sb & X). rewrite (X eq_refl) in *.
  assert (bv = lw_value b) as ->.
  { destruct (a_init (weight_clustering init n) (lw_value k)) as [ts|] eqn:Ei.
    - rewrite (kb_create _ y k b ts (ck_wc init n Si) H Ei) in Hc. injection Hc as Hc. rewrite <- Hc in E. injection E. auto.
    - exfalso. assert (W : wf t0). { destruct H as ((_ & _ & Hall) & _ & Hw & _). destruct (Hall k) as (_ & _ & _ & W).
        rewrite Hw; now left. rewrite Hk in W. exact W. }
      unfold create_layer_for_training in Hc. destruct (kb_selected (weight_clustering init n) y k b H eq_refl) as (E1 & Sk & Sb1).
      destruct H as ((Hb & Hnd & Hall) & Hkind & Hw & Nk & Nb). rewrite Hb in Hc. cbn [negb] in Hc.
      destruct (compressible_names _ y) as [names|]; [|discriminate]. cbn [bind] in Hc.
      destruct (train_build _ names y) as [tw|]; [|discriminate]. cbn [bind] in Hc. rewrite E1 in Hc.
      unfold map_to_training_weights in Hc.
      change (fun w => existsb _ (a_compressible (weight_clustering init n) y)) with (selected (weight_clustering init n) y) in Hc.
      rewrite Hw in Hc. cbn [filter] in Hc. rewrite Sk, Sb1 in Hc. cbn [mapM] in Hc. rewrite Ei in Hc.
      destruct Hkind as [Hkind | Hkind]; rewrite Hkind in Hc; discriminate Hc. }
  exists cs0. eexists. split; auto. split. { rewrite E. apply wc_call. }
  split; [reflexivity|]. intros idx Hv.
  assert (W : wf t0). { destruct H as ((_ & _ & Hall) & _ & Hw & _). destruct (Hall k) as (_ & _ & _ & W).
    rewrite Hw; now left. rewrite Hk in W. exact W. }
  rewrite (tget_tmap _ 0%Z) by (cbn; auto; now apply tmap_wf, tmap_wf).
  rewrite (tget_tmap _ 0) by (cbn; auto; now apply tmap_wf).
  unfold get_pulling_indices. rewrite (tget_tmap _ 0%Q) by auto. rewrite Nat2Z.id. apply nearest_gather.
  intros ->. cbn in L. lia.
Qed.
Print Assumptions C92_weight_clustering.
Example C92_ex : exists w0 fw w1, create_layer_for_training (weight_clustering Linear 2) dense = Ok w0 /\
  train_call (weight_clustering Linear 2) w0 = Ok (fw, w1) /\
  map (fun p => match snd p with VF t => map Qred (data t) | VI _ => [] end) fw = [[1; 1; 4; 4]; [5; 7]]%Q.
Proof. do 3 eexists. split; [vm_compute; reflexivity|]. split; [vm_compute; reflexivity|]. vm_compute. reflexivity. Qed.

(** ** C93: the kernel of a clustering-compressed layer keeps at most [number_of_clusters] values during training *)
Theorem C93_distinct : forall init n y k b t0 w0 c w, sound_initialiser init -> kernel_and_bias y k b -> lw_value k = VF t0 ->
  create_layer_for_training (weight_clustering init n) y = Ok w0 -> history (weight_clustering init n) w0 c w ->
  exists t bv, train_call (weight_clustering init n) w = Ok ([("kernel", VF t); ("bias", bv)], w) /\ shape t = shape t0 /\
    at_most_distinct (Z.to_nat n) (data t).
Proof.
  intros init n y k b t0 w0 c w Si H Hk Hc Hh. destruct (wc_history init n Si y k b t0 w0 H Hk Hc) as (cs0 & L & Hn & Hall).
  destruct (Hall c w Hh) as (cs & bv & -> & L2 & _). do 2 eexists. split; [apply wc_call|]. split; [reflexivity|].
  rewrite <- L. apply wc_distinct; auto. intros ->. cbn in L. lia.
Qed.
Print Assumptions C93_distinct.
Example C93_ex : sound_initialiser Linear /\ exists w0, create_layer_for_training (weight_clustering Linear 2) dense = Ok w0.
Proof. split; [exact I|]. eexists. vm_compute. reflexivity. Qed.

(** ** C94: the inference layer computes with the compressed form of what was trained *)
(** SVD: kernel of rank at most [rk], equal to the trained one if [rk] is at least the full rank; it stores
    rank * (rows + columns) numbers per matrix. *)
Theorem C94_svd : forall svd rk t, svd_shapes svd -> (1 <= rk)%Z -> wf t -> (rank t = 2 \/ rank t = 4) ->
  exists cs t', a_compress (different_svd svd rk) [VF t] = Ok cs /\
    (forall st, a_compress (periodical_svd svd rk st st) [VF t; VI (mkT [] [st])] = Ok cs) /\
    a_decompress (different_svd svd rk) cs = Ok (VF t') /\ shape t' = shape t /\
    rank_at_most (Z.to_nat (Z.min rk (full_rank t))) t' /\
    (svd_exact svd -> (full_rank t <= rk)%Z -> same_tensor t' t) /\
    stored cs = prod (lead (shape t)) * (Z.to_nat (Z.min rk (full_rank t)) * (row2 (shape t) + col (shape t))).
Proof.
  intros svd rk t Hs Hk Wf R. destruct (svd_infer_kernel svd rk t Hs Hk Wf R) as (u & sv & Ef & Sh & Rk & Ex & St).
  exists [VF u; VF sv], (matmul u sv). cbn [a_compress different_svd periodical_svd a_decompress svd_decompress]. rewrite Ef.
  repeat split; auto; now apply Ex.
Qed.
Print Assumptions C94_svd.
(** The rank is not validated: a negative one silently means "all but the last ones" (Python slicing), not an error. *)
Theorem C94_negative_rank : forall svd rk t, svd_shapes svd -> (rk < 0)%Z -> (rank t = 2 \/ rank t = 4) ->
  a_compress (different_svd svd rk) [VF t] = a_compress (different_svd svd (Z.max 0 (full_rank t + rk))) [VF t].
Proof. intros svd rk t Hs Hk Hr. cbn [a_compress different_svd]. now rewrite (factorize_negative svd rk t Hs Hk Hr). Qed.
Print Assumptions C94_negative_rank.
(** Algorithms whose training variables are the compressed form: the forward passes agree. *)
Theorem C94_same_forward : forall a w fw w' iw, (forall l, a_compress a l = Ok l) ->
  (forall l v l', a_project a l = Ok (v, l') -> a_decompress a l = Ok v) ->
  train_call a w = Ok (fw, w') -> iw_compressed iw = tw_training w -> iw_rest iw = tw_rest w -> infer_call a iw = Ok fw.
Proof. exact same_forward. Qed.
Print Assumptions C94_same_forward.
Theorem C94_kernel_and_bias : forall a y k b ts w w' fw w'', compresses_kernel a -> kernel_and_bias y k b ->
  (forall l, a_compress a l = Ok l) -> (forall l v l', a_project a l = Ok (v, l') -> a_decompress a l = Ok v) ->
  a_init a (lw_value k) = Ok ts -> create_layer_for_training a y = Ok w -> trained w w' -> train_call a w' = Ok (fw, w'') ->
  exists iw, create_layer_for_inference a w' = Ok iw /\ infer_call a iw = Ok fw.
Proof.
  intros a y k b ts w w' fw w'' Ha H Hcp Hpr Hi Hc Ht Hcall.
  rewrite (kb_create a y k b ts Ha H Hi) in Hc. injection Hc as <-. apply trained_kb in Ht as (ts' & b' & -> & _ & Hb).
  eexists. split. { apply (kb_infer a y k b ts' b' ts' H); auto. destruct Hb as (E & _). rewrite <- E. eapply kb_shape; eauto. }
  eapply same_forward; eauto.
Qed.
Print Assumptions C94_kernel_and_bias.
Example C94_ex : (forall l, a_compress (weight_clustering Linear 2) l = Ok l) /\
  (forall l v l', a_project (weight_clustering Linear 2) l = Ok (v, l') -> a_decompress (weight_clustering Linear 2) l = Ok v) /\
  (forall l, a_compress (same_svd some_svd 3) l = Ok l) /\
  (forall l v l', a_project (same_svd some_svd 3) l = Ok (v, l') -> a_decompress (same_svd some_svd 3) l = Ok v).
Proof.
  repeat split; cbn [a_project a_decompress weight_clustering same_svd]; intros l v l'.
  - destruct (wc_decompress l); [|discriminate]. now intros [= <- <-].
  - destruct (svd_decompress l); [|discriminate]. now intros [= <- <-].
Qed.

(** ** C95: evaluating a wrapped layer does not change its weights.  False for the periodic SVD. *)
Theorem C95_refuted : exists w0 fw w1 fw', create_layer_for_training (periodical_svd some_svd 1 100 0) dense = Ok w0 /\
  train_call (periodical_svd some_svd 1 100 0) w0 = Ok (fw, w1) /\ w1 <> w0 /\
  (exists w2, train_call (periodical_svd some_svd 1 100 0) w1 = Ok (fw', w2)) /\
  map (fun p => match snd p with VF t => map Qred (data t) | VI _ => [] end) fw = [[1; 2; 3; 4]; [5; 7]]%Q /\
  map (fun p => match snd p with VF t => map Qred (data t) | VI _ => [] end) fw' = [[1; 0; 3; 0]; [5; 7]]%Q.
Proof.
  do 4 eexists. split; [vm_compute; reflexivity|]. split; [vm_compute; reflexivity|]. split; [discriminate|].
  split; [eexists; vm_compute; reflexivity|]. split; vm_compute; reflexivity.
Qed.
Print Assumptions C95_refuted.
(** The other algorithms leave the layer alone in a forward pass. *)
Theorem C95_other_algorithms_partial : forall a, 
  (a = bias_only \/ (exists init n, a = weight_clustering init n) \/ (exists svd rk, a = same_svd svd rk) \/ (exists svd rk, a = different_svd svd rk)) ->
  forall w fw w', train_call a w = Ok (fw, w') -> w' = w.
Proof.
  intros a Ha w fw w'. apply call_keeps. intros l v l'.
  destruct Ha as [-> | [(i & n & ->) | [(svd & rk & ->) | (svd & rk & ->)]]]; cbn [a_project bias_only weight_clustering same_svd different_svd].
  - destruct (bias_decompress l); [|discriminate]. now intros [= _ <-].
  - destruct (wc_decompress l); [|discriminate]. now intros [= _ <-].
  - destruct (svd_decompress l); [|discriminate]. now intros [= _ <-].
  - destruct l as [|x [|]]; try discriminate. now intros [= _ <-].
Qed.
Print Assumptions C95_other_algorithms_partial.

(** ** C96: the order in which an algorithm lists its compressible weights does not matter.  False. *)
Definition both (kernel_first : bool) : calg :=
  mkAlg (fun y => if kernel_first then [Some "kernel"; Some "bias"] else [Some "bias"; Some "kernel"])
    (fun v => Ok [v]) (fun l => match l with [v] => Ok (v, l) | _ => Err TypeError end) (fun l => Ok l)
    (fun l => match l with [v] => Ok v | _ => Err TypeError end).
Theorem C96_refuted : (exists w, create_layer_for_training (both true) dense = Ok w) /\
  create_layer_for_training (both false) dense = Err ValueError.
Proof. split; [eexists|]; vm_compute; reflexivity. Qed.
Print Assumptions C96_refuted.
(** Listed in the order of the layer's weights it always works. *)
Theorem C96_layer_order_partial : forall a y, proper y -> dense_or_conv2d y -> shape_stable a ->
  a_compressible a y = map (fun x => Some (lw_name x)) (filter (selected a y) (y_weights y)) -> a_compressible a y <> [] ->
  forall initv, (forall x, In x (y_weights y) -> a_init a (lw_value x) = Ok (initv x)) ->
  create_layer_for_training a y =
  Ok (mkTW y (map (fun x => (lw_name x, initv x)) (filter (selected a y) (y_weights y)))
             (map (fun x => (lw_name x, lw_value x)) (filter (fun x => negb (selected a y x)) (y_weights y)))).
Proof.
  intros a y Hp Hk Hst Ho Hne initv Hi. apply train_create; auto. intros x Hx. apply filter_In in Hx as [Hx _]. auto.
Qed.
Print Assumptions C96_layer_order_partial.
