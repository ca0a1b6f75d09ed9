(** C119-C122: Entropy Penalized Reparameterization. *)
From Coq Require Import String Ascii.
From Verif Require Import Base M_Tensor L_Tensor M_Num L_Num M_Compress S_Compress M_Epr S_Epr L_Epr L_Epr2 L_Epr3 L_Epr4 L_Epr5 P_Compress.
Open Scope string_scope.
Open Scope list_scope.
Open Scope nat_scope.

(** * C119: the forward pass of training uses the latent weights rounded to the learned step *)
Theorem C119_dense : forall fast o w ls sc, positive o -> wf ls -> shape ls = [] ->
  exists v, a_project (algorithm fast o) (dense_weights fast w ls sc) = Ok (VF v, dense_weights fast w ls sc) /\ shape v = shape w /\ wf v /\
    forall idx, valid (shape w) idx -> quantized_to (step_at o ls idx) (tget 0%Q w idx) (tget 0%Q v idx).
Proof. exact dense_forward. Qed.
Print Assumptions C119_dense.
(** Convolution kernels: the inverse transform of coefficients rounded to their own steps. *)
Theorem C119_conv : forall fast o r ks ls sc, positive o -> wf ls -> shape ls = skipn 2 (shape r) ->
  exists x, a_project (algorithm fast o) (conv_weights fast r ks ls sc) = Ok (VF (o_irfft o (lead ks) x), conv_weights fast r ks ls sc) /\ shape x = shape r /\
    forall idx, valid (shape r) idx -> exists q, quantized_to (step_at o ls idx) (tget 0%Q r idx) q /\ (tget 0%Q x idx == o_sqrt o (prod (lead ks)) * q)%Q.
Proof. exact conv_forward. Qed.
Print Assumptions C119_conv.
(** Right after the training model is made, it computes with almost the pretrained weights. *)
Theorem C119_start_dense : forall fast o t, positive o -> wf t -> rank t = 1 \/ rank t = 2 ->
  exists tw v, a_init (algorithm fast o) (VF t) = Ok tw /\ a_project (algorithm fast o) tw = Ok (VF v, tw) /\ shape v = shape t /\ wf v /\
    forall idx, valid (shape t) idx -> (Qabs (tget 0 v idx - tget 0 t idx) <= (1 # 2) * o_exp o (-4))%Q.
Proof. exact dense_start. Qed.
Print Assumptions C119_start_dense.
Theorem C119_start_conv : forall fast o t, positive o -> transform o -> wf t -> conv_shape (shape t) ->
  exists tw v, a_init (algorithm fast o) (VF t) = Ok tw /\ a_project (algorithm fast o) tw = Ok (VF v, tw) /\ shape v = shape t /\ wf v /\
    forall idx, valid (shape t) idx -> (Qabs (tget 0 v idx - tget 0 t idx) <= (3 # 4) * (o_sqrt o (prod (lead (shape t))) * o_exp o (-4)))%Q.
Proof. exact conv_start. Qed.
Print Assumptions C119_start_conv.

(** An instance of the operations that satisfies all the contracts (not the real exp and FFT). *)
Definition toy_exp (x : Q) : Q := if Qle_bool 0 x then (1 + x)%Q else (/ (1 - x))%Q.
Definition toy_half (x : Q) : Q := Qred (inject_Z (round_half_even (x * 256)) / 256).
Definition toy_rfft (t : tensor Q) : tensor Q :=
  tab (rdft_shape (shape t)) (fun idx => match shape t, idx with
    | [k; _; _], [i; j; a; c] => if 2 * a + c <? k then tget 0%Q t [2 * a + c; i; j] else 0%Q
    | [_; w; _; _], [i; j; h; a; c] => if 2 * a + c <? w then tget 0%Q t [h; 2 * a + c; i; j] else 0%Q
    | _, _ => 0%Q
    end).
Definition toy_irfft (sp : list nat) (r : tensor Q) : tensor Q :=
  match sp, shape r with
  | [k], i :: j :: _ => tab [k; i; j] (fun idx => match idx with [a; i; j] => tget 0%Q r [i; j; a / 2; a mod 2] | _ => 0%Q end)
  | [h; w], i :: j :: _ => tab [h; w; i; j] (fun idx => match idx with [b; a; i; j] => tget 0%Q r [i; j; b; a / 2; a mod 2] | _ => 0%Q end)
  | _, _ => r
  end.
Definition base : Z := (2 ^ 32)%Z.
Fixpoint digits (l : list Z) : Z := match l with [] => 0%Z | z :: r => (z + 2 ^ 31 + base * digits r)%Z end.
Fixpoint undigits (n : nat) (c : Z) : list Z := match n with O => [] | S k => (c mod base - 2 ^ 31)%Z :: undigits k (c / base)%Z end.
Definition toy : epr_ops :=
  mkOps toy_exp (fun n => inject_Z (Z.of_nat n)) toy_half toy_rfft toy_irfft (fun _ => (mkT [] [0%Z], mkT [] [0%Z]))
    (fun _ s => digits (data s)) (fun _ sh c => Ok (mkT sh (undigits (prod sh) c))) (fun _ t => inject_Z (Z.of_nat (List.length (data t)))).
Lemma undigits_digits l : Forall int32 l -> undigits (List.length l) (digits l) = l.
Proof.
  assert (B : base = 4294967296%Z) by reflexivity. assert (P31 : (2 ^ 31 = 2147483648)%Z) by reflexivity. unfold int32. rewrite P31.
  induction 1 as [|z l H F IH]; [reflexivity|]. cbn [List.length digits undigits]. rewrite P31, B in *.
  assert (E : ((z + 2147483648 + 4294967296 * digits l) / 4294967296 = digits l)%Z) by (symmetry; apply (Z.div_unique _ _ _ (z + 2147483648)); lia).
  assert (E2 : ((z + 2147483648 + 4294967296 * digits l) mod 4294967296 = z + 2147483648)%Z) by (symmetry; apply (Z.mod_unique _ _ (digits l)); lia).
  rewrite E, E2, IH. f_equal. lia.
Qed.
Lemma undigits_len n c : List.length (undigits n c) = n. Proof. revert c. induction n; intros; cbn; auto. Qed.
Lemma toy_coder : coder toy.
Proof.
  split; [|split].
  - intros tb [s l] W F. cbn in *. unfold wf in W. cbn in W. rewrite <- W. now rewrite undigits_digits.
  - intros tb sh c s [= <-]. split; [reflexivity|]. unfold wf. cbn. apply undigits_len.
  - intros sc. cbn. split; constructor; try constructor; unfold in_int16; lia.
Qed.
Lemma toy_positive : positive toy.
Proof.
  split.
  - intros x. cbn. unfold toy_exp. destruct (Qle_bool 0 x) eqn:E.
    + apply Qle_bool_iff in E. apply Qlt_le_trans with 1%Q; [reflexivity|]. setoid_replace 1%Q with (1 + 0)%Q at 1 by ring. apply Qplus_le_r. exact E.
    + apply Qle_bool_false in E. apply Qinv_lt_0_compat. unfold Qminus. setoid_replace 0%Q with (1 + -1)%Q by ring. apply Qplus_lt_r. apply Qopp_lt_compat in E.
      eapply Qlt_trans; [|exact E]. reflexivity.
  - intros n H. cbn. change 0%Q with (inject_Z 0). rewrite <- Zlt_Qlt. lia.
Qed.
Lemma toy_one_to_one : one_to_one toy.
Proof.
  assert (A : forall x, (x < 0)%Q -> (0 < / (1 - x) < 1)%Q).
  { intros x H. assert (P : (1 < 1 - x)%Q) by (unfold Qminus; setoid_replace 1%Q with (1 + 0)%Q at 1 by ring; apply Qplus_lt_r; apply Qopp_lt_compat in H; exact H).
    split; [apply Qinv_lt_0_compat; eapply Qlt_trans; [|exact P]; reflexivity|]. setoid_replace 1%Q with (/ 1)%Q at 2 by reflexivity. assert (P0 : (0 < 1 - x)%Q) by (eapply Qlt_trans; [|exact P]; reflexivity). exact (proj1 (Qinv_lt_contravar 1 (1 - x) eq_refl P0) P). }
  intros x y. cbn. unfold toy_exp. destruct (Qle_bool 0 x) eqn:E, (Qle_bool 0 y) eqn:E2; rewrite ?Qle_bool_iff, ?Qle_bool_false in *; intros H.
  - apply (Qplus_inj_l x y 1). exact H.
  - destruct (A y E2) as [_ B]. rewrite <- H in B. exfalso. apply (Qlt_not_le _ _ B). setoid_replace 1%Q with (1 + 0)%Q at 1 by ring. apply Qplus_le_r. exact E.
  - destruct (A x E) as [_ B]. rewrite H in B. exfalso. apply (Qlt_not_le _ _ B). setoid_replace 1%Q with (1 + 0)%Q at 1 by ring. apply Qplus_le_r. exact E2.
  - assert (G : (1 - x == 1 - y)%Q) by (rewrite <- (Qinv_involutive (1 - x)), H, Qinv_involutive; reflexivity). unfold Qminus in G. apply Qplus_inj_l in G.
    setoid_replace x with (- (- x))%Q by ring. rewrite G. ring.
Qed.
Lemma half_lt a k : a < k -> a / 2 < k / 2 + 1 /\ a mod 2 < 2 /\ 2 * (a / 2) + a mod 2 = a.
Proof.
  intros H. pose proof (Nat.div_mod a 2 ltac:(lia)) as D. pose proof (Nat.mod_upper_bound a 2 ltac:(lia)) as M. pose proof (Nat.div_le_mono a k 2 ltac:(lia) ltac:(lia)) as L. repeat split; lia.
Qed.
Lemma inv3 (a b c : nat) idx : valid [a; b; c] idx -> exists x y z, idx = [x; y; z] /\ x < a /\ y < b /\ z < c.
Proof. intros V. inversion V as [|? ? ? ? V1 T1]; subst. inversion T1 as [|? ? ? ? V2 T2]; subst. inversion T2 as [|? ? ? ? V3 T3]; subst. inversion T3; subst. eauto 10. Qed.
Lemma inv4 (a b c d : nat) idx : valid [a; b; c; d] idx -> exists x y z t, idx = [x; y; z; t] /\ x < a /\ y < b /\ z < c /\ t < d.
Proof. intros V. inversion V as [|? ? ? ? V1 T1]; subst. apply inv3 in T1. destruct T1 as (y & z & t & -> & ?). eauto 10. Qed.
Lemma valid3 (a b c x y z : nat) : x < a -> y < b -> z < c -> valid [a; b; c] [x; y; z]. Proof. repeat constructor; assumption. Qed.
Lemma valid4 (a b c d x y z t : nat) : x < a -> y < b -> z < c -> t < d -> valid [a; b; c; d] [x; y; z; t]. Proof. repeat constructor; assumption. Qed.
Lemma valid5 (a b c d e x y z t u : nat) : x < a -> y < b -> z < c -> t < d -> u < e -> valid [a; b; c; d; e] [x; y; z; t; u]. Proof. repeat constructor; assumption. Qed.
Lemma toy_transform : transform toy.
Proof.
  split; [|split; [|split]].
  - intros t W R. split; [reflexivity|apply tab_wf].
  - intros s r [L _] Sr. cbn [o_irfft toy]. unfold toy_irfft. rewrite Sr. destruct s as [|a [|b [|c [|d [|e s]]]]]; cbn in L; try lia; cbn; split; try reflexivity; apply tab_wf.
  - intros t W [L _]. cbn [o_irfft o_rfft toy]. unfold toy_irfft. assert (Sr : shape (toy_rfft t) = rdft_shape (shape t)) by reflexivity. rewrite Sr.
    destruct t as [s l]. cbn [shape] in *. destruct s as [|a [|b [|c [|d [|e s]]]]]; cbn [List.length] in L; try lia; cbn [lead removelast rdft_shape].
    + split; [reflexivity|]. intros idx V. cbn [shape tab] in V. rewrite tget_tab by exact V. apply inv3 in V. destruct V as (x & y & z & -> & Hx & Hy & Hz). destruct (half_lt _ _ Hx) as (H1 & H3 & H4).
      unfold toy_rfft. cbn [shape rdft_shape]. rewrite tget_tab by (apply valid4; assumption). rewrite H4. destruct (Nat.ltb_spec x a); [reflexivity|lia].
    + split; [reflexivity|]. intros idx V. cbn [shape tab] in V. rewrite tget_tab by exact V. apply inv4 in V. destruct V as (x & y & z & t & -> & Hx & Hy & Hz & Ht). destruct (half_lt _ _ Hy) as (H1 & H3 & H4).
      unfold toy_rfft. cbn [shape rdft_shape]. rewrite tget_tab by (apply valid5; assumption). rewrite H4. destruct (Nat.ltb_spec y b); [reflexivity|lia].
  - intros s r r' e [L _] Sr Sr' He H idx V. cbn [o_irfft toy]. unfold toy_irfft. rewrite Sr, Sr'.
    assert (W : forall q, (q <= e -> q <= (3 # 2) * e)%Q). { intros q Hq. eapply Qle_trans; [exact Hq|]. setoid_replace e with (1 * e)%Q at 1 by ring. apply Qmult_le_compat_r; [discriminate|exact He]. }
    destruct s as [|a [|b [|c [|d [|f s]]]]]; cbn [List.length] in L; try lia; cbn [lead removelast rdft_shape] in *.
    + rewrite !tget_tab by exact V. apply inv3 in V. destruct V as (x & y & z & -> & Hx & Hy & Hz). destruct (half_lt _ _ Hx) as (H1 & H5 & H6). apply W, H. apply valid4; assumption.
    + rewrite !tget_tab by exact V. apply inv4 in V. destruct V as (x & y & z & t & -> & Hx & Hy & Hz & Ht). destruct (half_lt _ _ Hy) as (H1 & H6 & H7). apply W, H. apply valid5; assumption.
Qed.
Example C119_ex : positive toy /\ transform toy /\ (o_exp toy (-4) == 1 # 5)%Q /\
  (exists v, a_project (algorithm false toy) (dense_weights false (mkT [2] [1#2; 3#5]%Q) (fill [] (-4)) (fill [] 0)) = Ok (VF v, dense_weights false (mkT [2] [1#2; 3#5]%Q) (fill [] (-4)) (fill [] 0)) /\
     map Qred (data v) = [2#5; 3#5]%Q) /\ conv_shape [3; 2; 1; 1].
Proof. split; [exact toy_positive|]. split; [exact toy_transform|]. split; [reflexivity|]. split; [eexists; split; [reflexivity|vm_compute; reflexivity]|]. split; [now right|repeat constructor]. Qed.

(** * C120: the compressed model computes with the weights of the training model *)
Theorem C120_dense_partial : forall fast o w ls sc, positive o -> coder o -> 1 <= rank w <= 2 -> small (shape w) -> wf ls -> shape ls = [] ->
  (forall idx, valid (shape w) idx -> moderate (step_at o ls idx) (tget 0%Q w idx)) ->
  exists v c v', a_project (algorithm fast o) (dense_weights fast w ls sc) = Ok (VF v, dense_weights fast w ls sc) /\
    a_compress (algorithm fast o) (dense_weights fast w ls sc) = Ok c /\ a_decompress (algorithm fast o) c = Ok (VF v') /\ shape v' = shape w /\ shape v = shape w /\
    (forall idx, valid (shape w) idx -> (tget 0 v' idx * step_at o ls idx == tget 0 v idx * stored_step_at o ls idx)%Q) /\
    (representable o ls -> v' = v).
Proof. exact dense_round_trip. Qed.
Print Assumptions C120_dense_partial.
Theorem C120_conv_partial : forall fast o r ks ls sc, positive o -> coder o -> conv_shape ks -> small ks -> shape r = rdft_shape ks -> wf ls -> shape ls = skipn 2 (rdft_shape ks) ->
  (forall idx, valid (shape r) idx -> moderate (step_at o ls idx) (tget 0%Q r idx)) ->
  exists x c x', a_project (algorithm fast o) (conv_weights fast r ks ls sc) = Ok (VF (o_irfft o (lead ks) x), conv_weights fast r ks ls sc) /\
    a_compress (algorithm fast o) (conv_weights fast r ks ls sc) = Ok c /\ a_decompress (algorithm fast o) c = Ok (VF (o_irfft o (lead ks) x')) /\ shape x = shape r /\ shape x' = shape r /\
    (forall idx, valid (shape r) idx -> (tget 0 x' idx * step_at o ls idx == tget 0 x idx * stored_step_at o ls idx)%Q) /\
    (representable o ls -> x' = x).
Proof. exact conv_round_trip. Qed.
Print Assumptions C120_conv_partial.
(** A learned step that half precision does not hold: every non-zero weight of the layer changes. *)
Theorem C120_half_precision_refuted : forall fast o w ls sc v c v', positive o -> coder o -> one_to_one o -> 1 <= rank w <= 2 -> small (shape w) -> wf ls -> shape ls = [] ->
  (forall idx, valid (shape w) idx -> moderate (step_at o ls idx) (tget 0%Q w idx)) ->
  a_project (algorithm fast o) (dense_weights fast w ls sc) = Ok (VF v, dense_weights fast w ls sc) ->
  a_compress (algorithm fast o) (dense_weights fast w ls sc) = Ok c -> a_decompress (algorithm fast o) c = Ok (VF v') ->
  ~ (o_half o (tget 0 ls []) == tget 0 ls [])%Q -> forall idx, valid (shape w) idx -> (tget 0 v' idx == tget 0 v idx)%Q <-> (tget 0 v idx == 0)%Q.
Proof. exact dense_changed. Qed.
Print Assumptions C120_half_precision_refuted.
(** A dimension of 65536 or more: the weight never comes back in its shape. *)
Theorem C120_large_refuted : forall fast o w ls sc c v', coder o -> 1 <= rank w <= 2 -> shape ls = [] -> Exists (fun d => (65536 <= Z.of_nat d)%Z) (shape w) ->
  a_compress (algorithm fast o) (dense_weights fast w ls sc) = Ok c -> a_decompress (algorithm fast o) c = Ok (VF v') -> shape v' <> shape w.
Proof. exact large_lost. Qed.
Print Assumptions C120_large_refuted.
Example C120_ex : coder toy /\ one_to_one toy /\ representable toy (fill [] (-4)) /\ ~ (o_half toy (- 401 # 100) == - 401 # 100)%Q /\ small [3; 2; 1; 1] /\
  (exists c v', a_compress (algorithm true toy) (dense_weights true (mkT [2] [1#2; 3#5]%Q) (fill [] (-4)) (fill [] 0)) = Ok c /\
     a_decompress (algorithm true toy) c = Ok (VF v') /\ map Qred (data v') = [2#5; 3#5]%Q).
Proof.
  split; [exact toy_coder|]. split; [exact toy_one_to_one|]. split; [constructor; [reflexivity|constructor]|]. split; [discriminate|]. split; [repeat constructor|].
  eexists. eexists. split; [reflexivity|]. split; [vm_compute; reflexivity|reflexivity].
Qed.

(** * C121: whole layers and models *)
(** Dense and Conv2D layers with bias: the inference layer computes with exactly the weights of the training layer's forward pass, after any training. *)
Theorem C121_layer_partial : forall fast o y k b tk tb, positive o -> transform o -> coder o -> kernel_and_bias y k b ->
  lw_value k = VF tk -> lw_value b = VF tb -> (rank tk = 2 \/ conv_shape (shape tk)) -> rank tb = 1 -> small (shape tk) -> small (shape tb) ->
  exists w, create_layer_for_training (algorithm fast o) y = Ok w /\
  forall w', trained w w' -> Forall (fun p => well_scaled fast o (snd p)) (tw_training w') ->
  exists iw fw, create_layer_for_inference (algorithm fast o) w' = Ok iw /\ train_call (algorithm fast o) w' = Ok (fw, w') /\ infer_call (algorithm fast o) iw = Ok fw.
Proof. exact layer_carried. Qed.
Print Assumptions C121_layer_partial.
(** Conv1D, although listed as compressible: no training model exists. *)
Theorem C121_conv1d_refuted : forall fast o layers y k reg, In y layers -> conv1d_layer y k -> forall m, get_training_model (algorithm fast o) layers reg <> Ok m.
Proof. exact model_fails. Qed.
Print Assumptions C121_conv1d_refuted.
(** Dense and Conv2D layers without bias: the training layer exists, the inference layer never does. *)
Theorem C121_without_bias_refuted : forall fast o y k tk w w', transform o -> kernel_only y k -> lw_value k = VF tk -> (rank tk = 2 \/ rank tk = 4) ->
  create_layer_for_training (algorithm fast o) y = Ok w -> trained w w' -> create_layer_for_inference (algorithm fast o) w' = Err IndexError.
Proof. exact no_bias_raises. Qed.
Print Assumptions C121_without_bias_refuted.
(** Layers without compressible weights, e.g. BatchNormalization: an inference layer exists only for none or two weights. *)
Theorem C121_other_layers_refuted : forall fast o y w w', y_built y = true -> y_kind y = KOther -> create_layer_for_training (algorithm fast o) y = Ok w -> trained w w' ->
  ((exists iw, create_layer_for_inference (algorithm fast o) w' = Ok iw) <-> (List.length (y_weights y) = 0 \/ List.length (y_weights y) = 2)).
Proof.
  intros fast o y w w' Hb Hk Hc Ht. apply (C65_other_layers_refuted (algorithm fast o) y w w' Hb); auto.
  destruct fast; cbn; unfold epr_compressible; rewrite Hk; reflexivity.
Qed.
Print Assumptions C121_other_layers_refuted.
Definition k311 : lweight := mkLW "kernel" "conv1d/kernel:0" (zeros [3; 1; 1]) (VF (mkT [3; 1; 1] [1; 2; 3]%Q)).
Definition conv1d : ylayer := mkY "conv1d" KConv1D true [k311].
Example C121_ex : kernel_and_bias dense k22 b2 /\ conv1d_layer conv1d k311 /\ create_layer_for_training (algorithm false toy) conv1d = Err ValueError /\
  kernel_only dense_nobias k22 /\ (exists w, create_layer_for_training (algorithm false toy) dense_nobias = Ok w /\ create_layer_for_inference (algorithm false toy) w = Err IndexError) /\
  (exists w iw, create_layer_for_training (algorithm false toy) dense = Ok w /\ create_layer_for_inference (algorithm false toy) w = Ok iw /\ Forall (fun p => well_scaled false toy (snd p)) (tw_training w)).
Proof.
  split; [apply dense_ok|]. split. { split; [|split; [reflexivity|split; [reflexivity|now left]]]. split; [reflexivity|]. split; [repeat constructor; cbn; tauto|]. cbn. intuition (subst; repeat split). }
  split; [vm_compute; reflexivity|]. split; [apply dense_nobias_ok|]. split; [eexists; split; [reflexivity|vm_compute; reflexivity]|].
  do 2 eexists. split; [reflexivity|]. split; [vm_compute; reflexivity|].
  assert (X : forall s l sc, (forall q, In q l -> (Qabs q <= 100)%Q) -> well_scaled false toy (dense_weights false (mkT s l) (fill [] (-4)) sc)).
  { intros s l sc H w ls [(sc' & E) | (ks & sc' & E)]; [|discriminate E]. injection E as <- <- _. split; [constructor; [reflexivity|constructor]|].
    intros idx V. unfold moderate, step_at. change (rank (fill [] (-4)%Q)) with 0. rewrite Nat.sub_0_r, skipn_all. change (o_exp toy (tget 0%Q (fill [] (-4)) [])) with (1 # 5)%Q.
    eapply Qle_trans; [|assert (B : (100 <= (2 ^ 31 - 2) * (1 # 5))%Q) by (vm_compute; discriminate); exact B].
    unfold tget. destruct (Nat.lt_ge_cases (ravel (shape (mkT s l)) idx) (List.length (data (mkT s l)))) as [L | L]; [apply H, nth_In; exact L|]. rewrite nth_overflow by exact L. discriminate. }
  constructor; [|constructor; [|constructor]]; apply X; cbn; intuition (subst; discriminate).
Qed.

(** * C122: which attributes of the layer are replaced, and the penalty *)
Theorem C122_attributes_partial : forall ph a v r, NoDup (map snd ph) -> (forall n i, In (n, i) ph -> n <> "") -> readable_after ph ((a, Some v) :: r) ->
  exists m, attr_name_map ph ((a, Some v) :: r) = Ok m /\ forall a' n, In (a', n) m <-> holds ph ((a, Some v) :: r) a' n.
Proof. exact attr_map_ok. Qed.
Print Assumptions C122_attributes_partial.
(** An attribute that raises AttributeError directly after one that holds a weight is overwritten with that weight. *)
Theorem C122_attributes_refuted : forall ph pre a i n b r m, NoDup (map snd ph) -> In (n, i) ph -> n <> "" ->
  attr_name_map ph (pre ++ (a, Some (Some i)) :: (b, None) :: r) = Ok m -> In (b, n) m.
Proof.
  intros ph pre a i n b r m D I Ne. unfold attr_name_map. generalize (match rev ph with p :: _ => Some (Some (fst p)) | [] => None end). revert m.
  induction pre as [|[x v] pre IH]; intros m name H; cbn [app attr_loop] in H.
  - destruct (by_tensor ph i D) as [(n' & I' & E) | [N _]]; [|exfalso; apply N; exact (in_map snd _ _ I)]. rewrite (unique_name ph n' n i D I' I) in E. rewrite E in H.
    destruct (attr_loop ph (Some (Some n)) r) as [m0|]; [|discriminate H]. cbn [bind] in H. destruct (String.eqb_spec n ""); [contradiction|]. injection H as <-. right. now left.
  - destruct (match v with Some v => Some (name_by_tensor ph v) | None => name end) as [o|] eqn:E; [|discriminate H].
    destruct (attr_loop ph (Some o) _) as [m0|] eqn:E2; [|discriminate H]. cbn [bind] in H. apply IH in E2. injection H as <-. destruct o as [q|]; [|exact E2]. destruct (String.eqb q ""); [exact E2|now right].
Qed.
Print Assumptions C122_attributes_refuted.
(** The regularization weight is divided by the number of parameters of the original model; models without parameters are rejected. *)
Theorem C122_penalty : forall fast o layers reg ws weight, get_training_model (algorithm fast o) layers reg = Ok (ws, weight) ->
  (weight * inject_Z (Z.of_nat (parameters layers)) == reg)%Q /\ parameters layers <> 0.
Proof.
  intros fast o layers reg ws weight. rewrite <- count_parameters. unfold get_training_model. destruct (compress_model_train _ _) as [w|]; [|discriminate]. cbn [bind]. destruct (Nat.eqb_spec (count_params layers) 0) as [|N]; [discriminate|].
  intros [= _ <-]. split; [|exact N]. field. intro H. apply N. unfold Qeq in H. cbn in H. lia.
Qed.
Print Assumptions C122_penalty.
(** Each compressed weight is charged that factor times its code length. *)
Theorem C122_losses : forall fast o weight ws, positive o -> Forall (fun tw => reparameterized fast (snd tw)) (flat_map tw_training ws) ->
  exists ls, losses (loss_of fast o) weight ws = Ok ls /\ Forall2 (fun tw l => charged fast o weight (snd tw) l) (flat_map tw_training ws) ls.
Proof. exact losses_ok. Qed.
Print Assumptions C122_losses.
Theorem C122_no_parameters_refuted : forall fast o y reg, y_built y = true -> y_kind y = KOther -> y_weights y = [] -> get_training_model (algorithm fast o) [y] reg = Err ZeroDivisionError.
Proof.
  intros fast o y reg Hb Hk Hw. unfold get_training_model, compress_model_train. cbn [mapM]. unfold create_layer_for_training. rewrite Hb. cbn [negb]. unfold compressible_names.
  assert (E : a_compressible (algorithm fast o) y = []) by (destruct fast; cbn; unfold epr_compressible; rewrite Hk; reflexivity). rewrite E. cbn. unfold count_params. cbn. rewrite Hw. reflexivity.
Qed.
Print Assumptions C122_no_parameters_refuted.
Example C122_ex : attr_name_map [("kernel", 1); ("bias", 2)] [("activation", Some None); ("bias", Some (Some 2)); ("bias_initializer", Some None); ("input", None); ("kernel", Some (Some 1)); ("kernel_initializer", Some None); ("output", None)]
    = Ok [("bias", "bias"); ("kernel", "kernel")] /\
  readable_after [("kernel", 1); ("bias", 2)] [("activation", Some None); ("bias", Some (Some 2)); ("bias_initializer", Some None); ("input", None); ("kernel", Some (Some 1)); ("kernel_initializer", Some None); ("output", None)] /\
  attr_name_map [("kernel", 1)] [("activation", Some None); ("kernel", Some (Some 1)); ("kernel_norm", None)] = Ok [("kernel", "kernel"); ("kernel_norm", "kernel")] /\
  (exists ws, get_training_model (algorithm true toy) [dense] 6 = Ok (ws, (6 / inject_Z 6)%Q)) /\ y_kind flatten = KOther /\
  (exists w, create_layer_for_training (algorithm true toy) dense = Ok w /\ Forall (fun tw => reparameterized true (snd tw)) (flat_map tw_training [w])).
Proof. split; [reflexivity|]. split; [cbn; tauto|]. split; [reflexivity|]. split; [eexists; reflexivity|]. split; [reflexivity|].
  eexists. split; [reflexivity|]. repeat constructor; (do 2 eexists; exists (fill [] 0); split; [|left; split; [|reflexivity]]; reflexivity). Qed.
