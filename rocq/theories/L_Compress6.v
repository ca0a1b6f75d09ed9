From Coq Require Import String Ascii.
From Verif Require Import Base M_Tensor M_Num M_Stages M_Cluster M_Compress S_Cluster S_Compress L_Tensor L_Cluster L_Cluster4 L_Compress L_Compress2 L_Compress3 L_Compress4 L_Compress5.
Open Scope string_scope.
Open Scope list_scope.
Open Scope nat_scope.

(** ** Start *)
Lemma start_identity a y k b : compresses_kernel a -> kernel_and_bias y k b ->
  (exists st, a_init a (lw_value k) = Ok (lw_value k :: st) /\ exists st', a_project a (lw_value k :: st) = Ok (lw_value k, st')) ->
  exists w fw w', create_layer_for_training a y = Ok w /\ train_call a w = Ok (fw, w') /\ fw = trained_weights y.
Proof.
  intros Ha H (st & Hi & st' & Hp). eexists. do 2 eexists. split; [eapply kb_create; eauto|].
  split.
  - unfold train_call. cbn [tw_training mapM fst snd]. rewrite Hp. reflexivity.
  - cbn. destruct H as (_ & _ & Hw & Nk & Nb). unfold trained_weights. rewrite Hw. cbn. now rewrite Nk, Nb.
Qed.
Lemma start_different svd rk y k b : kernel_and_bias y k b ->
  exists w fw w', create_layer_for_training (different_svd svd rk) y = Ok w /\
    train_call (different_svd svd rk) w = Ok (fw, w') /\ fw = trained_weights y.
Proof. intros H. eapply start_identity; eauto. apply ck_different. eexists. split; [reflexivity|]. eexists. reflexivity. Qed.
Lemma start_periodical svd rk f wm y k b : svd_shapes svd -> (0 <= rk)%Z -> kernel_and_bias y k b -> svd_kernel (lw_value k) ->
  exists w fw w', create_layer_for_training (periodical_svd svd rk f wm) y = Ok w /\
    train_call (periodical_svd svd rk f wm) w = Ok (fw, w') /\ fw = trained_weights y.
Proof.
  intros Hs Hr H (t & E & Wf & R). eapply start_identity; eauto. apply ck_periodical. eexists. split; [reflexivity|].
  destruct (period_step svd rk f wm Hs Hr t 0 R) as (t' & Ep & _). eexists. cbn [a_project periodical_svd]. rewrite E. exact Ep.
Qed.

Lemma bias_start y k b t : kernel_and_bias y k b -> lw_value b = VF t ->
  exists w w', create_layer_for_training bias_only y = Ok w /\
    train_call bias_only w = Ok ([("bias", VF (mkT (shape t) (repeat (average (data t)) (prod (shape t))))); ("kernel", lw_value k)], w').
Proof.
  intros H Hb. eexists. eexists. split; [eapply bias_create; eauto|]. unfold train_call.
  cbn [tw_training mapM fst snd a_project bias_only bias_decompress data bind].
  assert (E : map Z.to_nat (map Z.of_nat (shape t)) = shape t).
  { rewrite map_map. rewrite <- (map_id (shape t)) at 2. apply map_ext. intros. apply Nat2Z.id. }
  rewrite E. reflexivity.
Qed.

(** ** Weight clustering *)
Section WC.
Variables (init : initialiser) (n : Z).
Hypothesis Si : sound_initialiser init.
Let alg := weight_clustering init n.

Lemma wc_history y k b t0 w0 : kernel_and_bias y k b -> lw_value k = VF t0 -> create_layer_for_training alg y = Ok w0 ->
  exists cs0, List.length cs0 = Z.to_nat n /\ (0 < n)%Z /\
  (forall c w, history alg w0 c w -> exists cs bv,
     w = mkTW y [("kernel", [VF (mkT [List.length cs] cs); VI (tmap Z.of_nat (get_pulling_indices cs0 t0))])] [("bias", bv)] /\
     List.length cs = List.length cs0 /\ stepped (lw_value b) bv /\ (w = w0 -> cs = cs0)).
Proof.
  intros H Hk Hc.
  destruct (a_init alg (lw_value k)) as [ts|e] eqn:Ei.
  2:{ exfalso. unfold create_layer_for_training in Hc. destruct (kb_selected alg y k b H eq_refl) as (E & Sk & Sb).
      destruct H as ((Hb & Hnd & Hall) & Hkind & Hw & Nk & Nb). rewrite Hb in Hc. cbn [negb] in Hc.
      destruct (compressible_names alg y) as [names|]; [|discriminate]. cbn [bind] in Hc.
      destruct (train_build alg names y) as [tw|]; [|discriminate]. cbn [bind] in Hc. rewrite E in Hc.
      unfold map_to_training_weights in Hc. change (fun w => existsb _ (a_compressible alg y)) with (selected alg y) in Hc.
      rewrite Hw in Hc. cbn [filter] in Hc. rewrite Sk, Sb in Hc. cbn [mapM] in Hc. rewrite Ei in Hc.
      destruct Hkind as [Hkind | Hkind]; rewrite Hkind in Hc; discriminate Hc. }
  rewrite (kb_create alg y k b ts (ck_wc init n Si) H Ei) in Hc. injection Hc as <-.
  destruct (wc_init_inv init n _ _ Ei) as (t & cs0 & Et & Hn & Hr & Ecs & ->). rewrite Hk in Et. injection Et as <-.
  exists cs0. split; [eapply cfi_length; eauto|]. split; auto.
  intros c w Hh. induction Hh as [|c w w' Hh IH Ht|c w fw w' Hh IH Hcall].
  - exists cs0, (lw_value b). split; [reflexivity|]. split; auto. split; auto.
    assert (W : wfv (lw_value b)). { destruct H as ((_ & _ & Hall) & _ & Hw & _). apply (Hall b). rewrite Hw. cbn; auto. }
    repeat split; auto.
  - destruct IH as (cs & bv & -> & L & Sb & _). apply trained_kb in Ht as (ts' & b' & -> & F & G).
    inversion F as [|? v1 ? r1 A B]; subst. inversion B as [|? v2 ? r2 C D]; subst. inversion D; subst.
    destruct A as (A1 & A2 & A3 & _). destruct v1 as [t1|]; [|discriminate]. cbn in A1, A2.
    destruct C as (_ & _ & _ & C). specialize (C eq_refl). subst v2.
    assert (Lt : List.length (data t1) = List.length cs). { unfold wf in A2. rewrite <- A1 in A2. cbn in A2. lia. }
    exists (data t1), b'. split. { destruct t1 as [s1 d1]. cbn in *. rewrite Lt, <- A1. reflexivity. }
    split; [congruence|]. split.
    + destruct Sb as (S1 & S2 & S3 & S4). destruct G as (G1 & G2 & G3 & G4). repeat split; try congruence.
      intros Hf. rewrite <- (S4 Hf). apply G4. congruence.
    + intros E. injection E as E _. destruct t1 as [s1 d1]. cbn in *. congruence.
  - destruct IH as (cs & bv & -> & L & Sb & X). unfold train_call in Hcall. cbn [tw_training mapM fst snd] in Hcall.
    cbn [a_project alg weight_clustering wc_decompress bind map fst snd tw_layer tw_rest] in Hcall.
    injection Hcall as _ <-. exists cs, bv. split; [reflexivity|]. auto.
Qed.

Lemma wc_call cs p y bv :
  train_call alg (mkTW y [("kernel", [VF (mkT [List.length cs] cs); VI p])] [("bias", bv)]) =
  Ok ([("kernel", VF (tmap (fun i => gather cs (Z.to_nat i)) p)); ("bias", bv)],
      mkTW y [("kernel", [VF (mkT [List.length cs] cs); VI p])] [("bias", bv)]).
Proof. reflexivity. Qed.
Lemma wc_distinct cs cs0 t0 : List.length cs = List.length cs0 -> cs0 <> [] ->
  at_most_distinct (List.length cs0) (data (tmap (fun i => gather cs (Z.to_nat i)) (tmap Z.of_nat (get_pulling_indices cs0 t0)))).
Proof.
  intros L Hne. exists cs. split; [lia|]. intros x Hx. cbn in Hx. rewrite !map_map in Hx.
  apply in_map_iff in Hx as (v & <- & _). rewrite Nat2Z.id. exists (gather cs (pulling_index cs0 v)). split; [|reflexivity].
  unfold gather. apply nth_In. rewrite L. destruct (pulling_index_spec cs0 v Hne) as (c & Hc & _).
  apply nth_error_Some. rewrite Hc. discriminate.
Qed.
End WC.

(** ** Models *)
Lemma mapM_Forall2 {A B} (f : A -> res B) (P : A -> B -> Prop) l : (forall x, In x l -> exists z, f x = Ok z /\ P x z) ->
  exists r, mapM f l = Ok r /\ Forall2 P l r.
Proof.
  induction l; intros H. { exists []. split; [reflexivity|constructor]. }
  destruct (H a) as (z & E & Pz); [now left|]. destruct IHl as (r & Er & F). { intros; apply H; now right. }
  exists (z :: r). cbn. rewrite E. cbn. rewrite Er. split; [reflexivity|]. constructor; auto.
Qed.
Lemma mapM_bad {A B} (f : A -> res B) l x : In x l -> (forall z, f x <> Ok z) -> forall r, mapM f l <> Ok r.
Proof.
  induction l; cbn; [tauto|]. intros [-> | Hi] Hb r.
  - destruct (f x) eqn:E; [exfalso; eapply Hb; eauto|]. discriminate.
  - destruct (f a); [|discriminate]. cbn. destruct (mapM f l) eqn:E; [|discriminate]. exfalso. eapply IHl; eauto.
Qed.
Lemma mapM_In_inv {A B} (f : A -> res B) l r x : mapM f l = Ok r -> In x l -> exists z, f x = Ok z /\ In z r.
Proof.
  revert r. induction l; cbn; [tauto|]. intros r. destruct (f a) as [b0|] eqn:E; [|discriminate]. cbn.
  destruct (mapM f l) eqn:F; [|discriminate]. cbn. intros [= <-] [-> | Hi].
  - exists b0. split; auto. now left.
  - destruct (IHl _ eq_refl Hi) as (z & Ez & Iz). exists z. split; auto. now right.
Qed.

Lemma trained_refl w : (forall v, In v (tw_get_weights w) -> wfv v) -> trained w w.
Proof.
  intros H. unfold trained, tw_get_weights in *. split; auto. split.
  - assert (H1 : forall p, In p (tw_training w) -> forall v, In v (snd p) -> wfv v).
    { intros p Hp v Hv. apply H. apply in_or_app. left. apply in_concat. exists (snd p). split; auto. now apply in_map. }
    clear H. induction (tw_training w) as [|p l IH]; constructor.
    + split; auto. assert (H2 : forall v, In v (snd p) -> wfv v) by (apply H1; now left). clear - H2.
      induction (snd p); constructor. repeat split; auto. apply H2; now left. apply IHl. intros; apply H2; now right.
    + apply IH. intros q Hq. apply H1. now right.
  - assert (H1 : forall p, In p (tw_rest w) -> wfv (snd p)).
    { intros p Hp. apply H. apply in_or_app. right. now apply in_map. }
    clear H. induction (tw_rest w) as [|p l IH]; constructor.
    + split; auto. repeat split; auto. apply H1; now left.
    + apply IH. intros q Hq. apply H1. now right.
Qed.

Lemma F2_len {A B} (R : A -> B -> Prop) l r : Forall2 R l r -> List.length l = List.length r.
Proof. induction 1; cbn; auto. Qed.
Section Model.
Variables (svd : svd_op) (rk : Z).
Hypothesis Hs : svd_shapes svd.
Hypothesis Hrk : (1 <= rk)%Z.
Let alg := different_svd svd rk.

Lemma svd_layer_ok y : svd_layer y -> exists w, create_layer_for_training alg y = Ok w /\
  exists iw, create_layer_for_inference alg w = Ok iw /\ svd_result svd rk y iw.
Proof.
  intros [(k & b & H & (t & E & Wf & R)) | (Hb & Hk & Hw)].
  - eexists. split; [eapply kb_create; eauto; [apply ck_different|reflexivity]|].
    destruct (svd_infer_kernel svd rk t Hs Hrk Wf R) as (u & sv & Ef & Sh & Rk & Ex & _).
    eexists. split.
    + apply kb_infer with (k := k) (b := b) (cs := [VF u; VF sv]); auto. eapply kb_shape; eauto.
      rewrite E. cbn [a_compress alg different_svd]. rewrite Ef. reflexivity.
    + unfold svd_result. pose proof H as (_ & _ & Hw & _ & _). rewrite Hw. exists t, (matmul u sv). split; auto.
  - assert (N : a_compressible alg y = []) by (cbn; unfold kernel_of, dense_or_conv2d in *; destruct (y_kind y); tauto).
    eexists. split; [now apply train_create_none|]. unfold fresh_weights. rewrite Hw. eexists. split; [reflexivity|].
    unfold svd_result. rewrite Hw. unfold infer_call. cbn. unfold rest_of. rewrite Hw. reflexivity.
Qed.

Lemma svd_model_ok layers : Forall svd_layer layers ->
  exists ws iws, compress_model_train alg layers = Ok ws /\ compress_model_infer alg ws = Ok iws /\ Forall2 (svd_result svd rk) layers iws.
Proof.
  induction 1 as [|y l H F IH]. { exists [], []. repeat split; constructor. }
  destruct IH as (ws & iws & E1 & E2 & F2). destruct (svd_layer_ok y H) as (w & Ew & iw & Ei & R).
  exists (w :: ws), (iw :: iws). unfold compress_model_train, compress_model_infer in *. cbn [mapM].
  rewrite Ew, Ei. cbn [bind]. rewrite E1, E2. cbn [bind]. split; auto.
Qed.

Lemma svd_model_raises layers y : In y layers -> uncarried y -> (forall k, In k (y_weights y) -> wfv (lw_init k)) -> forall ws iws,
  compress_model_train alg layers = Ok ws -> compress_model_infer alg ws <> Ok iws.
Proof.
  intros Hi Hu Hwf ws iws Ht. destruct (mapM_In_inv _ _ _ _ Ht Hi) as (w & Ew & Iw).
  apply (mapM_bad _ _ w Iw). destruct Hu as [(k & H) | (Hb & Hk & H0 & H2)].
  - intros z. apply (kernel_only_raises alg y k [lw_value k] w w (ck_different svd rk) H eq_refl ltac:(discriminate) Ew).
    pose proof (ko_create alg y k [lw_value k] (ck_different svd rk) H eq_refl) as E. rewrite Ew in E. injection E as ->.
    apply trained_refl. cbn. intros v [<- | []]. destruct H as ((_ & _ & Hall) & _ & Hw & _). apply (Hall k). rewrite Hw. now left.
  - assert (N : a_compressible alg y = []) by (cbn; unfold kernel_of, dense_or_conv2d in *; destruct (y_kind y); tauto).
    intros z. rewrite (fresh_outcome alg y w w Hb N Ew).
    + destruct (y_weights y) as [|x [|x2 [|x3 l]]]; cbn in *; try lia; discriminate.
    + apply trained_refl. rewrite (train_create_none alg y Hb N) in Ew. injection Ew as <-.
      unfold tw_get_weights, fresh_weights. cbn. rewrite map_map. cbn. intros v Hv. apply in_map_iff in Hv as (x & <- & Hx). auto.
Qed.
End Model.

(** ** Evaluation *)
Lemma call_keeps a w : (forall l v l', a_project a l = Ok (v, l') -> l' = l) -> forall fw w', train_call a w = Ok (fw, w') -> w' = w.
Proof.
  intros H fw w' Hc. unfold train_call in Hc.
  destruct (mapM _ (tw_training w)) as [ps|] eqn:E; [|discriminate]. cbn [bind] in Hc. injection Hc as _ <-.
  destruct w as [y tr rs]. cbn [tw_training tw_layer tw_rest] in *. f_equal.
  revert ps E. induction tr as [|[n l] tr IH]; intros ps E; cbn [mapM] in E. { injection E as <-. reflexivity. }
  cbn [fst snd] in E. destruct (a_project a l) as [[v l']|] eqn:Ep; [|discriminate]. cbn [bind] in E.
  destruct (mapM _ tr) as [ps'|] eqn:E'; [|discriminate]. cbn [bind] in E. injection E as <-. cbn. rewrite (IH _ eq_refl).
  now rewrite (H _ _ _ Ep).
Qed.

(** ** Training and inference forward agree for algorithms that store what they train. *)
Lemma same_forward a w fw w' iw : (forall l, a_compress a l = Ok l) ->
  (forall l v l', a_project a l = Ok (v, l') -> a_decompress a l = Ok v) ->
  train_call a w = Ok (fw, w') -> iw_compressed iw = tw_training w -> iw_rest iw = tw_rest w -> infer_call a iw = Ok fw.
Proof.
  intros Hc Hp Ht E1 E2. unfold infer_call. rewrite E1, E2. unfold train_call in Ht.
  destruct (mapM _ (tw_training w)) as [ps|] eqn:E; [|discriminate]. cbn [bind] in Ht. injection Ht as <- _.
  assert (mapM (fun p : string * list cv => do r <- a_decompress a (snd p);; Ok (fst p, r)) (tw_training w) =
          Ok (map (fun x => (fst x, fst (snd x))) ps)) as ->; [|reflexivity].
  clear -E Hp. revert ps E. induction (tw_training w) as [|[n l] tr IH]; intros ps E; cbn [mapM] in *. { injection E as <-. reflexivity. }
  cbn [fst snd] in *. destruct (a_project a l) as [[v l']|] eqn:Ep; [|discriminate]. cbn [bind] in E.
  destruct (mapM _ tr) as [ps'|] eqn:E'; [|discriminate]. cbn [bind] in E. injection E as <-.
  rewrite (Hp _ _ _ Ep). cbn [bind]. rewrite (IH _ eq_refl). reflexivity.
Qed.
