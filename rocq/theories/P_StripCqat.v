(** strip_clustering_cqat: C111, C112. *)
From Coq Require Import String.
From Verif Require Import Base M_Num M_Tensor M_Quant M_Cluster M_ClusterWrapper M_Preserve M_Tools M_StripCqat S_StripCqat L_StripCqat.
Open Scope string_scope.
Open Scope nat_scope.
Open Scope list_scope.

(** ** C111 *)
(** For a functional or Sequential model, or a layer, all of whose Conv2D and Dense wrappers have the usual names, the call
    succeeds and removes exactly the clustering variables. *)
Theorem C111_strip_partial : forall n, usual n -> (forall i, n <> NThing i) -> exists n', strip_clustering_cqat n = Ok n' /\ stripped n n'.
Proof. exact strip_usual. Qed.
Print Assumptions C111_strip_partial.
Theorem C111_subclassed_partial : forall ch, Forall usual ch -> exists ch', strip_clustering_cqat (NSubclassed (Some ch)) = Ok (NGraph ch') /\ Forall2 stripped ch ch'.
Proof. exact strip_subclassed. Qed.
Print Assumptions C111_subclassed_partial.
(** What [removed] means: nothing of the kind is left, everything else is kept. *)
Theorem C111_removed : forall P l l', removed P l l' -> (forall v, In v l' -> ~ P v /\ In v l) /\ (forall v, In v l -> ~ P v -> In v l').
Proof. intros P l l' R. split; [exact (removed_none P l l' R)|exact (removed_all P l l' R)]. Qed.
Print Assumptions C111_removed.
(** REFUTED: the model passed in keeps its variables.  It is stripped as well: after the call it is the result. *)
Theorem C111_argument_refuted : forall n n', usual n -> strip_clustering_cqat n = Ok n' -> strip_effect n = n'.
Proof. exact strip_in_place. Qed.
Print Assumptions C111_argument_refuted.
(** REFUTED for names: a Dense layer the user called "depthwise_head" keeps all its clustering variables ... *)
Definition cents : cvariable := mkVar 1 "depthwise_head/cluster_centroids_tf:0".
Theorem C111_depthwise_refuted : forall k tw ntw, strip_clustering_cqat (NWrap k "depthwise_head" tw ntw) = Ok (NWrap k "depthwise_head" tw ntw) /\ clustering_variable cents.
Proof. intros k tw ntw. split; [reflexivity|]. exists "depthwise_head". now left. Qed.
Print Assumptions C111_depthwise_refuted.
(** ... and a layer inside a scope called after the centroids loses its kernel from the trainable weights. *)
Definition kernel_v : cvariable := mkVar 2 "my_cluster_centroids_tf/dense/kernel:0".
Theorem C111_scope_refuted : strip_clustering_cqat (NWrap InnerDense "dense" [kernel_v] []) = Ok (NWrap InnerDense "dense" [] []) /\ ~ clustering_variable kernel_v.
Proof.
  split; [reflexivity|]. intros (scope & H). cbn [v_name kernel_v] in H.
  assert (K : forall a s t, s = (a ++ t)%string -> exists n, n <= String.length s /\ substring n (String.length s - n) s = t).
  { clear. intros a s t ->. exists (String.length a). induction a as [|x a IH]; cbn.
    - split; [lia|]. rewrite Nat.sub_0_r. induction t as [|x t IH]; [reflexivity|]. cbn. now rewrite IH.
    - destruct IH as [L IH]. split; [lia|exact IH]. }
  assert (D : forall t, In t ["/cluster_centroids_tf:0"; "/ori_weights_vars_tf:0"; "/pulling_indices_tf:0"] -> v_name kernel_v <> (scope ++ t)%string).
  { intros t I E. destruct (K _ _ _ E) as (n & L & Q). cbn in L. clear E H K. revert I Q. do 39 (destruct n as [|n]; [vm_compute; intuition (subst; discriminate)|]). lia. }
  destruct H as [H|[H|H]]; revert H; apply D; cbn; auto.
Qed.
Print Assumptions C111_scope_refuted.
(** REFUTED for subclassed models: inside another model they are rejected, and on their own they need an attribute [model]. *)
Theorem C111_nested_refuted : forall m l r, Forall usual l -> strip_clustering_cqat (NGraph (l ++ NSubclassed m :: r)) = Err ValueError.
Proof.
  intros m l r U. cbn [strip_clustering_cqat]. rewrite strip_graph. cut (mapM strip_ops (l ++ NSubclassed m :: r) = Err ValueError); [now intros -> |].
  induction U as [|a l Ua U IH]; [reflexivity|]. cbn [app mapM]. destruct (usual_strips a Ua) as (a' & -> & _). cbn [bind]. now rewrite IH.
Qed.
Print Assumptions C111_nested_refuted.
Theorem C111_no_model_refuted : strip_clustering_cqat (NSubclassed None) = Err AttributeError.
Proof. reflexivity. Qed.
Print Assumptions C111_no_model_refuted.
Definition cv_kernel := mkVar 0 "quant_dense/kernel:0".
Definition cv_cent := mkVar 1 "quant_dense/cluster_centroids_tf:0".
Definition cv_orig := mkVar 2 "quant_dense/ori_weights_vars_tf:0".
Definition cv_idx := mkVar 3 "quant_dense/pulling_indices_tf:0".
Definition cv_min := mkVar 4 "quant_dense/kernel_min:0".
Definition cqat_model := NGraph [NLayer 0; NWrap InnerDense "dense" [cv_kernel; cv_cent; cv_orig] [cv_min; cv_idx]; NWrap InnerOther "relu" [] [cv_min]].
Lemma not_contains sub s : contains sub s = false -> ~ occurs_in sub s.
Proof. intros E O. apply contains_occurs in O. congruence. Qed.
Example C111_ex : usual cqat_model /\ strip_clustering_cqat cqat_model = Ok (NGraph [NLayer 0; NWrap InnerDense "dense" [cv_kernel] [cv_min]; NWrap InnerOther "relu" [] [cv_min]]).
Proof.
  split; [|reflexivity].
  assert (U : forall k name tw ntw, contains "depthwise" name = false ->
    (forall v, In v tw -> clustering_variable v \/ contains "cluster_centroids_tf" (v_name v) || contains "ori_weights_vars_tf" (v_name v) || contains "pulling_indices_tf" (v_name v) = false)%bool ->
    (forall v, In v ntw -> clustering_variable v \/ contains "cluster_centroids_tf" (v_name v) || contains "ori_weights_vars_tf" (v_name v) || contains "pulling_indices_tf" (v_name v) = false)%bool ->
    (forall v, In v tw -> contains "/pulling_indices_tf:0" (v_name v) = false) ->
    (forall v, In v ntw -> contains "cluster_centroids_tf" (v_name v) = false /\ contains "ori_weights_vars_tf" (v_name v) = false) -> usual (NWrap k name tw ntw)).
  { assert (M : forall s, (contains "cluster_centroids_tf" s || contains "ori_weights_vars_tf" s || contains "pulling_indices_tf" s = false)%bool -> ~ marker s).
    { intros s E. apply orb_false_iff in E. destruct E as [E E3]. apply orb_false_iff in E. destruct E as [E1 E2]. intros [O|[O|O]]; revert O; now apply not_contains. }
    intros k name tw ntw D T N A B. apply us_wrap.
    - now apply not_contains.
    - intros v I. destruct (T v I); [now left|right; now apply M].
    - intros v I. destruct (N v I); [now left|right; now apply M].
    - split; intros v I; [apply not_contains; now apply A|split; apply not_contains; now apply B]. }
  apply us_graph. constructor; [constructor|]. constructor; [|constructor; [|constructor]].
  - apply U; [reflexivity| | | |].
    + intros v [<-|[<-|[<-|[]]]]; [right; reflexivity|left; exists "quant_dense"; now left|left; exists "quant_dense"; right; now left].
    + intros v [<-|[<-|[]]]; [right; reflexivity|left; exists "quant_dense"; right; now right].
    + intros v [<-|[<-|[<-|[]]]]; reflexivity.
    + intros v [<-|[<-|[]]]; split; reflexivity.
  - apply U; [reflexivity|intros v []| |intros v []|].
    + intros v [<-|[]]; right; reflexivity.
    + intros v [<-|[]]; split; reflexivity.
Qed.

(** ** C112 *)
(** In inference a stripped layer computes what the plain quantized layer with its kernel and range computes. *)
Theorem C112_inference_partial : forall k df flag v y v', cp_call k df flag false v = Ok (y, v') ->
  cp_call k df false false (plain_qat v) = Ok (y, plain_qat v').
Proof. exact stripped_inference. Qed.
Print Assumptions C112_inference_partial.
(** REFUTED for training: stripping leaves the quantizer with its clustering variables, now outside the layer's weights; every
    further training pass overwrites the kernel with the same clustered weights, whatever an optimizer did to it. *)
Theorem C112_training_refuted : forall k df v y v' evs v1, cp_cluster v <> None -> cp_call k df false true v = Ok (y, v') -> s_run k df false v' evs = Ok v1 ->
  forall y2 v2, cp_call k df false true v1 = Ok (y2, v2) -> cp_kernel v2 = cp_kernel v'.
Proof. exact stripped_training. Qed.
Print Assumptions C112_training_refuted.
Example C112_ex : exists v0 y v', cp_build KDense ChannelsLast false (mkT [2; 2] [0; 1; 2; 0]%Q) = Ok (false, v0) /\ cp_cluster v0 <> None /\
  cp_call KDense ChannelsLast false true v0 = Ok (y, v') /\ exists v1 y2 v2, s_run KDense ChannelsLast false v' [SKernel (mkT [2; 2] [5; 5; 5; 5]%Q); SPass false] = Ok v1 /\
  cp_kernel v1 = mkT [2; 2] [5; 5; 5; 5]%Q /\ cp_call KDense ChannelsLast false true v1 = Ok (y2, v2).
Proof.
  assert (B : exists v0, cp_build KDense ChannelsLast false (mkT [2; 2] [0; 1; 2; 0]%Q) = Ok (false, v0)) by (eexists; vm_compute; reflexivity). destruct B as (v0 & B). pose proof B as B'. vm_compute in B'. injection B' as B'.
  exists v0. subst v0. do 2 eexists. split; [vm_compute; reflexivity|]. split; [discriminate|]. split; [vm_compute; reflexivity|]. do 3 eexists. split; [vm_compute; reflexivity|]. split; [reflexivity|]. vm_compute. reflexivity.
Qed.

Theorem C111_argument_error : forall i, strip_clustering_cqat (NThing i) = Err ValueError.
Proof. reflexivity. Qed.
Print Assumptions C111_argument_error.
