(** Properties C106-C110: what the Keras wrappers forward to the layer they wrap. *)
From Coq Require Import String Permutation.
From Verif Require Import Base M_Num M_Tensor M_Quant M_QWrapper M_Wrappers S_Quant S_Wrappers L_Quantizers L_Quantizers2 L_Quantizers3 L_Quantizers4 L_Wrappers.
Open Scope string_scope.
Open Scope nat_scope.

(** ** C106 *)
(** The pruning, quantization and annotation wrappers hand every argument on, the training flag included, to a layer whose
    [call] has an ordinary parameter called training.  [bind_call sg [x] kw] is the direct call of the layer. *)
Theorem C106_declared_partial : forall k lp sg x b kw c, k <> Cluster -> parameter sg "training" -> ~ In "inputs" (map fst kw) -> get "training" kw = Some (VBool b) ->
  bind_call sg [x] kw = Ok c -> exists c', delegate k lp sg [x] kw = Ok c' /\ same_call c' c.
Proof. exact training_reaches. Qed.
Print Assumptions C106_declared_partial.
(** Without a flag (or with None) the learning phase is used. *)
Theorem C106_learning_phase : forall k lp sg x kw c, k = Prune \/ k = Quantize -> parameter sg "training" -> ~ In "inputs" (map fst kw) -> or_none (get "training" kw) = VNone ->
  bind_call sg [x] (("training", lp) :: del "training" kw) = Ok c -> delegate k lp sg [x] kw = Ok c.
Proof. exact phase_reaches. Qed.
Print Assumptions C106_learning_phase.
Theorem C106_positional : forall k lp sg x b kw, k <> Annotate -> ~ In "inputs" (map fst kw) -> ~ In "training" (map fst kw) ->
  delegate k lp sg [x; VBool b] kw = delegate k lp sg [x] (("training", VBool b) :: kw).
Proof. exact positional_training. Qed.
Print Assumptions C106_positional.
(** A layer without such a parameter is called with the remaining arguments, so the flag never makes a call fail. *)
Theorem C106_undeclared : forall k lp sg x kw c, ~ parameter sg "training" -> ~ In "inputs" (map fst kw) ->
  bind_call sg [x] (del "training" kw) = Ok c -> delegate k lp sg [x] kw = Ok c.
Proof. exact undeclared_training. Qed.
Print Assumptions C106_undeclared.
(** REFUTED: the clustering wrapper never passes the flag on; the other three drop it for layers that take it as a
    keyword-only parameter or in **kwargs, although the layer itself would read it. *)
Theorem C106_lost_refuted :
  (forall k lp sg x kw c, k = Cluster \/ ~ parameter sg "training" -> first_is_not sg "training" -> ~ In "inputs" (map fst kw) ->
     delegate k lp sg [x] kw = Ok c -> reads c "training" = None) /\
  (forall k lp, exists sg x c c', accepts sg "training" /\ (k = Cluster -> parameter sg "training") /\
     bind_call sg [x] [("training", VBool true)] = Ok c /\ reads c "training" = Some (VBool true) /\
     delegate k lp sg [x] [("training", VBool true)] = Ok c' /\ reads c' "training" = None).
Proof.
  split; [exact training_lost|]. intros k lp.
  destruct k;
    [exists (mkSig ["inputs"] ["inputs"] false ["training"] false), (VObj 1)|exists (mkSig ["x"] ["x"] false [] true), (VObj 1)
    |exists (mkSig ["inputs"] ["inputs"] false ["training"] false), (VObj 1)|exists (mkSig ["inputs"; "training"] ["inputs"] false [] false), (VObj 1)];
    do 2 eexists; (split; [unfold accepts; cbn; tauto|]); (split; [intros E; try discriminate E; unfold parameter; cbn; tauto|]);
    (split; [reflexivity|]); (split; [reflexivity|]); (split; reflexivity).
Qed.
Print Assumptions C106_lost_refuted.
Example C106_ex : delegate Prune (VBool false) (mkSig ["inputs"; "mask"; "training"] ["inputs"] false [] false) [VObj 7] [("mask", VObj 2); ("training", VBool true)]
  = Ok ([("inputs", VObj 7); ("training", VBool true); ("mask", VObj 2)], []) /\
  bind_call (mkSig ["inputs"; "mask"; "training"] ["inputs"] false [] false) [VObj 7] [("mask", VObj 2); ("training", VBool true)]
  = Ok ([("inputs", VObj 7); ("mask", VObj 2); ("training", VBool true)], []).
Proof. split; reflexivity. Qed.

(** ** C107 *)
Theorem C107_transparent_partial : forall St (a : api St) s p, Forall (plain_call (m_sig a)) p -> observations (annotate_api a) s p = observations a s p.
Proof. exact @annotate_transparent. Qed.
Print Assumptions C107_transparent_partial.
Theorem C107_accepted : forall l, annotate_ctor l = Ok tt <-> l = ArgLayer.
Proof. exact annotate_ctor_ok. Qed.
Print Assumptions C107_accepted.
(** A layer that returns its keyword-only training flag. *)
Definition echo : api bool :=
  mkApi (mkSig ["inputs"] ["inputs"] false ["training"] false) (fun s c => Ok (or_none (get "training" (fst c)), s)) (fun s => s) (fun _ b => b)
    (fun s => if s then [1] else []) (fun s => if s then [] else [1]) (fun _ => []) (fun _ => [5]) (fun _ => []) (fun s _ => Ok s) (fun _ s => Ok s).
Theorem C107_keyword_only_refuted : observations echo true [OCall [VObj 1] [("training", VBool true)]] = [BVal (VBool true)] /\
  observations (annotate_api echo) true [OCall [VObj 1] [("training", VBool true)]] = [BVal VNone].
Proof. split; reflexivity. Qed.
Print Assumptions C107_keyword_only_refuted.
Example C107_ex : let p := [OCall [VObj 1] []; OTrainable; OSetTrainable false; OTrainableWeights; ONonTrainableWeights; OLosses] in
  Forall (plain_call (m_sig echo)) p /\ observations (annotate_api echo) true p = [BVal VNone; BBool true; BUnit; BVars []; BVars [1]; BVars [5]].
Proof. split; [|reflexivity]. apply Forall_cons; [left; intros []|]. repeat (apply Forall_cons; [exact I|]). constructor. Qed.

(** ** C108 *)
(** Without a quantizer the layer is the identity for ever. *)
Theorem C108_identity : forall shp l calls, ql_build None shp = Ok l -> ql_run l calls = Ok (map snd calls, l).
Proof. exact ql_identity. Qed.
Print Assumptions C108_identity.
(** With a quantizer it is that quantizer, each call in the mode of its flag or else of the learning phase. *)
Theorem C108_quantizes : forall q shp l calls, ql_build (Some q) shp = Ok l -> exists r, build q shp = Ok r /\
  match ql_run l calls with
  | Ok (ys, l') => exists r', quantizer_outputs q r calls = Ok (ys, r') /\ ql_vars l' = r' /\ ql_quantizer l' = Some q /\ ql_optimizer_step l' = (-1)%Z
  | Err e => quantizer_outputs q r calls = Err e
  end.
Proof. exact ql_quantizes. Qed.
Print Assumptions C108_quantizes.
Theorem C108_accepted : forall a, (exists q, QuantizeLayer a = Ok q) <-> a <> QOther.
Proof. intros [|q|]; cbn; split; try (intros _ E; discriminate E); eauto; try (intros [q E]; discriminate E); congruence. Qed.
Print Assumptions C108_accepted.
(** Saving and loading gives the same layer, without a quantizer or with any of the library's documented quantizers. *)
Theorem C108_config : forall q, (forall q', q = Some q' -> base_class q') -> ql_from_config (ql_get_config q) = Ok q.
Proof. intros [q|] B; [|reflexivity]. cbn [ql_get_config ql_from_config]. unfold ql_from_config. rewrite (base_round_trip q (B q eq_refl)). reflexivity. Qed.
Print Assumptions C108_config.
Example C108_ex : exists l ys l', ql_build (Some (AllValuesQuantizer 8 false false false)) (Some [2]) = Ok l /\
  ql_run l [(true, None, mkT [2] [1%Q; 2%Q]); (true, Some false, mkT [2] [5%Q; 2%Q])] = Ok (ys, l') /\ ql_vars l' = Some (Scalar 0 2).
Proof. do 3 eexists. split; [reflexivity|]. split; reflexivity. Qed.

(** ** C109 *)
(** After the first forward pass the trainable list of a clustered layer is its own list plus the centroids, each once. *)
Theorem C109_trainable_partial : forall l attrs vs centroid st evs c0 st' c, cl_fresh l attrs vs centroid -> cl_build l attrs centroid = Ok c0 -> cl_run st c0 evs = (st', c) ->
  cl_forward evs -> l_trainable (cl_layer c) = true -> Permutation (cl_trainable_weights c) (l_tracked l ++ map centroid attrs)%list /\ NoDup (cl_trainable_weights c).
Proof. exact cl_trainable_after. Qed.
Print Assumptions C109_trainable_partial.
(** REFUTED: freezing leaves every original weight and every centroid trainable, whatever happened before. *)
Theorem C109_freezing_refuted : forall l attrs vs centroid st evs c0 st' c, cl_fresh l attrs vs centroid -> cl_build l attrs centroid = Ok c0 -> cl_run st c0 evs = (st', c) ->
  Permutation (cl_trainable_weights (cl_set_trainable c false)) (vs ++ map centroid attrs)%list.
Proof. exact cl_frozen. Qed.
Print Assumptions C109_freezing_refuted.
Definition cl_dense : layer := mkLayer [(0, AVar 10); (1, AVar 11)] [10; 11] true None (fun _ x => x).
Example C109_ex : cl_fresh cl_dense [0] [10] (fun a => 100 + a) /\ exists c0, cl_build cl_dense [0] (fun a => 100 + a) = Ok c0 /\
  cl_trainable_weights c0 = [10; 11; 10; 100] /\ forall t, cl_trainable_weights (cl_call c0 t) = [11; 10; 100] /\ cl_trainable_weights (cl_set_trainable (cl_call c0 t) false) = [10; 100].
Proof.
  split.
  - unfold cl_fresh. split; [repeat constructor|]. split; [repeat constructor; intros []|]. split; [repeat constructor; intros []|]. split; [repeat constructor; cbn; lia|].
    split; [intros v [<-|[]]; now left|]. split; [repeat constructor; intros []|]. intros a [<-|[]]. cbn. lia.
  - eexists. split; [reflexivity|]. split; [reflexivity|]. intros t. split; reflexivity.
Qed.

(** ** C110 *)
(** As long as the wrapped layer tracks the same variables (pruning and annotation never change that list), restoring a
    snapshot gives back every weight and touches nothing else. *)
Theorem C110_restored_partial : forall st st' l l', NoDup (l_tracked l) -> l_tracked l' = l_tracked l -> (forall v, In v (l_tracked l) -> shape (st' v) = shape (st v)) ->
  exists st'', layer_set_weights st' l' (layer_get_weights st l) = Ok st'' /\ (forall v, In v (l_tracked l) -> st'' v = st v) /\ (forall v, ~ In v (l_tracked l) -> st'' v = st' v).
Proof. exact snapshot_restored. Qed.
Print Assumptions C110_restored_partial.
(** REFUTED for clustering: a snapshot taken before the first forward pass is rejected afterwards ... *)
Theorem C110_cluster_rejected_refuted : forall l attrs vs centroid st evs c0 st' c, cl_fresh l attrs vs centroid -> vs <> [] -> cl_build l attrs centroid = Ok c0 -> cl_run st c0 evs = (st', c) ->
  cl_forward evs -> layer_set_weights st' (cl_layer c) (layer_get_weights st l) = Err ValueError.
Proof. exact cl_snapshot_fails. Qed.
Print Assumptions C110_cluster_rejected_refuted.
(** ... and one taken later contains none of the clustered weights: restoring it leaves them as they are. *)
Theorem C110_cluster_kernel_refuted : forall l attrs vs centroid st0 evs c0 st c evs' st' c', cl_fresh l attrs vs centroid -> cl_build l attrs centroid = Ok c0 -> cl_run st0 c0 evs = (st, c) ->
  cl_forward evs -> cl_run st c evs' = (st', c') -> forall st'', layer_set_weights st' (cl_layer c') (layer_get_weights st (cl_layer c)) = Ok st'' ->
  forall v, In v vs -> st'' v = st' v.
Proof. exact cl_snapshot_kernel. Qed.
Print Assumptions C110_cluster_kernel_refuted.
Example C110_ex : let st := fun v : nat => mkT [1] [inject_Z (Z.of_nat v)] in layer_get_weights st cl_dense = [mkT [1] [10%Q]; mkT [1] [11%Q]] /\
  exists c0, cl_build cl_dense [0] (fun a => 100 + a) = Ok c0 /\ layer_get_weights st (cl_layer (cl_call c0 (fun _ => mkT [1] [0%Q]))) = [mkT [1] [11%Q]].
Proof. split; [reflexivity|]. eexists. split; reflexivity. Qed.

Theorem C107_refused : forall l, l <> ArgLayer -> annotate_ctor l = Err ValueError.
Proof. intros [| | |] N; try reflexivity; congruence. Qed.
Print Assumptions C107_refused.
Theorem C108_refused : QuantizeLayer QOther = Err ValueError /\ forall q shp l, ql_build q shp = Ok l -> ql_optimizer_step l = (-1)%Z /\ ql_quantizer l = q.
Proof. split; [reflexivity|]. intros [q|] shp l; cbn [ql_build]; [|intros [= <-]; auto]. destruct (build q shp) as [r|]; [|discriminate]. intros [= <-]. auto. Qed.
Print Assumptions C108_refused.
