(** Properties C13-C17: the pruning wrapper and its callback over arbitrary histories. Statements only. *)
From Verif Require Import Base M_Num M_Tensor M_Mask S_Mask M_Schedule M_PruneWrapper S_PruneWrapper L_PruneWrapper L_PruneWrapper2.
Open Scope Q_scope.

(** A one-layer example model used below: a 1x4 kernel, constant sparsity 1/2 on every step from 1. *)
Definition ex_sched (t : Z) : bool * Q := ((1 <=? t)%Z, 1#2).
Definition ex_pp := {| pp_block := [1;1]%nat; pp_pool := AVG; pp_m_by_n := None |}.
Definition ex_w := mkT [1;4]%nat [5; -1; 2; -7].
Definition ex_layer := mkL ex_sched ex_pp [mkV ex_w (mkT [1;4]%nat [1;1;1;1]) 0] (-1).
Example ex_layer_built : build_layer ex_sched ex_pp [ex_w] = Ok ex_layer.
Proof. reflexivity. Qed.
Definition ex_model := mkM [ex_layer; ex_layer] false.
Lemma ex_fresh : fresh ex_model.
Proof.
  split; auto. repeat constructor; exists ex_sched, ex_pp, [ex_w]; (split; [repeat constructor|reflexivity]).
Qed.

(** C13: all layers at the same step z (-1 when fresh); after fit begins the step is max z 0 plus the number of
    training batches, whatever else (further fits, evaluations, optimizer steps, epoch ends) is interleaved. *)
Theorem C13_step_counts_batches : forall z m es m' xs,
  uniform z (pm_layers m) -> (z = -1 \/ 0 <= z)%Z ->
  prun m (TrainBegin :: es) = (m', xs) -> Forall (eq None) xs ->
  forall l, In l (pm_layers m') -> pl_step l = (Z.max z 0 + count_batches es)%Z.
Proof. exact pruning_step_counts. Qed.
Print Assumptions C13_step_counts_batches.
Theorem C13_fresh_is_uniform : forall m, fresh m -> uniform (-1) (pm_layers m).
Proof. intros m H. apply fresh_ok. exact H. Qed.
Print Assumptions C13_fresh_is_uniform.
Example C13_ex : let '(m', xs) := prun ex_model [TrainBegin; TrainBatch; EvalBatch; EpochEnd; TrainBegin; TrainBatch] in
  xs = repeat None 6 /\ map pl_step (pm_layers m') = [2; 2]%Z.
Proof. split; reflexivity. Qed.

(** C14 *)
Theorem C14_first_batch_without_callback_raises : forall m es m' xs m'' x,
  uniform (-1) (pm_layers m) -> pm_layers m <> [] -> Forall harmless es ->
  prun m es = (m', xs) -> pstep m' TrainBatch = (m'', x) -> x = Some StepNotSet.
Proof. exact error_without_callback. Qed.
Print Assumptions C14_first_batch_without_callback_raises.
Theorem C14_never_raised_after_begin : forall z m es m' xs,
  uniform z (pm_layers m) -> (z = -1 \/ 0 <= z)%Z ->
  prun m (TrainBegin :: es) = (m', xs) -> ~ In (Some StepNotSet) xs.
Proof. exact never_after_begin. Qed.
Print Assumptions C14_never_raised_after_begin.
Example C14_ex : snd (prun ex_model [EvalBatch; TrainBatch]) = [None; Some StepNotSet].
Proof. reflexivity. Qed.
(** The English claim fails: the failed batch has already advanced the step, so a second training batch without
    callback passes silently... *)
Theorem C14_refuted_second_batch_passes :
  exists m, fresh m /\ snd (prun m [TrainBatch; TrainBatch]) = [Some StepNotSet; None].
Proof.
  exists (mkM [ex_layer] false). split; [|reflexivity].
  split; auto. repeat constructor; exists ex_sched, ex_pp, [ex_w]; (split; [repeat constructor|reflexivity]).
Qed.
Print Assumptions C14_refuted_second_batch_passes.
(** ... and after a failed batch of a two-layer model the error is raised although training was begun properly. *)
Theorem C14_refuted_raised_after_begin :
  exists m, fresh m /\ snd (prun m [TrainBatch; TrainBegin; TrainBatch]) = [Some StepNotSet; None; Some StepNotSet].
Proof. exists ex_model. split; [exact ex_fresh|reflexivity]. Qed.
Print Assumptions C14_refuted_raised_after_begin.

(** C15: after any history, a successful forward pass or an epoch end of a fit with the callback leaves every
    weight zero where its mask is zero, and unchanged where the mask is one. *)
Theorem C15_masked_weights_are_zero : forall m es m1 xs e m2 x,
  fresh m -> prun m es = (m1, xs) -> pstep m1 e = (m2, x) -> masks_weights e m1 x -> all_masked m2.
Proof. intros m es m1 xs e m2 x F. apply masked_after. apply fresh_ok. exact F. Qed.
Print Assumptions C15_masked_weights_are_zero.
Theorem C15_from_any_wellformed_state : forall m es m1 xs e m2 x,
  model_ok m -> prun m es = (m1, xs) -> pstep m1 e = (m2, x) -> masks_weights e m1 x -> all_masked m2.
Proof. exact masked_after. Qed.
Print Assumptions C15_from_any_wellformed_state.
(** In particular every end of an epoch, in every fit, once a fit with the callback has begun. *)
Theorem C15_every_epoch_end : forall m es1 es2 m2 xs, fresh m -> prun m (es1 ++ TrainBegin :: es2 ++ [EpochEnd]) = (m2, xs) -> all_masked m2.
Proof. intros m es1 es2 m2 xs F. apply every_epoch_end. apply fresh_ok. exact F. Qed.
Print Assumptions C15_every_epoch_end.
Theorem C15_weights_are_masked_old_weights : forall m e m' x,
  pstep m e = (m', x) -> masks_weights e m x -> Forall2 masked_from (pm_layers m) (pm_layers m').
Proof. exact step_masked_from. Qed.
Print Assumptions C15_weights_are_masked_old_weights.
Theorem C15_kept_weights_unchanged : forall m es m1 xs e m2 x,
  model_ok m -> prun m es = (m1, xs) -> pstep m1 e = (m2, x) -> masks_weights e m1 x ->
  Forall2 (fun l l' => Forall2 (fun v v' => forall i, (i < length (data (pv_w v)))%nat ->
     nth i (data (pv_mask v')) 0 == 1 -> nth i (data (pv_w v')) 0 == nth i (data (pv_w v)) 0) (pl_vars l) (pl_vars l'))
    (pm_layers m1) (pm_layers m2).
Proof. exact unmasked_unchanged_run. Qed.
Print Assumptions C15_kept_weights_unchanged.
Definition ex_opt (i j k : nat) : Q := inject_Z (Z.of_nat (i + j + k + 1)).
Example C15_ex : let '(m', _) := prun ex_model [TrainBegin; TrainBatch; WeightUpdate ex_opt; EpochEnd] in
  map (fun l => map (fun v => map Qred (data (pv_w v))) (pl_vars l)) (pm_layers m') = [[[1; 0; 0; 4]]; [[2; 0; 0; 5]]].
Proof. reflexivity. Qed.

(** C16 *)
Theorem C16_masks_change_only_when_due : forall m e m' x i l l',
  pstep m e = (m', x) -> nth_error (pm_layers m) i = Some l -> nth_error (pm_layers m') i = Some l' ->
  masks_of l' = masks_of l \/
  (e = TrainBatch /\ due_at l (pl_step l + 1) /\ pl_step l' = (pl_step l + 1)%Z /\ recomputed l l').
Proof. exact masks_change_only_when_due. Qed.
Print Assumptions C16_masks_change_only_when_due.
Theorem C16_due_batch_recomputes : forall m m' i l l',
  pstep m TrainBatch = (m', None) -> nth_error (pm_layers m) i = Some l -> nth_error (pm_layers m') i = Some l' ->
  due_at l (pl_step l + 1) -> recomputed l l'.
Proof. exact due_batch_recomputes. Qed.
Print Assumptions C16_due_batch_recomputes.
Theorem C16_frozen_after_last_due_step : forall es m m' xs i l l',
  prun m es = (m', xs) -> steps_nonneg (pm_layers m) ->
  nth_error (pm_layers m) i = Some l -> nth_error (pm_layers m') i = Some l' ->
  never_due_after l (pl_step l) -> masks_of l' = masks_of l.
Proof. exact frozen_after. Qed.
Print Assumptions C16_frozen_after_last_due_step.
Theorem C16_constant_schedule_ends : forall t b e f s sp l,
  mk_constant t b e f = Ok s -> (0 <= e)%Z ->
  pl_sched l = sched_fun s sp -> pp_m_by_n (pl_pp l) = None -> never_due_after l e.
Proof. exact constant_never_due. Qed.
Print Assumptions C16_constant_schedule_ends.
Theorem C16_polynomial_schedule_ends : forall i fi b e p f s sp l,
  mk_polynomial i fi b e p f = Ok s ->
  pl_sched l = sched_fun s sp -> pp_m_by_n (pl_pp l) = None -> never_due_after l e.
Proof. exact polynomial_never_due. Qed.
Print Assumptions C16_polynomial_schedule_ends.
Theorem C16_m_by_n_first_step_only : forall l m n, pp_m_by_n (pl_pp l) = Some (m, n) -> never_due_after l 1.
Proof. exact mbyn_never_due. Qed.
Print Assumptions C16_m_by_n_first_step_only.
Example C16_ex : let '(m', _) := prun ex_model [TrainBegin; TrainBatch] in
  map masks_of (pm_layers m') = repeat [(mkT [1;4]%nat [1; 0; 0; 1], 5)] 2.
Proof. reflexivity. Qed.

(** C17 *)
Theorem C17_uniform_models_get_a_step : forall z ls,
  uniform z ls -> (z = -1 \/ 0 <= z)%Z -> uniform (Z.max z 0) (on_train_begin ls).
Proof. exact on_train_begin_uniform. Qed.
Print Assumptions C17_uniform_models_get_a_step.
(** Only the first layer is consulted: mixed models either lose steps or keep -1. *)
Theorem C17_refuted_step_lost : exists ls, map pl_step ls = [-1; 100]%Z /\ map pl_step (on_train_begin ls) = [0; 0]%Z.
Proof. exists [ex_layer; set_step ex_layer 100]. split; reflexivity. Qed.
Print Assumptions C17_refuted_step_lost.
Theorem C17_refuted_step_missing : exists ls, map pl_step ls = [100; -1]%Z /\
  map pl_step (on_train_begin ls) = [100; -1]%Z /\ snd (forward true (on_train_begin ls)) = Some StepNotSet.
Proof. exists [set_step ex_layer 100; ex_layer]. repeat split; reflexivity. Qed.
Print Assumptions C17_refuted_step_missing.
