(** PruneLowMagnitude wrapper, Pruning object and UpdatePruningStep callback as a state machine.
    Sources: sparsity/keras/pruning_wrapper.py, pruning_impl.py, pruning_callbacks.py.
    One replica (no distribution strategy), side effects in program order (what tf.function's automatic control
    dependencies guarantee). *)
From Verif Require Import Base M_Num M_Tensor M_Mask S_Mask.
Open Scope Q_scope.

(** A (weight, mask, threshold) tuple: pruning_wrapper.py:262. *)
Record pvar := mkV { pv_w : tensor Q; pv_mask : tensor Q; pv_thr : Q }.
(** A wrapped layer.  The schedule is any callable step -> (should_prune, sparsity)
    (PruningSchedule.__call__, pruning_schedule.py:102); parameters: pruning_wrapper.py:149-156. *)
Record player := mkL { pl_sched : Z -> bool * Q; pl_pp : prune_params; pl_vars : list pvar; pl_step : Z }.

(** pruning_wrapper.py:227-283 [build]: masks of ones, thresholds 0, pruning_step -1; the Pruning object validates
    the block size (pruning_impl.py:57-62). *)
Definition build_layer (sched : Z -> bool * Q) (pp : prune_params) (weights : list (tensor Q)) : res player :=
  do _ <- validate_block pp weights ;;
  Ok (mkL sched pp (map (fun w => mkV w (mkT (shape w) (repeat 1 (length (data w)))) 0) weights) (-1)).

(** pruning_impl.py:259-264 [maybe_update_masks]. *)
Definition mask_update_due (l : player) : bool :=
  match pp_m_by_n (pl_pp l) with
  | Some _ => Z.eqb (pl_step l) 1
  | None => fst (pl_sched l (pl_step l))
  end.

(** pruning_impl.py:272-280 [update] for one variable. *)
Definition update_var (l : player) (v : pvar) : res pvar :=
  do tm <- maybe_update_block_mask (pl_pp l) (snd (pl_sched l (pl_step l))) (pv_w v) ;;
  let '(t, m) := tm in Ok (mkV (pv_w v) m t).

(** pruning_impl.py:256-313 [conditional_mask_update].  A failing update leaves all masks as they were
    (simplification: its errors are raised while tracing, before anything is assigned). *)
Definition conditional_mask_update (l : player) : res player :=
  if mask_update_due l then
    do vs <- mapM (update_var l) (pl_vars l) ;;
    Ok (mkL (pl_sched l) (pl_pp l) vs (pl_step l))
  else Ok l.

(** pruning_impl.py:246-249 [_weight_assign_objs], no replica context: weights <= weights * mask. *)
Definition mask_var (v : pvar) : pvar := mkV (tmul (pv_w v) (pv_mask v)) (pv_mask v) (pv_thr v).
Definition weight_mask_op (l : player) : player :=
  mkL (pl_sched l) (pl_pp l) (map mask_var (pl_vars l)) (pl_step l).

Definition set_step (l : player) (z : Z) : player := mkL (pl_sched l) (pl_pp l) (pl_vars l) z.

(** pruning_wrapper.py:285-333 [call]: increment, assert step >= 1, conditional mask update, then always mask the
    weights.  Returns the state reached and the exception, if one was raised. *)
Definition call_layer (training : bool) (l : player) : player * option exn :=
  let l1 := if training then set_step l (pl_step l + 1) else l in
  if training then
    if (pl_step l1 <? 1)%Z then (l1, Some StepNotSet)
    else match conditional_mask_update l1 with
         | Err e => (l1, Some e)
         | Ok l2 => (weight_mask_op l2, None)
         end
  else (weight_mask_op l1, None).

(** A model: its prunable layers in collection order (pruning_wrapper.py:400-410) and whether the callback holds
    them (pruning_callbacks.py:52,56). *)
Record pmodel := mkM { pm_layers : list player; pm_collected : bool }.

(** Forward pass over the layers in order, stopping at the first exception. *)
Fixpoint forward (training : bool) (ls : list player) : list player * option exn :=
  match ls with
  | [] => ([], None)
  | l :: r =>
      match call_layer training l with
      | (l', Some e) => (l' :: r, Some e)
      | (l', None) => let '(r', e) := forward training r in (l' :: r', e)
      end
  end.

(** pruning_callbacks.py:54-65 [on_train_begin]. *)
Definition on_train_begin (ls : list player) : list player :=
  match ls with
  | [] => []
  | l :: _ => if (pl_step l =? -1)%Z then map (fun x => set_step x 0) ls else ls
  end.

(** pruning_callbacks.py:67-79 [on_epoch_end]. *)
Definition on_epoch_end (m : pmodel) : pmodel :=
  if pm_collected m then mkM (map weight_mask_op (pm_layers m)) true else m.

(** Arbitrary new values for the weights (optimizer step, set_weights, loading): layer, variable, position. *)
Definition assign_weights (f : nat -> nat -> nat -> Q) (ls : list player) : list player :=
  map (fun il => let '(i, l) := il in
         mkL (pl_sched l) (pl_pp l)
             (map (fun jv => let '(j, v) := jv in
                     mkV (mkT (shape (pv_w v)) (map (f i j) (seq 0 (length (data (pv_w v))))))
                         (pv_mask v) (pv_thr v))
                  (combine (seq 0 (length (pl_vars l))) (pl_vars l)))
             (pl_step l))
      (combine (seq 0 (length ls)) ls).

(** What can happen to a model under training. *)
Inductive event :=
| TrainBegin                              (* fit() with the callback starts *)
| TrainBatch                              (* forward pass with training=True *)
| EvalBatch                               (* forward pass with training=False *)
| WeightUpdate (f : nat -> nat -> nat -> Q)  (* the optimizer, set_weights, ... *)
| EpochEnd.                               (* end of an epoch of fit() with the callback *)

Definition pstep (m : pmodel) (e : event) : pmodel * option exn :=
  match e with
  | TrainBegin => (mkM (on_train_begin (pm_layers m)) true, None)
  | TrainBatch => let '(ls, x) := forward true (pm_layers m) in (mkM ls (pm_collected m), x)
  | EvalBatch => let '(ls, x) := forward false (pm_layers m) in (mkM ls (pm_collected m), x)
  | WeightUpdate f => (mkM (assign_weights f (pm_layers m)) (pm_collected m), None)
  | EpochEnd => (on_epoch_end m, None)
  end.

(** Run a history; the user may catch exceptions and continue, so all outcomes are collected. *)
Fixpoint prun (m : pmodel) (es : list event) : pmodel * list (option exn) :=
  match es with
  | [] => (m, [])
  | e :: r => let '(m', x) := pstep m e in
              let '(m'', xs) := prun m' r in (m'', x :: xs)
  end.
