(** Specification vocabulary for C13-C17: what "step", "masked", "due" mean for a model under training. *)
From Verif Require Import Base M_Num M_Tensor M_Mask S_Mask M_Schedule M_PruneWrapper.
Open Scope Q_scope.

(** A freshly wrapped model: every layer comes out of the wrapper's build; the callback has not run. *)
Definition fresh (m : pmodel) : Prop :=
  pm_collected m = false /\ Forall (fun l => exists sched pp ws, Forall wf ws /\ build_layer sched pp ws = Ok l) (pm_layers m).

(** A weight after masking: every entry multiplied by the (new) mask entry. *)
Definition masked_from (l l' : player) : Prop :=
  Forall2 (fun v v' => pv_w v' = tmul (pv_w v) (pv_mask v')) (pl_vars l) (pl_vars l').

(** all steps >= 0 is preserved by everything *)
Definition steps_nonneg (ls : list player) : Prop := Forall (fun l => 0 <= pl_step l)%Z ls.

(** all layers at the same step *)
Definition uniform (z : Z) (ls : list player) : Prop := Forall (fun l => pl_step l = z) ls.

Fixpoint count_batches (es : list event) : Z :=
  match es with [] => 0 | TrainBatch :: r => 1 + count_batches r | _ :: r => count_batches r end%Z.

(** no callback: first training batch of a fresh, non-empty model raises *)
Definition harmless (e : event) : Prop := match e with EvalBatch | WeightUpdate _ | EpochEnd => True | _ => False end.

(** ** Masking (C15) *)
Definition var_ok (v : pvar) : Prop := wf (pv_w v) /\ wf (pv_mask v) /\ shape (pv_mask v) = shape (pv_w v) /\ is_mask (pv_mask v).

Definition layer_ok (l : player) : Prop := Forall var_ok (pl_vars l).

Definition model_ok (m : pmodel) : Prop := Forall layer_ok (pm_layers m).

(** The weight is zero wherever its mask is zero. *)
Definition var_masked (v : pvar) : Prop :=
  forall i, (i < length (data (pv_w v)))%nat -> nth i (data (pv_mask v)) 0 == 0 -> nth i (data (pv_w v)) 0 == 0.

Definition all_masked (m : pmodel) : Prop :=
  forall l v, In l (pm_layers m) -> In v (pl_vars l) -> var_masked v.

Definition masks_weights (e : event) (m : pmodel) (x : option exn) : Prop :=
  match e with
  | TrainBatch | EvalBatch => x = None
  | EpochEnd => pm_collected m = true
  | _ => False
  end.

(** ** When masks change (C16) *)
Definition masks_of (l : player) : list (tensor Q * Q) := map (fun v => (pv_mask v, pv_thr v)) (pl_vars l).

Definition due_at (l : player) (step : Z) : Prop :=
  match pp_m_by_n (pl_pp l) with
  | Some _ => step = 1%Z
  | None => fst (pl_sched l step) = true
  end.

(** [l'] holds freshly computed masks of the weights of [l]. *)
Definition recomputed (l l' : player) : Prop :=
  Forall2 (fun v v' => maybe_update_block_mask (pl_pp l) (snd (pl_sched l (pl_step l'))) (pv_w v) =
                       Ok (pv_thr v', pv_mask v') /\ pv_w v' = tmul (pv_w v) (pv_mask v'))
          (pl_vars l) (pl_vars l').

(** Masks are frozen once the schedule can no longer fire. *)
Definition never_due_after (l : player) (s : Z) : Prop := forall t, (s < t)%Z -> ~ due_at l t.

(** instance: a schedule object past its end step *)
Definition sched_fun (s : schedule) (sp : Z -> Q) : Z -> bool * Q := fun t => (should_prune s t, sp t).
