(** One-shot pruning, the summary callbacks and the sparsity report.
    Sources: sparsity/keras/tools/sparsity_tooling.py, sparsity/keras/pruning_callbacks.py (PruningSummaries),
    clustering/keras/clustering_callbacks.py, sparsity/keras/tools/check_sparsity_m_by_n.py. *)
From Coq Require Import String Ascii.
From Verif Require Import Base M_Num M_Tensor M_Mask S_Mask M_PruneWrapper.
Open Scope string_scope.
Open Scope list_scope.
Open Scope Q_scope.

(** sparsity_tooling.py:38-52 [StepIndependentConstantSparsity.__call__]: due at every step; no range check. *)
Definition step_independent (target : Q) : Z -> bool * Q := fun _ => (true, target).
(** sparsity_tooling.py:63-68 [_apply_pruning] on one collected layer: new mask, then weight = weight * mask. *)
Definition apply_pruning_layer (l : player) : res player :=
  do l' <- conditional_mask_update l ;; Ok (weight_mask_op l').
(** sparsity_tooling.py:63-68 over the layers of collect_prunable_layers, in order. *)
Definition apply_pruning (ls : list player) : res (list player) := mapM apply_pruning_layer ls.
(** sparsity_tooling.py:72-95 [prune_for_benchmark]: wrap with block_size and this schedule (the other wrapper defaults:
    AVG pooling, no m-by-n), then one mask update.  [layers]: the prunable weights of each prunable layer of the model. *)
Definition prune_for_benchmark (layers : list (list (tensor Q))) (target : Q) (block_size : list nat) : res (list player) :=
  do ls <- mapM (build_layer (step_independent target) {| pp_block := block_size; pp_pool := AVG; pp_m_by_n := None |}) layers ;;
  apply_pruning ls.

(** ** PruningSummaries *)
(** A Python dict filled by [update] of one key at a time: insertion order, a later value replaces an earlier one. *)
Fixpoint dict_set {A} (d : list (string * A)) (k : string) (v : A) : list (string * A) :=
  match d with
  | [] => [(k, v)]
  | (k', v') :: r => if String.eqb k k' then (k, v) :: r else (k', v') :: dict_set r k v
  end.
Definition dict_sets {A} (d : list (string * A)) (l : list (string * A)) : list (string * A) :=
  fold_left (fun d p => dict_set d (fst p) (snd p)) l d.
(** One (mask, threshold) pair of a wrapped layer with its variable names. *)
Record named_var := mkNV { nv_mask_name : string; nv_thr_name : string; nv_var : pvar }.
Definition mean (l : list Q) : Q := sumQ l / inject_Z (Z.of_nat (List.length l)).
(** pruning_callbacks.py:112-141 [on_epoch_begin]: the scalars logged, from the collected layers in order. *)
Definition pruning_logs (layers : list (list named_var)) : list (string * Q) :=
  let vs := List.concat layers in
  dict_sets (dict_sets [] (map (fun v => ((nv_mask_name v ++ "/sparsity")%string, 1 - mean (data (pv_mask (nv_var v))))) vs))
            (map (fun v => ((nv_thr_name v ++ "/threshold")%string, pv_thr (nv_var v))) vs).

(** ** ClusteringSummaries *)
(** clustering_callbacks.py:36-45: ['batch'] becomes 1; other strings are kept (and fail at the modulo, TypeError). *)
Inductive cfreq := FEpoch | FInt (n : Z) | FOther.
Record csum := mkCS { cs_freq : cfreq; cs_batch : Z }.
Definition cs_init (f : cfreq) : csum := mkCS f 0.
(** clustering_callbacks.py:54-59 [on_train_batch_begin] *)
Definition cs_batch_begin (c : csum) : csum := mkCS (cs_freq c) (cs_batch c + 1).
(** clustering_callbacks.py:61-74 [on_train_batch_end]: the steps at which a summary is written (none or one). *)
Definition cs_batch_end (c : csum) (batch : Z) : res (list Z) :=
  if (cs_batch c <? batch)%Z then Err AssertionError
  else match cs_freq c with
       | FEpoch => Ok []
       | FInt n => if (n =? 0)%Z then Err ZeroDivisionError
                   else if (cs_batch c mod n =? 0)%Z then Ok [cs_batch c] else Ok []
       | FOther => Err TypeError
       end.
(** clustering_callbacks.py:76-79 [on_epoch_end] *)
Definition cs_epoch_end (c : csum) : list Z := match cs_freq c with FEpoch => [cs_batch c] | _ => [] end.

(** Keras' fit loop over one epoch of [n] batches with steps_per_execution [k] >= 1 (documented Keras behaviour):
    executions start at 0, k, 2k, ...; the end callback gets the last batch of the execution; the last execution may
    be shorter.  [fuel] executions at most. *)
Fixpoint cs_epoch_loop (fuel : nat) (k n step : Z) (c : csum) : res (csum * list Z) :=
  match fuel with
  | O => Ok (c, [])
  | S f =>
      if (step <? n)%Z then
        let c1 := cs_batch_begin c in
        let len := Z.min k (n - step) in
        do w <- cs_batch_end c1 (step + len - 1) ;;
        do r <- cs_epoch_loop f k n (step + len) c1 ;;
        Ok (fst r, w ++ snd r)
      else Ok (c, [])
  end.
Definition cs_epoch (k n : nat) (c : csum) : res (csum * list Z) :=
  do r <- cs_epoch_loop n (Z.of_nat k) (Z.of_nat n) 0 c ;; Ok (fst r, snd r ++ cs_epoch_end (fst r)).
(** Any number of epochs (of any number of fit calls with this callback object), [ns] the batches of each. *)
Fixpoint cs_run (k : nat) (ns : list nat) (c : csum) : res (csum * list Z) :=
  match ns with
  | [] => Ok (c, [])
  | n :: r => do a <- cs_epoch k n c ;; do b <- cs_run k r (fst a) ;; Ok (fst b, snd a ++ snd b)
  end.

(** clustering_callbacks.py:81-94 [_write_summary]: which variables are logged.  A layer of [model.layers] is another
    model, a wrapper (its inner layer's clusterable weights, if it has get_clusterable_weights, and its variables) or neither. *)
Inductive slayer := SModel (layers : list slayer) | SWrapper (clusterable : option (list string)) (variables : list string) | SPlain.
Definition written (layers : list slayer) : list string :=
  flat_map (fun l => match l with
                     | SWrapper (Some (_ :: _)) vars => map (fun v => ("clustering/" ++ v)%string) vars
                     | _ => []
                     end) layers.

(** ** check_sparsity_m_by_n.py:53-60 [calculate_sparsity] *)
Definition calculate_sparsity (w : list Q) : Q :=
  let nz := count_nonzero w in
  if Nat.eqb nz 0 then 1 else 1 - inject_Z (Z.of_nat nz) / inject_Z (Z.of_nat (List.length w)).
(** check_sparsity_m_by_n.py:42-50 [ignore_tensor]; [casefold] is applied to ASCII names only here. *)
Definition lower (c : ascii) : ascii :=
  let n := nat_of_ascii c in if ((65 <=? n) && (n <=? 90))%nat then ascii_of_nat (n + 32) else c.
Fixpoint casefold (s : string) : string := match s with EmptyString => EmptyString | String c r => String (lower c) (casefold r) end.
Fixpoint contains (sub s : string) : bool :=
  (prefix sub s || match s with EmptyString => false | String _ r => contains sub r end)%bool.
Definition IGNORE_LIST : list string := ["relu"; "pooling"; "reshape"; "identity"; "input"; "add"; "flatten"].
Definition ignore_tensor (name : string) (ignore_list : list string) : bool :=
  let n := casefold name in
  match n with EmptyString => true | _ => existsb (fun i => contains i n) ignore_list end.
(** check_sparsity_m_by_n.py:63-87 [run]: one line per tensor that is not ignored; [m_by_n_str] is already parsed. *)
Definition report (tensors : list (string * tensor Q)) (m n : nat) : res (list (string * list nat * Q * bool)) :=
  mapM (fun p => let '(name, w) := p in
          do b <- is_pruned_m_by_n w m n C_IN ;; Ok (name, shape w, calculate_sparsity (data w), b))
       (filter (fun p => negb (ignore_tensor (fst p) IGNORE_LIST)) tensors).
