(** PruningEstimatorSpec.  Source: sparsity/keras/estimator_utils.py, with sparsity/keras/pruning_wrapper.py:285-320 for the
    updates it runs.
    Graph mode: one training step is one session run of a tf.group, whose members run concurrently in any order that their
    control dependencies allow; a run is therefore a schedule of atomic reads and writes.  Keras layers are taken to collect
    the ops given to add_update in [updates] (graph-mode Keras layers do).  One pruned layer; layers do not share steps. *)
From Verif Require Import Base.
Open Scope Z_scope.

(** estimator_utils.py:28-35, 66-82: what the constructor refuses. *)
Definition spec_ctor (has_mode has_train_op : bool) (scaffold_init_fn : option bool) : res unit :=
  if negb has_mode then Err ValueError
  else if negb has_train_op then Err ValueError
  else match scaffold_init_fn with Some true => Err ValueError | _ => Ok tt end.

(** The ops of one training step that touch the pruning step of one layer. *)
(** 43-58: for wrappers among model.layers, assign_add 1 (no [step]) or assign [step]. *)
(** pruning_wrapper.py:289-292: the wrapper's own update reads the step, then writes the value read plus one. *)
Inductive bstate := B0 | B1 (read : Z) | B2.
(** pruning_wrapper.py:294-304: read and check step >= 1, then (control dependency) update masks with the step read then. *)
Inductive cstate := C0 | C1 | C2 (used : Z).
Record run_state := mkRS { rs_step : Z; rs_inc : bool; rs_b : bstate; rs_c : cstate }.
Inductive action := AInc | BRead | BWrite | CAssert | CUpdate.
(** [top]: the wrapper is one of model.layers; [step]: the value of the argument [step], if given.  [None]: not enabled. *)
Definition act (top : bool) (step : option Z) (a : action) (s : run_state) : option (res run_state) :=
  match a with
  | AInc => if top && negb (rs_inc s) then Some (Ok (mkRS (match step with None => rs_step s + 1 | Some z => z end) true (rs_b s) (rs_c s))) else None
  | BRead => match rs_b s with B0 => Some (Ok (mkRS (rs_step s) (rs_inc s) (B1 (rs_step s)) (rs_c s))) | _ => None end
  | BWrite => match rs_b s with B1 r => Some (Ok (mkRS (r + 1) (rs_inc s) B2 (rs_c s))) | _ => None end
  | CAssert => match rs_c s with C0 => Some (if Z.leb 1 (rs_step s) then Ok (mkRS (rs_step s) (rs_inc s) (rs_b s) C1) else Err InvalidArgument) | _ => None end
  | CUpdate => match rs_c s with C1 => Some (Ok (mkRS (rs_step s) (rs_inc s) (rs_b s) (C2 (rs_step s)))) | _ => None end
  end.
(** A failing op ends the run. *)
Fixpoint exec (top : bool) (step : option Z) (sched : list action) (s : run_state) : option (res run_state) :=
  match sched with
  | [] => Some (Ok s)
  | a :: r => match act top step a s with None => None | Some (Err e) => Some (Err e) | Some (Ok s') => exec top step r s' end
  end.
Definition start (v : Z) : run_state := mkRS v false B0 C0.
(** 84-85: run by the scaffold once, for a model that was not restored: only the increment ops. *)
Definition init_step : Z := -1.
Definition after_init_fn (top : bool) (step : option Z) : Z := if top then match step with None => init_step + 1 | Some z => z end else init_step.
