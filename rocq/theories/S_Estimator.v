(** Specification vocabulary for estimator training. *)
From Verif Require Import Base M_Estimator.
Open Scope Z_scope.

(** All ops of the step have run. *)
Definition complete (top : bool) (s : run_state) : Prop := rs_inc s = top /\ rs_b s = B2 /\ exists u, rs_c s = C2 u.
(** One training step, under some schedule: from pruning step [v] to [v'], masks updated with step [u]. *)
Definition trains (top : bool) (step : option Z) (v v' u : Z) : Prop :=
  exists sched s, exec top step sched (start v) = Some (Ok s) /\ complete top s /\ rs_step s = v' /\ rs_c s = C2 u.
(** A training step that fails under some schedule. *)
Definition fails (top : bool) (step : option Z) (v : Z) : Prop := exists sched e, exec top step sched (start v) = Some (Err e).
(** [n] successful training steps in a row. *)
Inductive training (top : bool) : nat -> Z -> Z -> Prop :=
| tr_none v : training top 0 v v
| tr_more n v v1 v2 u : training top n v v1 -> trains top None v1 v2 u -> training top (S n) v v2.
