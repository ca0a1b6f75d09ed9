(** C145: the target sparsity of the schedules in float32. *)
From Flocq Require Import Core BinarySingleNaN.
From Verif Require Import Base M_Float32 S_Float32 L_Float32c M_FloatSchedule S_FloatSchedule L_FloatSchedule2 L_FloatSchedule3.
From Coq Require Import Qabs Qpower.
Open Scope Q_scope.

(** The constructors accept exactly the Python floats in [0,1). *)
Theorem C145_accepted : forall x, validate_sparsity_f x = Ok tt <-> sparsity64 x.
Proof. exact accepted. Qed.
(** The progress is between 0 and 1, 0 up to the begin step, 1 from the end step on, never falls, and is accurate. *)
Theorem C145_progress : forall b e t, (b < e)%Z -> (e - b <= 2 ^ 63)%Z -> (Z.abs (t - b) <= 2 ^ 63)%Z ->
  in_unit (progress_f b e t) /\ close (number (progress_f b e t)) (progress b e t) /\
  ((t <= b)%Z -> number (progress_f b e t) == 0) /\ ((e <= t)%Z -> number (progress_f b e t) == 1) /\
  (forall t', (Z.abs (t' - b) <= 2 ^ 63)%Z -> (t <= t')%Z -> number (progress_f b e t) <= number (progress_f b e t')).
Proof.
  intros b e t BE R T. split; [now apply progress_unit|]. split; [now apply progress_close|]. split; [now apply progress_start|]. split; [now apply progress_end|].
  intros t' T' H. now apply progress_up.
Qed.

Section Decay.
  Context (pow : f32 -> f32) (initial final : f64) (b e : Z).
  (** What is assumed of tf.math.pow and of the arguments. *)
  Definition usable : Prop := is_power pow /\ sparsity64 initial /\ sparsity64 final /\ (b < e)%Z /\ (e - b <= 2 ^ 63)%Z.
  Definition reachable (t : Z) : Prop := (Z.abs (t - b) <= 2 ^ 63)%Z.
  (** From the end step on the target is the final sparsity as a float32 (what ConstantSparsity returns), exactly. *)
  Theorem C145_final : usable -> forall t, reachable t -> (e <= t)%Z -> number (decay_f pow initial final b e t) == number (constant_f final).
  Proof. intros (P & I1 & F & BE & R) t. now apply decay_final. Qed.
  (** Up to the begin step it is the initial sparsity but for rounding; a zero is hit exactly. *)
  Theorem C145_initial : usable -> forall t, reachable t -> (t <= b)%Z ->
    close (number (decay_f pow initial final b e t)) (number64 initial) /\
    (number64 initial == 0 -> number (decay_f pow initial final b e t) == 0).
  Proof. intros (P & I1 & F & BE & R) t. now apply decay_initial. Qed.
  (** In between it never turns back... *)
  Theorem C145_monotone : usable -> forall t t', reachable t -> reachable t' -> (t <= t')%Z ->
    (number64 initial <= number64 final -> number (decay_f pow initial final b e t) <= number (decay_f pow initial final b e t')) /\
    (number64 final <= number64 initial -> number (decay_f pow initial final b e t') <= number (decay_f pow initial final b e t)).
  Proof. intros (P & I1 & F & BE & R) t t'. now apply decay_mono. Qed.
  (** ... it is always a number between 0 and 1... *)
  Theorem C145_in_unit : usable -> forall t, reachable t -> in_unit (decay_f pow initial final b e t).
  Proof. intros (P & I1 & F & BE & R) t. now apply decay_unit. Qed.
  (** ... below 1 when the arguments are not within one 4194304th of 1... *)
  Theorem C145_below_one_partial : usable -> number64 initial <= 1 - eps -> number64 final <= 1 - eps -> forall t, reachable t ->
    is_sparsity (decay_f pow initial final b e t).
  Proof. intros (P & I1 & F & BE & R) Li Lf t T. now apply decay_below. Qed.
  (** ... and, for an integral power, within (n + 2) 4194304ths of the documented formula. *)
  Theorem C145_formula : usable -> forall n t, reachable t -> (forall x, in_unit x -> close (number (pow x)) (number x ^ Z.of_nat n)) ->
    Qabs (number (decay_f pow initial final b e t) -
          (number64 final + (number64 initial - number64 final) * (1 - progress b e t) ^ Z.of_nat n)) <= inject_Z (Z.of_nat n + 2) * eps.
  Proof. intros (P & I1 & F & BE & R) n t. now apply decay_accurate. Qed.
  (** So with rising sparsity no tensor ever gets weights back. *)
  Theorem C145_kept_never_rises_partial : usable -> number64 initial <= number64 final -> number64 final <= 1 - eps ->
    forall n t t', (1 <= n <= 2 ^ 31)%Z -> reachable t -> reachable t' -> (t <= t')%Z ->
    (keep_count n (decay_f pow initial final b e t') <= keep_count n (decay_f pow initial final b e t))%Z.
  Proof.
    intros U L Lf n t t' N T T' H. assert (Li : number64 initial <= 1 - eps) by (eapply Qle_trans; eauto).
    apply count_antitone; try (apply C145_below_one_partial; auto); try lia. exact (proj1 (C145_monotone U t t' T T' H) L).
  Qed.
End Decay.
(** ConstantSparsity. *)
Theorem C145_constant_partial : forall f, sparsity64 f ->
  in_unit (constant_f f) /\ close (number (constant_f f)) (number64 f) /\ (number64 f <= 1 - eps -> is_sparsity (constant_f f)).
Proof. exact constant_unit. Qed.
(** The cube in float32 meets the contract of the power. *)
Theorem C145_cube : is_power cube /\ forall x, in_unit x -> close (number (cube x)) (number x ^ Z.of_nat 3).
Proof. split; [exact cube_power|exact cube_close]. Qed.

(** The Python float m * 2^e. *)
Definition db (m e : Z) : f64 := binary_normalize 53 1024 prec53 emax1024 mode_NE m e false.
(** An accepted sparsity close to 1 becomes the float32 1: the validation at construction does not keep the target below 1. *)
Theorem C145_refuted : exists f, sparsity64 f /\ number (constant_f f) == 1 /\
  forall i b e, usable cube i f b e -> number (decay_f cube i f b e e) == 1.
Proof.
  exists (db (2 ^ 53 - 1) (-53)). assert (C : number (constant_f (db (2 ^ 53 - 1) (-53))) == 1) by (vm_compute; reflexivity). split; [|split]; auto.
  - repeat split; vm_compute; congruence.
  - intros i b e U. rewrite C145_final; auto; [|lia]. destruct U as (_ & _ & _ & BE & R). unfold reachable. lia.
Qed.

(** The default schedule of the documentation: from 0.5 to 0.8 between steps 0 and 1000. *)
Example C145_example :
  usable cube (db 1 (-1)) (db 3602879701896397 (-52)) 0 1000 /\
  number (decay_f cube (db 1 (-1)) (db 3602879701896397 (-52)) 0 1000 0) == 1#2 /\
  number (decay_f cube (db 1 (-1)) (db 3602879701896397 (-52)) 0 1000 500) == 12792627 # 16777216 /\
  number (decay_f cube (db 1 (-1)) (db 3602879701896397 (-52)) 0 1000 1000) == 13421773 # 16777216 /\
  keep_count 100 (decay_f cube (db 1 (-1)) (db 3602879701896397 (-52)) 0 1000 500) = 24%Z.
Proof.
  split; [split; [exact cube_power|repeat split; vm_compute; congruence]|]. repeat split; vm_compute; reflexivity.
Qed.
Example C145_hypotheses : number64 (db 3602879701896397 (-52)) <= 1 - eps /\ number64 (db 1 (-1)) <= number64 (db 3602879701896397 (-52)).
Proof. split; vm_compute; congruence. Qed.

Print Assumptions C145_accepted.
Print Assumptions C145_progress.
Print Assumptions C145_final.
Print Assumptions C145_initial.
Print Assumptions C145_monotone.
Print Assumptions C145_in_unit.
Print Assumptions C145_below_one_partial.
Print Assumptions C145_formula.
Print Assumptions C145_kept_never_rises_partial.
Print Assumptions C145_constant_partial.
Print Assumptions C145_cube.
Print Assumptions C145_refuted.
