(** PruningEstimatorSpec: C113. *)
From Verif Require Import Base M_Estimator S_Estimator L_Estimator.
Open Scope Z_scope.

(** The claim: a training step advances the pruning step by one and the masks are updated with the new step. *)
Definition C113_claim : Prop := forall v v' u, trains true None v v' u -> v' = v + 1 /\ u = v'.
(** What holds for every schedule of the ops of a step: it advances by one or two (two only for wrappers among model.layers), and
    the masks are updated with some value the step had during the run, at least 1. *)
Theorem C113_advance_partial : forall top v v' u, trains top None v v' u -> (v' = v + 1 \/ (v' = v + 2 /\ top = true)) /\ v <= u <= v' /\ 1 <= u.
Proof. exact one_step. Qed.
Print Assumptions C113_advance_partial.
Theorem C113_refuted : ~ C113_claim.
Proof. intros H. destruct (both_happen 1 ltac:(lia)) as (_ & u & T). destruct (H _ _ _ T). lia. Qed.
Print Assumptions C113_refuted.
(** Both advances happen from every step: which of them is a race between the estimator's op and the wrapper's own. *)
Theorem C113_race_refuted : forall v, 0 <= v -> (exists u, trains true None v (v + 1) u) /\ (exists u, trains true None v (v + 2) u).
Proof. exact both_happen. Qed.
Print Assumptions C113_race_refuted.
(** Over n training steps: between n and 2n, both attained. *)
Theorem C113_bounds_partial : forall top n v v', training top n v v' -> v + Z.of_nat n <= v' <= v + (if top then 2 else 1) * Z.of_nat n.
Proof. exact bounds. Qed.
Print Assumptions C113_bounds_partial.
Theorem C113_attained : forall n, training true n 0 (Z.of_nat n) /\ training true n 0 (2 * Z.of_nat n).
Proof. exact bounds_attained. Qed.
Print Assumptions C113_attained.
(** A step can fail exactly as long as the pruning step is not positive: the first step after initialisation can. *)
Theorem C113_fails_iff : forall top v, fails top None v <-> v <= 0.
Proof. exact fails_iff. Qed.
Print Assumptions C113_fails_iff.
Theorem C113_first_step_refuted : fails true None (after_init_fn true None) /\ exists v' u, trains true None (after_init_fn true None) v' u.
Proof. split; [apply fails_iff; cbn; lia|]. destruct (both_happen 0 ltac:(lia)) as ((u & T) & _). exists 1, u. exact T. Qed.
Print Assumptions C113_first_step_refuted.
(** Wrappers nested in other models are not advanced by the estimator: no schedule of their first step succeeds. *)
Theorem C113_nested_refuted : forall v' u, ~ trains false None (after_init_fn false None) v' u.
Proof. exact nested_never. Qed.
Print Assumptions C113_nested_refuted.
(** With the argument [step]: the new pruning step is the value given, that plus one, or the old one plus one. *)
Theorem C113_given_partial : forall v z v' u, trains true (Some z) v v' u -> v' = z \/ v' = z + 1 \/ v' = v + 1.
Proof. exact step_given. Qed.
Print Assumptions C113_given_partial.
(** The constructor accepts exactly specs with a mode and a train_op whose scaffold, if any, sets no init_fn. *)
Theorem C113_constructor : forall has_mode has_train_op scaffold, spec_ctor has_mode has_train_op scaffold = Ok tt <-> (has_mode = true /\ has_train_op = true /\ scaffold <> Some true).
Proof. intros [] [] [[]|]; cbn; intuition congruence. Qed.
Print Assumptions C113_constructor.
Example C113_ex : trains true (Some 7) 3 7 7 /\ trains true (Some 7) 3 8 3 /\ trains true (Some 7) 3 4 4.
Proof.
  repeat split.
  - exists [BRead; BWrite; AInc; CAssert; CUpdate]. eexists. split; [reflexivity|]. repeat split. cbn. eauto.
  - exists [CAssert; CUpdate; AInc; BRead; BWrite]. eexists. split; [reflexivity|]. repeat split. cbn. eauto.
  - exists [BRead; AInc; BWrite; CAssert; CUpdate]. eexists. split; [reflexivity|]. repeat split. cbn. eauto.
Qed.

Theorem C113_constructor_error : forall has_mode has_train_op scaffold e, spec_ctor has_mode has_train_op scaffold = Err e -> e = ValueError.
Proof. intros [|] [|] [[|]|] e; cbn; congruence. Qed.
Print Assumptions C113_constructor_error.
