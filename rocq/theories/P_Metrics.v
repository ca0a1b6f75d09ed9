(** Property C69: usage gauges.  Statements only. *)
From Coq Require Import String.
From Verif Require Import Base M_Metrics.
Open Scope string_scope.
Open Scope list_scope.
Open Scope nat_scope.

Lemma gauge_eqb_eq a b : gauge_eqb a b = true <-> a = b.
Proof. destruct a, b; cbn; split; congruence. Qed.
Lemma set_same c g l v : set_cell c g l v g l = Some v.
Proof. unfold set_cell. rewrite (proj2 (gauge_eqb_eq g g) eq_refl), String.eqb_refl. reflexivity. Qed.
Lemma set_other c g l v g' l' : (g', l') <> (g, l) -> set_cell c g l v g' l' = c g' l'.
Proof.
  unfold set_cell. destruct (gauge_eqb g' g) eqn:G; auto. apply gauge_eqb_eq in G as ->. destruct (String.eqb_spec l' l); auto. congruence.
Qed.

(** The caller cannot tell the decorated function from the plain one: same result, same error, same effects elsewhere.
    Among the cells exactly the one of the outcome is set; all others are as the function itself left them. *)
Theorem C69_transparent : forall X A E W (f : pyfun X A E W) g x st,
  let '(o, (w, c)) := f x st in let '(o', (w', c')) := monitored g f x st in
  o' = o /\ w' = w /\
  ((exists a, o = Returned a) -> c' g "success" = Some true) /\
  ((exists e, o = RaisedException e) -> c' g "failure" = Some true) /\
  (forall g' l, (g', l) <> (g, "success") \/ ~ (exists a, o = Returned a) ->
                (g', l) <> (g, "failure") \/ ~ (exists e, o = RaisedException e) -> c' g' l = c g' l).
Proof.
  intros X A E W f g x st. unfold monitored. destruct (f x st) as [o [w c]]. destruct o; cbn; repeat split; auto;
    try (intros [? ?]; discriminate); intros; try apply set_same.
  - apply set_other. destruct H as [H|H]; auto. exfalso. apply H. eauto.
  - apply set_other. destruct H0 as [H0|H0]; auto. exfalso. apply H0. eauto.
Qed.
Print Assumptions C69_transparent.

(** Over a program that calls functions decorated with different gauges (and touching no gauge otherwise): a success
    (failure) cell is set iff a call under that gauge returned (raised an Exception); nothing is ever unset. *)
Inductive calls {X A E W} : W -> cells -> list (gauge * outcome A E) -> W -> cells -> Prop :=
| calls_nil : forall w c, calls w c [] w c
| calls_cons : forall w c g (f : pyfun X A E W) x o w1 c1 l w2 c2,
    (forall w0 c0, snd (snd (f x (w0, c0))) = c0) -> monitored g f x (w, c) = (o, (w1, c1)) ->
    calls w1 c1 l w2 c2 -> calls w c ((g, o) :: l) w2 c2.
Theorem C69_history : forall X A E W w0 (l : list (gauge * outcome A E)) (w : W) c,
  @calls X A E W w0 (fun _ _ => None) l w c -> forall g,
  (c g "success" = Some true <-> exists a, In (g, Returned a) l) /\
  (c g "failure" = Some true <-> exists e, In (g, RaisedException e) l) /\
  (forall label, label <> "success" -> label <> "failure" -> c g label = None).
Proof.
  intros X A E W w0 l w c H g.
  enough (G : forall c0, @calls X A E W w0 c0 l w c -> 
    (c g "success" = Some true <-> c0 g "success" = Some true \/ exists a, In (g, Returned a) l) /\
    (c g "failure" = Some true <-> c0 g "failure" = Some true \/ exists e, In (g, RaisedException e) l) /\
    (forall label, label <> "success" -> label <> "failure" -> c g label = c0 g label)).
  { destruct (G _ H) as (G1 & G2 & G3). rewrite G1, G2. repeat split; auto; try (intros [Hx|Hx]; [discriminate|auto]). }
  clear H. intros c0 H. induction H as [w c|w c h f x o w1 c1 l w2 c2 Hf Hm Hc IH].
  - cbn. split; [|split]; try (split; [auto|intros [?|(? & [])]; auto]); auto.
  - destruct IH as (I1 & I2 & I3). unfold monitored in Hm. specialize (Hf w c). destruct (f x (w, c)) as [o1 [w3 c3]]. cbn [snd] in Hf. subst c3.
    assert (T : c1 = match o with Returned _ => set_cell c h "success" true | RaisedException _ => set_cell c h "failure" true | RaisedBase _ => c end).
    { destruct o1; injection Hm as <- <- <-; reflexivity. }
    clear Hm. split; [|split].
    + rewrite I1. subst c1. cbn [In]. destruct o; try (rewrite set_other by congruence).
      * destruct (gauge_eqb g h) eqn:G. { apply gauge_eqb_eq in G as ->. rewrite set_same. split; eauto. }
        assert (g <> h) by (intros Q; apply gauge_eqb_eq in Q; congruence).
        rewrite set_other by congruence. split; (intros [?|(b & Hb)]; [auto|right; exists b]); auto. destruct Hb; auto. congruence.
      * split; (intros [?|(b & Hb)]; [auto|right; exists b]); auto. destruct Hb; auto. congruence.
      * split; (intros [?|(b & Hb)]; [auto|right; exists b]); auto. destruct Hb; auto. congruence.
    + rewrite I2. subst c1. cbn [In]. destruct o; try (rewrite set_other by congruence).
      * split; (intros [?|(b & Hb)]; [auto|right; exists b]); auto. destruct Hb; auto. congruence.
      * destruct (gauge_eqb g h) eqn:G. { apply gauge_eqb_eq in G as ->. rewrite set_same. split; eauto. }
        assert (g <> h) by (intros Q; apply gauge_eqb_eq in Q; congruence).
        rewrite set_other by congruence. split; (intros [?|(b & Hb)]; [auto|right; exists b]); auto. destruct Hb; auto. congruence.
      * split; (intros [?|(b & Hb)]; [auto|right; exists b]); auto. destruct Hb; auto. congruence.
    + intros label N1 N2. rewrite I3 by auto. subst c1. destruct o; auto; apply set_other; congruence.
Qed.
Print Assumptions C69_history.
(** "Exactly one outcome" is false: an interrupted call (KeyboardInterrupt) records none ... *)
Theorem C69_interrupt_refuted : exists (f : pyfun unit nat string unit), 
  monitored QuantizeApply f tt (tt, fun _ _ => None) = (RaisedBase "KeyboardInterrupt", (tt, fun _ _ => None)).
Proof. exists (fun _ st => (RaisedBase "KeyboardInterrupt", st)). reflexivity. Qed.
Print Assumptions C69_interrupt_refuted.
(** Names: the five known ones give five different gauges, every other one raises ValueError. *)
Theorem C69_names : (forall name, get_usage_gauge name = Err ValueError <->
    ~ In name ["prune_for_benchmark_usage"; "prune_low_magnitude_usage"; "prune_low_magnitude_wrapper_usage"; "quantize_apply_usage"; "quantize_wrapper_usage"]) /\
  (forall n1 n2 g, get_usage_gauge n1 = Ok g -> get_usage_gauge n2 = Ok g -> n1 = n2).
Proof.
  split.
  - intros name. unfold get_usage_gauge. cbn [In].
    repeat match goal with |- context [String.eqb name ?s] => destruct (String.eqb_spec name s); [subst; split; [discriminate|intros H; exfalso; apply H; tauto]|] end.
    split; auto. intros _ H. intuition congruence.
  - intros n1 n2 g. unfold get_usage_gauge.
    repeat match goal with |- context [String.eqb ?n ?s] => destruct (String.eqb_spec n s); [subst|] end; congruence.
Qed.
Print Assumptions C69_names.
Example C69_ex : exists w c, @calls nat nat string unit tt (fun _ _ => None) [(QuantizeApply, Returned 4); (QuantizeApply, RaisedException "ValueError"); (PruneWrapper, Returned 1)] w c /\
  c QuantizeApply "success" = Some true /\ c QuantizeApply "failure" = Some true /\ c PruneWrapper "failure" = None.
Proof.
  do 2 eexists. split.
  - eapply (calls_cons _ _ _ (fun x st => (Returned x, st)) 4); [reflexivity|reflexivity|].
    eapply (calls_cons _ _ _ (fun x st => (RaisedException "ValueError", st)) 4); [reflexivity|reflexivity|].
    eapply (calls_cons _ _ _ (fun x st => (Returned x, st)) 1); [reflexivity|reflexivity|]. constructor.
  - repeat split.
Qed.
