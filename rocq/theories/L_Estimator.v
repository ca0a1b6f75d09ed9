(** Lemmas about estimator training. *)
From Verif Require Import Base M_Estimator S_Estimator.
Open Scope Z_scope.

(** Reachable states of one run that starts at [v]. *)
Inductive reach (top : bool) (step : option Z) (v : Z) : run_state -> Prop :=
| re_start : reach top step v (start v)
| re_act s a s' : reach top step v s -> act top step a s = Some (Ok s') -> reach top step v s'.
Lemma exec_reach top step v sched : forall s s', reach top step v s -> exec top step sched s = Some (Ok s') -> reach top step v s'.
Proof.
  induction sched as [|a r IH]; intros s s' R E; cbn [exec] in E; [injection E as <-; exact R|].
  destruct (act top step a s) as [[s1|e]|] eqn:A; try discriminate. apply (IH s1); [|exact E]. eapply re_act; eauto.
Qed.
(** Without a step argument: the value is v plus the increments that have taken effect; the wrapper's write may erase the
    estimator's. *)
Lemma reach_none top v s : reach top None v s ->
  (rs_inc s = true -> top = true) /\
  match rs_b s with
  | B0 => rs_step s = v + (if rs_inc s then 1 else 0)
  | B1 r => rs_step s = v + (if rs_inc s then 1 else 0) /\ (r = v \/ (r = v + 1 /\ rs_inc s = true))
  | B2 => rs_step s = v + 1 \/ (rs_step s = v + 2 /\ rs_inc s = true)
  end /\ match rs_c s with C2 u => v <= u <= rs_step s /\ 1 <= u | C1 => 1 <= rs_step s | C0 => True end.
Proof.
  induction 1 as [|s a s' R IH A]; [cbn; lia|]. destruct IH as (I1 & I2 & I3). destruct s as [st inc b c]. cbn [rs_step rs_inc rs_b rs_c] in *.
  destruct a; cbn [act rs_step rs_inc rs_b rs_c] in A.
  - destruct top, inc; cbn in A; try discriminate. injection A as <-. cbn [rs_step rs_inc rs_b rs_c]. split; [auto|]. destruct b as [|r|], c as [| |u]; lia.
  - destruct b; try discriminate. injection A as <-. cbn [rs_step rs_inc rs_b rs_c]. split; [auto|]. destruct inc, c; intuition lia.
  - destruct b as [|r|]; try discriminate. injection A as <-. cbn [rs_step rs_inc rs_b rs_c]. split; [auto|]. destruct inc, c; intuition (try lia; try discriminate).
  - destruct c; try discriminate. destruct (Z.leb_spec 1 st); try discriminate. injection A as <-. cbn [rs_step rs_inc rs_b rs_c]. auto.
  - destruct c; try discriminate. injection A as <-. cbn [rs_step rs_inc rs_b rs_c]. split; [auto|]. split; [exact I2|]. destruct b, inc; intuition lia.
Qed.
Lemma reach_some v z s : reach true (Some z) v s ->
  match rs_b s with
  | B0 => rs_step s = (if rs_inc s then z else v)
  | B1 r => rs_step s = (if rs_inc s then z else v) /\ (r = v \/ (r = z /\ rs_inc s = true))
  | B2 => rs_step s = v + 1 \/ (rs_inc s = true /\ (rs_step s = z \/ rs_step s = z + 1))
  end.
Proof.
  induction 1 as [|s a s' R IH A]; [reflexivity|]. destruct s as [st inc b c]. cbn [rs_step rs_inc rs_b rs_c] in *.
  destruct a; cbn [act rs_step rs_inc rs_b rs_c] in A.
  - destruct inc; cbn in A; try discriminate. injection A as <-. cbn [rs_step rs_inc rs_b rs_c]. destruct b; intuition lia.
  - destruct b; try discriminate. injection A as <-. cbn [rs_step rs_inc rs_b rs_c]. destruct inc; intuition lia.
  - destruct b as [|r|]; try discriminate. injection A as <-. cbn [rs_step rs_inc rs_b rs_c]. destruct inc; intuition lia.
  - destruct c; try discriminate. destruct (Z.leb_spec 1 st); try discriminate. injection A as <-. exact IH.
  - destruct c; try discriminate. injection A as <-. exact IH.
Qed.
Theorem one_step top v v' u : trains top None v v' u -> (v' = v + 1 \/ (v' = v + 2 /\ top = true)) /\ v <= u <= v' /\ 1 <= u.
Proof.
  intros (sched & s & E & (Ci & Cb & w & Cc) & Es & Eu). pose proof (reach_none _ _ _ (exec_reach _ _ _ _ _ _ (re_start _ _ _) E)) as (I1 & I2 & I3).
  rewrite Cb in I2. rewrite Eu in I3. subst v'. split; [|lia]. destruct I2 as [I2|[I2 I4]]; [now left|right]. split; [exact I2|]. now apply I1.
Qed.
Theorem step_given v z v' u : trains true (Some z) v v' u -> v' = z \/ v' = z + 1 \/ v' = v + 1.
Proof.
  intros (sched & s & E & (Ci & Cb & w & Cc) & Es & Eu). pose proof (reach_some _ _ _ (exec_reach _ _ _ _ _ _ (re_start _ _ _) E)) as I2.
  rewrite Cb in I2. lia.
Qed.
Ltac run L := let s := fresh in exists L; eexists; split; [reflexivity|]; split; [split; [reflexivity|]; split; [reflexivity|eexists; reflexivity]|split; [reflexivity|]].
Lemma leb_true v : 1 <= v -> Z.leb 1 v = true. Proof. lia. Qed.
Theorem both_happen v : 0 <= v -> (exists u, trains true None v (v + 1) u) /\ (exists u, trains true None v (v + 2) u).
Proof.
  intros P. split.
  - exists (v + 1). exists [BRead; AInc; BWrite; CAssert; CUpdate], (mkRS (v + 1) true B2 (C2 (v + 1))). split.
    + cbn. rewrite (leb_true (v + 1)) by lia. reflexivity.
    + repeat split. cbn. eauto.
  - exists (v + 1 + 1). exists [AInc; BRead; BWrite; CAssert; CUpdate], (mkRS (v + 1 + 1) true B2 (C2 (v + 1 + 1))). split.
    + cbn. rewrite (leb_true (v + 1 + 1)) by lia. reflexivity.
    + repeat split; cbn; [eauto|lia].
Qed.
Theorem bounds top n v v' : training top n v v' -> v + Z.of_nat n <= v' <= v + (if top then 2 else 1) * Z.of_nat n.
Proof. induction 1 as [|n v v1 v2 u T IH S1]; [destruct top; lia|]. destruct (one_step _ _ _ _ S1) as ([E|[E E']] & _); destruct top; try discriminate; lia. Qed.
Theorem bounds_attained n : training true n 0 (Z.of_nat n) /\ training true n 0 (2 * Z.of_nat n).
Proof.
  split.
  - induction n as [|n IH]; [apply tr_none|]. destruct (both_happen (Z.of_nat n)) as ((u & T) & _); [lia|]. replace (Z.of_nat (S n)) with (Z.of_nat n + 1) by lia. eapply tr_more; eauto.
  - induction n as [|n IH]; [apply tr_none|]. destruct (both_happen (2 * Z.of_nat n)) as (_ & (u & T)); [lia|]. replace (2 * Z.of_nat (S n)) with (2 * Z.of_nat n + 2) by lia. eapply tr_more; eauto.
Qed.
Theorem fails_iff top v : fails top None v <-> v <= 0.
Proof.
  split.
  - intros (sched & e & E). destruct (Z.leb_spec v 0); [assumption|exfalso].
    assert (K : forall sched s, reach top None v s -> exec top None sched s <> Some (Err e)).
    { clear E sched. intros sched. induction sched as [|a r IH]; intros s R; cbn [exec]; [discriminate|].
      destruct (act top None a s) as [[s1|e1]|] eqn:A; [|intros [= ->]|discriminate]; [apply IH; eapply re_act; eauto|].
      pose proof (reach_none _ _ _ R) as (I1 & I2 & I3). destruct s as [st inc b c]. cbn [rs_step rs_inc rs_b rs_c] in *. destruct a; cbn [act rs_step rs_inc rs_b rs_c] in A.
      - destruct (top && negb inc)%bool; discriminate.
      - destruct b; discriminate.
      - destruct b; discriminate.
      - destruct c; try discriminate. destruct (Z.leb_spec 1 st); try discriminate. destruct b, inc; lia.
      - destruct c; discriminate. }
    exact (K sched (start v) (re_start _ _ _) E).
  - intros L. exists [CAssert], InvalidArgument. cbn. destruct (Z.leb_spec 1 v); [lia|reflexivity].
Qed.
Theorem nested_never v' u : ~ trains false None (after_init_fn false None) v' u.
Proof. intros T. destruct (one_step _ _ _ _ T) as ([E|[_ E]] & U); [|discriminate]. change (after_init_fn false None) with (-1) in *. lia. Qed.
