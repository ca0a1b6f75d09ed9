(** When the transformer considers a replacement to be no change. *)
From Coq Require Import String.
From Verif Require Import Base M_Tensor M_Transform S_Transform L_Transform L_Transform5.
Open Scope string_scope.
Open Scope nat_scope.

Lemma all2_F2 {A} (f : A -> A -> bool) (P : A -> A -> Prop) : (forall a b, f a b = true <-> P a b) -> forall x y, all2 f x y = true <-> Forall2 P x y.
Proof.
  intros H. induction x as [|a x IH]; intros [|b y]; cbn [all2]; split; intros K; try discriminate; try constructor; try (inversion K; fail).
  - apply andb_prop in K. now apply H. - apply andb_prop in K. now apply IH.
  - inversion K as [|? ? ? ? K1 K2]; subst. apply andb_true_intro. split; [now apply H|now apply IH].
Qed.
Lemma F2_eq {A} (x y : list A) : Forall2 eq x y <-> x = y.
Proof. split; [induction 1; congruence|intros ->; induction y; constructor; auto]. Qed.
Lemma opt_str_iff a b : opt_str_eqb a b = true <-> a = b.
Proof. destruct a as [x|], b as [y|]; cbn; split; try congruence; [intros H; apply String.eqb_eq in H; congruence|intros [= ->]; apply String.eqb_refl]. Qed.
Lemma conn_iff a b : conn_eqb a b = true <-> a = b.
Proof.
  unfold conn_eqb. split.
  - intros H. apply andb_prop in H as [H K]. apply andb_prop in H as [H T]. apply andb_prop in H as [H N].
    apply String.eqb_eq in H. apply Nat.eqb_eq in N, T. rewrite (all2_F2 _ eq) in K.
    + apply F2_eq in K. destruct a, b; cbn in *; congruence.
    + intros [p q] [p' q']; cbn. split; [intros E; apply andb_prop in E as [E F]; apply String.eqb_eq in E; apply opt_str_iff in F; congruence|].
      intros [= -> ->]. rewrite String.eqb_refl. now apply opt_str_iff.
  - intros ->. rewrite String.eqb_refl, !Nat.eqb_refl. cbn [andb]. apply (all2_F2 _ eq); [|now apply F2_eq].
    intros [p q] [p' q']; cbn. split; [intros E; apply andb_prop in E as [E F]; apply String.eqb_eq in E; apply opt_str_iff in F; congruence|].
    intros [= -> ->]. rewrite String.eqb_refl. now apply opt_str_iff.
Qed.
Lemma layer_iff a b : layer_eqb a b = true <-> a = b.
Proof.
  unfold layer_eqb.
  assert (X : forall x y, all2 (fun p q => String.eqb (fst p) (fst q) && String.eqb (snd p) (snd q))%bool x y = true <-> x = y).
  { intros x y. rewrite (all2_F2 _ eq); [apply F2_eq|]. intros [p q] [p' q']; cbn. split; [intros E; apply andb_prop in E as [E F]; apply String.eqb_eq in E, F; congruence|].
    intros [= -> ->]. now rewrite !String.eqb_refl. }
  assert (Y : forall x y, all2 (all2 conn_eqb) x y = true <-> x = y).
  { intros x y. rewrite (all2_F2 _ eq); [apply F2_eq|]. intros p q. rewrite (all2_F2 _ eq); [apply F2_eq|exact conn_iff]. }
  split.
  - intros H. apply andb_prop in H as [H K]. apply andb_prop in H as [H T]. apply andb_prop in H as [H N]. apply String.eqb_eq in H, N. apply X in T. apply Y in K.
    destruct a, b; cbn in *; congruence.
  - intros ->. rewrite !String.eqb_refl. cbn [andb]. rewrite (proj2 (X _ _) eq_refl), (proj2 (Y _ _) eq_refl). reflexivity.
Qed.
Lemma wts_iff a b : wts_eqb a b = true <-> same_named a b.
Proof.
  unfold wts_eqb, same_named. apply all2_F2. intros [p q] [p' q']; cbn [fst snd]. unfold tensor_eqb, same_tensor.
  destruct (list_eq_dec Nat.eq_dec (shape q) (shape q')) as [E|E]; cbn [andb].
  - rewrite andb_true_iff, String.eqb_eq, (all2_F2 _ Qeq) by (intros; apply Qeq_bool_iff). tauto.
  - rewrite andb_false_r. split; [discriminate|tauto].
Qed.
Lemma node_iff meq a : forall b, node_eqb meq a b = true <-> same_node meq a b.
Proof.
  induction a as [l w nw m ins IH] using node_ind'. intros [l' w' nw' m' ins']. cbn [node_eqb]. rewrite !andb_true_iff, layer_iff, wts_iff.
  assert (X : forall ins', (fix go (x y : list node) : bool := match x, y with [], [] => true | u :: x', v :: y' => (node_eqb meq u v && go x' y')%bool | _, _ => false end) ins ins' = true <->
    Forall2 (same_node meq) ins ins').
  { clear ins'. induction IH as [|u ins Hu _ IHl]; intros [|v ins']; split; intros K; try discriminate; try constructor; try (inversion K; fail).
    - apply andb_prop in K. now apply Hu. - apply andb_prop in K. now apply IHl.
    - inversion K as [|? ? ? ? K1 K2]; subst. apply andb_true_intro. split; [now apply Hu|now apply IHl]. }
  rewrite X. split.
  - intros [[[-> A] B] C]. now constructor.
  - intros K. inversion K; subst. tauto.
Qed.

Lemma step_replacement meq k ts st0 s t m r : about_to_replace meq k ts st0 s t m r ->
  (same_node meq m r -> exists s', step meq k ts s = Running s' /\ ls_state s' = ls_state s /\ ls_found s' = ls_found s /\ ls_matched s' = (t_name t, n_name m) :: ls_matched s) /\
  (~ same_node meq m r -> forall st', replace k (ls_state s) m r = Ok st' ->
     exists s', step meq k ts s = Running s' /\ ls_state s' = st' /\ ls_found s' = true /\ ls_matched s' = (t_name t, n_name m) :: ls_matched s) /\
  (~ same_node meq m r -> forall e, replace k (ls_state s) m r = Err e -> step meq k ts s = Failed e).
Proof.
  intros (_ & _ & (rest & T) & F & R). unfold step. rewrite T, F, R. destruct (node_eqb meq m r) eqn:E.
  - apply node_iff in E. split; [|split; intros; contradiction]. intros _. eexists. split; [reflexivity|]. repeat split.
  - split; [intros N; apply node_iff in N; congruence|]. split.
    + intros _ st' ->. eexists. split; [reflexivity|]. repeat split.
    + intros _ e ->. reflexivity.
Qed.
Lemma identity_run meq k ts st0 : (forall s t m r, about_to_replace meq k ts st0 s t m r -> same_node meq m r) ->
  forall n s, iterate meq k ts n (start ts st0) = Running s -> ls_state s = st0 /\ ls_found s = false.
Proof.
  intros H. induction n as [|n IH]; intros s E; [cbn in E; injection E as <-; split; reflexivity|].
  rewrite iterate_S in E. destruct (iterate meq k ts n (start ts st0)) as [s0| |] eqn:E0; try discriminate.
  destruct (IH s0 eq_refl) as [A B]. destruct (todo_sub meq k ts st0 n s0 E0) as (pre & P). unfold step in E. destruct (ls_todo s0) as [|t rest] eqn:T.
  - rewrite B in E. discriminate.
  - destruct (find_pattern _ _ _ _) as [[m|]|] eqn:F; try discriminate.
    + destruct (t_repl _ _ _) as [r|] eqn:R; try discriminate.
      assert (same_node meq m r) as S1. { apply (H s0 t). repeat split; eauto. rewrite P, in_app_iff. right; now left. }
      apply node_iff in S1. rewrite S1 in E. injection E as <-. auto.
    + injection E as <-. auto.
Qed.
Lemma identity_done meq k ts st0 : (forall s t m r, about_to_replace meq k ts st0 s t m r -> same_node meq m r) ->
  forall n st, iterate meq k ts n (start ts st0) = Done st -> st = st0.
Proof.
  intros H. induction n as [|n IH]; intros st E; [discriminate|].
  rewrite iterate_S in E. destruct (iterate meq k ts n (start ts st0)) as [s0|st1|e] eqn:E0; try discriminate; [|injection E as <-; auto].
  destruct (identity_run meq k ts st0 H n s0 E0) as [A B]. unfold step in E. destruct (ls_todo s0) as [|t rest].
  - rewrite B in E. injection E as <-. exact A.
  - destruct (find_pattern _ _ _ _) as [[m|]|]; try discriminate. destruct (t_repl _ _ _); try discriminate. destruct (node_eqb _ _ _); [discriminate|].
    destruct (replace _ _ _ _); discriminate.
Qed.
