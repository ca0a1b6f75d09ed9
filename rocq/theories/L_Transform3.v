From Coq Require Import String Permutation.
From Verif Require Import Base M_Tensor M_Transform S_Transform L_Transform L_Transform2.
Open Scope nat_scope.

Lemma by_name st l l' : NoDup (names st) -> In l (s_layers st) -> In l' (s_layers st) -> lc_name l = lc_name l' -> l = l'.
Proof.
  unfold names. induction (s_layers st) as [|a r IH]; cbn; [easy|]. intros ND. inversion ND as [|? ? N1 N2]; subst.
  intros [->|A] [->|B] E; auto.
  - exfalso; apply N1. rewrite E. apply in_map_iff; eauto.
  - exfalso; apply N1. rewrite <- E. apply in_map_iff; eauto.
Qed.
Lemma two_length {A} (l : list A) a b : In a l -> In b l -> a <> b -> 2 <= List.length l.
Proof. intros Ha Hb D. destruct l as [|x [|y r]]; cbn in *; [easy| |lia]. destruct Ha as [->|[]], Hb as [->|[]]. congruence. Qed.

Section Match.
  Variable st : state.
  Hypothesis W : wf_graph st.
  (** A node's input is read by it. *)
  Lemma mtree_reads hd x a : mtree Functional st hd x -> In a (n_inputs x) -> In (n_name a) (inbound_layer_names (n_layer x)) /\ mtree Functional st false a.
  Proof.
    intros M I. inversion M as [? ? G E F]; subst. rewrite Forall_forall in F. split; [|auto].
    destruct E as [E|(inames & E1 & E2)]; [rewrite E in I; easy|]. cbn in E1. destruct (lc_inbound (n_layer x)) as [|cs r] eqn:EI; [discriminate|].
    injection E1 as E1. assert (J : In (n_layer a) (get_layers st inames)) by (rewrite <- E2; now apply in_map).
    apply filter_In in J as [_ J]. apply inb_In in J. rewrite <- E1 in J. apply in_map_iff in J as (c & C1 & C2).
    unfold inbound_layer_names. rewrite EI. cbn [flat_map]. apply in_app_iff; left. apply in_flat_map. exists c; split; auto. left. exact C1.
  Qed.
  Lemma mtree_layer hd x : mtree Functional st hd x -> In (n_layer x) (s_layers st).
  Proof. intros M; inversion M as [? ? G]; subst. apply G. Qed.
  (** Consumers of an interior node. *)
  Lemma single_consumer a l l' : mtree Functional st false a -> In l (s_layers st) -> In l' (s_layers st) ->
    In (n_name a) (inbound_layer_names l) -> In (n_name a) (inbound_layer_names l') -> l = l'.
  Proof.
    intros M A B C D. inversion M as [? ? G]; subst. destruct G as (_ & _ & _ & _ & _ & G). specialize (G eq_refl). unfold is_match_supported in G.
    destruct (1 <? List.length (lc_inbound (n_layer a))); [discriminate|].
    destruct (Nat.ltb_spec 1 (List.length (consuming_layers st (lc_name (n_layer a))) + List.length (output_consumers st (lc_name (n_layer a))))) as [HC|HC]; [discriminate|].
    assert (IA : In l (consuming_layers st (n_name a))) by (apply filter_In; split; auto; now apply inb_In).
    assert (IB : In l' (consuming_layers st (n_name a))) by (apply filter_In; split; auto; now apply inb_In).
    destruct (consuming_layers st (n_name a)) as [|u [|v r]] eqn:E; [easy| |unfold n_name in E; rewrite E in HC; cbn in HC; lia].
    destruct IA as [->|[]], IB as [->|[]]; auto.
  Qed.
  Lemma no_output a l c : mtree Functional st false a -> In l (s_layers st) -> In (n_name a) (inbound_layer_names l) -> In c (s_outputs st) -> c_name c <> n_name a.
  Proof.
    intros M A C D E. inversion M as [? ? G]; subst. destruct G as (_ & _ & _ & _ & _ & G). specialize (G eq_refl). unfold is_match_supported in G.
    destruct (1 <? List.length (lc_inbound (n_layer a))); [discriminate|].
    destruct (Nat.ltb_spec 1 (List.length (consuming_layers st (lc_name (n_layer a))) + List.length (output_consumers st (lc_name (n_layer a))))) as [HC|HC]; [discriminate|].
    assert (IA : In l (consuming_layers st (n_name a))) by (apply filter_In; split; auto; now apply inb_In).
    assert (IB : In c (output_consumers st (n_name a))) by (apply filter_In; split; auto; now apply String.eqb_eq).
    unfold n_name in IA, IB. destruct (consuming_layers _ _); [easy|]. destruct (output_consumers _ _); [easy|]. cbn in HC; lia.
  Qed.
  Lemma mtree_rank rk hd m x : (forall l n, In l (s_layers st) -> In n (inbound_layer_names l) -> rk n < rk (lc_name l)) ->
    mtree Functional st hd m -> node_in x m -> (x = m \/ rk (n_name x) < rk (n_name m)).
  Proof.
    intros R. revert hd. induction m as [l w nw md ins IH] using node_ind'; intros hd M N. apply node_in_cons in N as [->|(a & A & B)]; auto. right.
    rewrite Forall_forall in IH. destruct (mtree_reads hd _ a M A) as [I Ma]. apply R in I; [|eapply mtree_layer; eauto].
    unfold n_name at 2; cbn [n_layer]. cbn [n_layer] in I. destruct (IH a A false Ma B) as [->|J]; auto. lia.
  Qed.
  (** Every name of a subtree but its root has a consumer inside the subtree. *)
  Lemma consumer_inside hd m n : mtree Functional st hd m -> In n (layer_names m) -> n = n_name m \/
    exists p a, node_in p m /\ In a (n_inputs p) /\ n_name a = n /\ (exists h, mtree Functional st h p).
  Proof.
    intros M H. apply in_layer_names in H as (x & X & <-). revert hd M. induction X as [x|a l w nw md ins x A X IH]; intros hd M; auto. right.
    destruct (mtree_reads hd _ a M A) as [_ Ma]. destruct (IH false Ma) as [E|(p & b & P1 & P2 & P3)].
    - exists (Node l w nw md ins), a. split; [constructor|]. repeat split; eauto.
    - exists p, b. split; [econstructor; eauto|]; tauto.
  Qed.
  Lemma nodup_match hd m : mtree Functional st hd m -> NoDup (layer_names m).
  Proof.
    destruct (wf_acyclic st W) as (rk & R).
    revert hd; induction m as [l w nw md ins IH] using node_ind'; intros hd M. pose (p := Node l w nw md ins). cbn [layer_names].
    assert (RK : forall a x, In a ins -> node_in x a -> rk (n_name x) < rk (lc_name l)).
    { intros a x A X. destruct (mtree_rank rk hd p x R M) as [E|E]; [econstructor; eauto| |exact E].
      exfalso. destruct (mtree_reads hd p a M A) as [I Ma]. apply R in I; [|eapply mtree_layer; eauto]. destruct (mtree_rank rk false a x R Ma X) as [->|K]; subst; unfold n_name in *; cbn in *; lia. }
    constructor.
    - rewrite in_flat_map. intros (a & A & B). apply in_layer_names in B as (x & X & E). specialize (RK a x A X). rewrite E in RK. lia.
    - assert (NDL : NoDup (map n_name ins)).
      { inversion M as [? ? G E F]; subst. destruct E as [E|(inames & E1 & E2)]; cbn in *; [subst; constructor|]. unfold n_name. rewrite <- map_map, E2.
        pose proof (wf_names st W) as ND. unfold names in ND. clear -ND. unfold get_layers. induction (s_layers st) as [|u r IHr]; cbn; [constructor|].
        inversion ND; subst. destruct (inb _ _); auto. cbn. constructor; auto. intros H. apply H1. apply in_map_iff in H as (y & <- & H). apply filter_In in H as [H _]. now apply in_map. }
      assert (DJ : forall a b, In a ins -> In b ins -> n_name a <> n_name b -> forall n, In n (layer_names a) -> In n (layer_names b) -> False).
      { intros a b A B D. destruct (mtree_reads hd p a M A) as [Ia Ma]. destruct (mtree_reads hd p b M B) as [Ib Mb].
        enough (Q : forall k n, rk (lc_name l) - rk n <= k -> In n (layer_names a) -> In n (layer_names b) -> False) by (intros n; apply (Q _ n (Nat.le_refl _))).
        assert (LT : forall a n, In a ins -> In n (layer_names a) -> rk n < rk (lc_name l)) by (intros a' n A' H; apply in_layer_names in H as (x & X & <-); eauto).
        induction k as [|k IHk]; intros n K Na Nb; [pose proof (LT a n A Na); lia|].
        destruct (consumer_inside false a n Ma Na) as [Ea|(pa & xa & P1 & P2 & P3 & h1 & P4)]; destruct (consumer_inside false b n Mb Nb) as [Eb|(pb & xb & Q1 & Q2 & Q3 & h2 & Q4)].
        - congruence.
        - (* n is a's root, below b *) destruct (mtree_reads h2 pb xb Q4 Q2) as [J1 J2].
          assert (E : n_layer p = n_layer pb) by (apply (single_consumer xb); auto; try (eapply mtree_layer; eauto); now rewrite Q3, Ea).
          apply (Nat.lt_irrefl (rk (lc_name l))). apply (LT b); auto. apply in_layer_names. exists pb. split; auto. unfold n_name. now rewrite <- E.
        - destruct (mtree_reads h1 pa xa P4 P2) as [J1 J2].
          assert (E : n_layer p = n_layer pa) by (apply (single_consumer xa); auto; try (eapply mtree_layer; eauto); now rewrite P3, Eb).
          apply (Nat.lt_irrefl (rk (lc_name l))). apply (LT a); auto. apply in_layer_names. exists pa. split; auto. unfold n_name. now rewrite <- E.
        - destruct (mtree_reads h1 pa xa P4 P2) as [J1 J2]. destruct (mtree_reads h2 pb xb Q4 Q2) as [J3 J4].
          assert (E : n_layer pa = n_layer pb) by (apply (single_consumer xa); auto; try (eapply mtree_layer; eauto); now rewrite P3, <- Q3).
          assert (L : rk n < rk (lc_name (n_layer pa))) by (rewrite <- P3; apply R; auto; eapply mtree_layer; eauto).
          assert (L1 : In (lc_name (n_layer pa)) (layer_names a)) by (apply in_layer_names; exists pa; auto).
          apply (IHk (lc_name (n_layer pa))); auto; [pose proof (LT a _ A L1); lia|]. rewrite E. apply in_layer_names; exists pb; auto. }
      assert (NS : forall a, In a ins -> NoDup (layer_names a)).
      { intros a A. rewrite Forall_forall in IH. destruct (mtree_reads hd p a M A) as [_ Ma]. eapply IH; eauto. }
      clear - NDL DJ NS. induction ins as [|a r IHr]; cbn [flat_map]; [constructor|]. cbn in NDL. inversion NDL; subst.
      assert (Q : NoDup (flat_map layer_names r)) by (apply IHr; auto; [intros x y X Y; apply DJ; now right|intros; apply NS; now right]).
      assert (Q2 : forall n, In n (layer_names a) -> ~ In n (flat_map layer_names r)).
      { intros n X Y. apply in_flat_map in Y as (b & B1 & B2). apply (DJ a b (or_introl eq_refl) (or_intror B1)) with (n := n); auto.
        intros E. apply H1. rewrite E. now apply in_map. }
      specialize (NS a (or_introl eq_refl)). clear - NS Q Q2. induction (layer_names a) as [|x t IHt]; cbn; auto. inversion NS; subst.
      constructor; [rewrite in_app_iff; intros [?|?]; [auto|eapply Q2; [left; reflexivity|auto]]|apply IHt; auto]. intros; apply Q2; now right.
  Qed.
  (** Nothing outside a match reads an interior node; no output is one. *)
  Lemma outside_reads_head m l n : mtree Functional st true m -> In l (s_layers st) -> ~ In (lc_name l) (layer_names m) -> In n (inbound_layer_names l) -> In n (layer_names m) -> n = n_name m.
  Proof.
    intros M L NL I H. destruct (consumer_inside true m n M H) as [->|(p & a & P1 & P2 & P3 & h & P4)]; auto. exfalso. apply NL.
    destruct (mtree_reads h p a P4 P2) as [J Ma]. assert (E : l = n_layer p) by (apply (single_consumer a); auto; [eapply mtree_layer; eauto|now rewrite P3]).
    rewrite E. apply in_layer_names. exists p; auto.
  Qed.
  Lemma output_head m c : mtree Functional st true m -> In c (s_outputs st) -> In (c_name c) (layer_names m) -> c_name c = n_name m.
  Proof.
    intros M I H. destruct (consumer_inside true m _ M H) as [->|(p & a & P1 & P2 & P3 & h & P4)]; auto. exfalso.
    destruct (mtree_reads h p a P4 P2) as [J Ma]. eapply no_output; eauto. eapply mtree_layer; eauto.
  Qed.
  (** A leaf of the match reads nothing of the match. *)
  Lemma leaf_reads_outside m l n : mtree Functional st true m -> In l (leaf_layers m) -> In n (inbound_layer_names l) -> ~ In n (layer_names m).
  Proof.
    intros M L I H. destruct (leaf_in m l L) as (x & X & E & EI). subst l. destruct (mtree_in _ _ _ _ M x X) as (hx & Mx).
    destruct (wf_acyclic st W) as (rk & R). pose proof (nodup_match true m M) as ND.
    destruct (consumer_inside true m n M H) as [->|(p & a & P1 & P2 & P3 & h & P4)].
    - apply R in I; [|eapply mtree_layer; eauto]. destruct (mtree_rank rk true m x R M X) as [->|J]; unfold n_name in *; lia.
    - destruct (mtree_reads h p a P4 P2) as [J Ma]. assert (E : n_layer x = n_layer p) by (apply (single_consumer a); auto; try (eapply mtree_layer; eauto); now rewrite P3).
      assert (E' : x = p).
      { rewrite layer_names_preorder in ND. apply node_in_preorder in X, P1. assert (EN : n_name x = n_name p) by (unfold n_name; now rewrite E).
        clear - ND X P1 EN. induction (preorder m) as [|y r IH]; [easy|]. cbn in ND. inversion ND; subst.
        destruct X as [->|X], P1 as [->|P1]; auto; exfalso; apply H1; [rewrite EN|rewrite <- EN]; now apply in_map. }
      subst p. rewrite EI in P2. easy.
  Qed.
End Match.
