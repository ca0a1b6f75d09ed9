From Coq Require Import String Permutation.
From Verif Require Import Base M_Tensor M_Transform S_Transform L_Transform L_Transform2 L_Transform3.
Open Scope nat_scope.

(** Layers of the wired replacement: a leaf carries the connections of a leaf of the match, any other node reads its inputs. *)
Definition wired_ok (ibs : list (list (list conn))) (x : node) : Prop :=
  (In (lc_inbound (n_layer x)) ibs /\ n_inputs x = []) \/
  lc_inbound (n_layer x) = [map (fun i => mkConn (n_name i) 0 0 []) (n_inputs x)].
Lemma leaf_count_cons l w nw m a r : List.length (leaf_layers (Node l w nw m (a :: r))) = list_sum (map (fun n => List.length (leaf_layers n)) (a :: r)).
Proof.
  change (leaf_layers (Node l w nw m (a :: r))) with (flat_map leaf_layers (a :: r)). induction (a :: r) as [|x t IH]; auto. cbn [flat_map map list_sum fold_right]. rewrite app_length, IH. reflexivity.
Qed.
Lemma name_set_leaves n ibs : n_name (fst (set_leaves n ibs)) = n_name n.
Proof. destruct n as [l w nw m [|a r]]; [destruct ibs; reflexivity|]. rewrite set_leaves_cons. destruct (set_go (a :: r) ibs); reflexivity. Qed.
Lemma set_go_names ns : forall ibs, map n_name (fst (set_go ns ibs)) = map n_name ns.
Proof.
  induction ns as [|a r IH]; intros ibs; auto. rewrite set_go_cons. pose proof (name_set_leaves a ibs). destruct (set_leaves a ibs) as [a' q]. specialize (IH q). destruct (set_go r q). cbn in *. congruence.
Qed.
(** Nodes of [n] before the leaves are set: an inner node reads its inputs. *)
Definition inner_ok (x : node) : Prop := n_inputs x = [] \/ lc_inbound (n_layer x) = [map (fun i => mkConn (n_name i) 0 0 []) (n_inputs x)].
Lemma set_leaves_spec n : forall ibs all, Forall inner_ok (preorder n) -> List.length (leaf_layers n) <= List.length ibs -> (forall i, In i ibs -> In i all) ->
  Forall (wired_ok all) (preorder (fst (set_leaves n ibs))) /\ snd (set_leaves n ibs) = skipn (List.length (leaf_layers n)) ibs.
Proof.
  induction n as [l w nw m ins IH] using node_ind'; intros ibs all IO L SB. destruct ins as [|a r].
  - cbn in L. destruct ibs as [|i ibs]; [cbn in L; lia|]. cbn. split; auto. constructor; [|constructor]. left. cbn. split; auto; apply SB; now left.
  - rewrite set_leaves_cons. rewrite leaf_count_cons in *. cbn [preorder] in IO. inversion IO as [|? ? I1 I2]; subst.
    pose proof (set_go_names (a :: r) ibs) as NM. destruct I1 as [I1|I1]; [discriminate|]. cbn [n_layer n_inputs] in I1.
    change (preorder a ++ flat_map preorder r)%list with (flat_map preorder (a :: r)) in I2. generalize dependent (a :: r). clear a r. intros ins IH IO L I1 I2 NM.
    assert (G : Forall (wired_ok all) (flat_map preorder (fst (set_go ins ibs))) /\ snd (set_go ins ibs) = skipn (list_sum (map (fun n => List.length (leaf_layers n)) ins)) ibs).
    { clear I1 NM IO. revert ibs L SB. induction IH as [|x ns H F IHF]; intros ibs L SB; [cbn; auto|]. cbn [flat_map] in I2. apply Forall_app in I2 as [J1 J2].
      rewrite set_go_cons. change (list_sum (map (fun n => List.length (leaf_layers n)) (x :: ns))) with (List.length (leaf_layers x) + list_sum (map (fun n => List.length (leaf_layers n)) ns)) in *.
      destruct (H ibs all J1) as [A B]; auto; [lia|]. destruct (set_leaves x ibs) as [x' q]. cbn [fst snd] in *. subst q.
      destruct (IHF J2 (skipn (List.length (leaf_layers x)) ibs)) as [C D].
      - rewrite skipn_length. lia.
      - intros i Hi. apply SB. rewrite <- (firstn_skipn (List.length (leaf_layers x)) ibs). apply in_app_iff; auto.
      - destruct (set_go ns (skipn (List.length (leaf_layers x)) ibs)) as [ns' q']. cbn [fst snd flat_map] in *. split; [now apply Forall_app|]. rewrite D. 
        clear. rewrite Nat.add_comm. revert ibs. induction (List.length (leaf_layers x)) as [|k IHk]; intros ibs; [now rewrite Nat.add_0_r|]. rewrite Nat.add_succ_r.
        destruct ibs; cbn [skipn]; auto. now rewrite skipn_nil. }
    destruct (set_go ins ibs) as [ins' q]. cbn [fst snd preorder] in *. destruct G as [G1 G2]. split; auto. constructor; auto. right. cbn [n_layer n_inputs]. rewrite I1. f_equal.
    rewrite <- (map_map n_name (fun s => mkConn s 0 0 [])), <- (map_map n_name (fun s => mkConn s 0 0 []) ins'), NM. reflexivity.
Qed.
Lemma assign_name n : n_name (assign_inbounds n) = n_name n.
Proof. destruct n as [l w nw m [|a r]]; reflexivity. Qed.
Lemma assign_inner n : Forall inner_ok (preorder (assign_inbounds n)).
Proof.
  induction n as [l w nw m ins IH] using node_ind'. destruct ins as [|a r]; [repeat constructor|].
  change (preorder (assign_inbounds (Node l w nw m (a :: r)))) with
      (Node (set_inbound l [map (fun i => mkConn (n_name i) 0 0 []) (a :: r)]) w nw m (map assign_inbounds (a :: r)) :: flat_map preorder (map assign_inbounds (a :: r))).
  constructor.
  - right. cbn [n_layer n_inputs lc_inbound set_inbound]. f_equal. rewrite map_map. apply map_ext. intros x. now rewrite assign_name.
  - generalize dependent (a :: r). clear a r. intros ins IH. induction IH; cbn [flat_map map]; [constructor|]. now apply Forall_app.
Qed.
Lemma wired_spec m r : List.length (leaf_layers (assign_inbounds r)) = List.length (leaf_layers m) -> Forall (wired_ok (map lc_inbound (leaf_layers m))) (preorder (wired m r)).
Proof. intros E. apply set_leaves_spec; [apply assign_inner|rewrite map_length; lia|auto]. Qed.

Fixpoint nsize (n : node) : nat := match n with Node _ _ _ _ ins => S (list_sum (map nsize ins)) end.
Lemma nsize_in n x : node_in x n -> nsize x <= nsize n.
Proof.
  induction 1 as [|a l w nw m ins x A X IH]; auto. cbn [nsize]. enough (nsize a <= list_sum (map nsize ins)) by lia.
  clear -A. induction ins as [|b r IH]; [easy|]. destruct A as [->|A]; cbn; [lia|]. specialize (IH A). unfold list_sum in IH. lia.
Qed.
Lemma nsize_input x a : In a (n_inputs x) -> nsize a < nsize x.
Proof. destruct x as [l w nw m ins]. cbn [n_inputs nsize]. intros A. enough (nsize a <= list_sum (map nsize ins)) by lia. induction ins as [|b r IH]; [easy|]. destruct A as [->|A]; cbn; [lia|]. specialize (IH A). unfold list_sum in IH. lia. Qed.
Definition size_of (ns : list node) (n : string) : nat := match find (fun x => String.eqb (n_name x) n) ns with Some x => nsize x | None => 0 end.
Lemma size_of_in ns x : NoDup (map n_name ns) -> In x ns -> size_of ns (n_name x) = nsize x.
Proof.
  unfold size_of. induction ns as [|a r IH]; [easy|]. cbn. intros ND. inversion ND as [|? ? N1 N2]; subst. intros [->|I]; [now rewrite String.eqb_refl|].
  destruct (String.eqb_spec (n_name a) (n_name x)) as [E|E]; auto. exfalso; apply N1. rewrite E. now apply in_map.
Qed.
Lemma inbound_of_layer l w n : In n (flat_map (flat_map conn_names) w) -> lc_inbound l = w -> In n (inbound_layer_names l).
Proof. unfold inbound_layer_names. now intros H ->. Qed.

Theorem replace_wf st m r st' : wf_graph st -> mtree Functional st true m -> names_ok st m r -> replace_functional st m r = Ok st' -> wf_graph st'.
Proof.
  intros W M [ND NO] H. pose proof (replace_functional_layers st m r st' H) as (HL & HO & _ & HC).
  pose proof (wired_spec m r HC) as WO. rewrite Forall_forall in WO.
  assert (WN : forall x, In x (preorder (wired m r)) -> In (n_name x) (layer_names r)) by (intros x X; rewrite <- (wired_names m r), layer_names_preorder; now apply in_map).
  assert (NDW : NoDup (map n_name (preorder (wired m r)))) by (rewrite <- layer_names_preorder, wired_names; auto).
  assert (HN : forall n, In n (names st') <-> (In n (names st) /\ ~ In n (layer_names m)) \/ In n (layer_names r)) by (apply (replace_names Functional st m r st' H)).
  assert (RN : In (n_name r) (layer_names r)) by (destruct r; cbn; auto).
  (* reading layers of the new model, in terms of the old one *)
  assert (RD : forall l' n, In l' (s_layers st') -> In n (inbound_layer_names l') ->
     (exists l n0, In l (s_layers st) /\ ~ In (lc_name l) (layer_names m) /\ lc_name l' = lc_name l /\ In n0 (inbound_layer_names l) /\
        ((n0 = n_name m /\ n = n_name r) \/ (n0 <> n_name m /\ n = n0 /\ ~ In n (layer_names m)))) \/
     (exists x, In x (preorder (wired m r)) /\ l' = n_layer x /\
        ((exists l, In l (leaf_layers m) /\ In n (inbound_layer_names l) /\ ~ In n (layer_names m)) \/ exists a, In a (n_inputs x) /\ n = n_name a))).
  { intros l' n I1 I2. apply (replace_in Functional st m r st' H) in I1 as [(l & A & B & ->)|I1].
    - left. destruct (rename_same (n_name m) (n_name r) l) as (_ & EN & _). exists l.
      assert (Q : exists n0, In n0 (inbound_layer_names l) /\ n = if String.eqb n0 (n_name m) then n_name r else n0).
      { unfold rename_layer in I2. destruct (inb (n_name m) (inbound_layer_names l)) eqn:E.
        - unfold inbound_layer_names in I2 |- *. cbn [lc_inbound] in I2. apply in_flat_map in I2 as (cs & C1 & C2). apply in_map_iff in C1 as (cs0 & <- & C1).
          apply in_flat_map in C2 as (c & C2 & C3). apply in_map_iff in C2 as (c0 & <- & C2). rewrite rename_conn_names in C3. apply in_map_iff in C3 as (n0 & <- & C3).
          exists n0; split; auto. apply in_flat_map; exists cs0; split; auto. apply in_flat_map; eauto.
        - exists n. split; auto. destruct (String.eqb_spec n (n_name m)); auto. subst. apply inb_false in E. contradiction. }
      destruct Q as (n0 & Q1 & Q2). exists n0. repeat split; auto. destruct (String.eqb_spec n0 (n_name m)) as [E|E]; [left; auto|right]. subst n0.
      repeat split; auto. intros J. apply E. eapply (outside_reads_head st); eauto.
    - right. cbn [new_nodes] in I1. apply in_map_iff in I1 as (x & <- & X). exists x. repeat split; auto. destruct (WO x X) as [[E EI]|E].
      + left. apply in_map_iff in E as (l & E & L). exists l. assert (J : In n (inbound_layer_names l)) by (unfold inbound_layer_names in *; now rewrite E). repeat split; auto.
        eapply (leaf_reads_outside st W); eauto.
      + right. unfold inbound_layer_names in I2. rewrite E in I2. cbn [flat_map] in I2. rewrite app_nil_r in I2. apply in_flat_map in I2 as (c & C1 & C2).
        apply in_map_iff in C1 as (a & <- & C1). cbn in C2. destruct C2 as [<-|[]]. eauto. }
  assert (SUB : forall x a, In x (preorder (wired m r)) -> In a (n_inputs x) -> In a (preorder (wired m r))).
  { intros x a X A. apply node_in_preorder in X. apply node_in_preorder. revert X. generalize (wired m r) as t. clear -A. intros t X.
    induction X as [y|b l w nw md ins y B Y IH]; [destruct y; econstructor; [exact A|constructor]|econstructor; eauto]. }
  assert (LEAF : forall l, In l (leaf_layers m) -> In l (s_layers st)).
  { intros l L. destruct (leaf_in m l L) as (x & X & <- & _). destruct (mtree_in _ _ _ _ M x X) as (h & T). eapply mtree_layer; eauto. }
  constructor.
  - unfold names. rewrite HL, map_app. pose proof (wf_names st W) as NDS. unfold names in NDS.
    rewrite map_map. rewrite (map_ext _ lc_name) by (intros l; apply rename_same).
    rewrite (map_map n_layer lc_name). change (map (fun x => lc_name (n_layer x)) (preorder (wired m r))) with (map n_name (preorder (wired m r))).
    assert (N1 : NoDup (map lc_name (filter (fun l => negb (inb (lc_name l) (layer_names m))) (s_layers st)))).
    { clear -NDS. induction (s_layers st) as [|a t IH]; cbn; [constructor|]. inversion NDS; subst. destruct (negb _); auto. cbn. constructor; auto.
      intros J. apply H1. apply in_map_iff in J as (y & <- & J). apply filter_In in J as [J _]. now apply in_map. }
    assert (DJ : forall n, In n (map lc_name (filter (fun l => negb (inb (lc_name l) (layer_names m))) (s_layers st))) -> ~ In n (map n_name (preorder (wired m r)))).
    { intros n J K. rewrite <- layer_names_preorder, wired_names in K. apply in_map_iff in J as (l & <- & J). apply filter_In in J as [J1 J2]. apply negb_true_iff, inb_false in J2.
      destruct (NO _ K) as [?|Q]; auto. apply Q. unfold names. now apply in_map. }
    clear -N1 NDW DJ. induction (map lc_name (filter (fun l => negb (inb (lc_name l) (layer_names m))) (s_layers st))) as [|x t IH]; cbn; auto. inversion N1; subst.
    constructor; [rewrite in_app_iff; intros [?|?]; [auto|eapply DJ; [left; reflexivity|auto]]|apply IH; auto]. intros; apply DJ; now right.
  - intros l' n I1 I2. apply HN. destruct (RD l' n I1 I2) as [(l & n0 & A & B & C & D & [[-> ->]|(E & -> & F)])|(x & X & -> & [(l & L1 & L2 & L3)|(a & A & ->)])]; auto.
    + left. split; auto. eapply (wf_conns st W); eauto.
    + left. split; auto. eapply (wf_conns st W); eauto.
    + right. eauto.
  - intros c I. rewrite HO in I. apply in_map_iff in I as (c0 & <- & I). apply HN. unfold rename_output. destruct (String.eqb_spec (c_name c0) (n_name m)) as [E|E]; [right; exact RN|].
    left. split; [now apply (wf_outputs st W)|]. intros J. apply E. eapply (output_head st); eauto.
  - destruct (wf_acyclic st W) as (rk & R). pose (K := S (nsize (wired m r))).
    pose (rk' := fun n => if inb n (layer_names r) then rk (n_name m) * K + size_of (preorder (wired m r)) n else rk n * K). exists rk'. intros l' n I1 I2.
    assert (RI : forall x, In x (preorder (wired m r)) -> rk' (n_name x) = rk (n_name m) * K + nsize x /\ nsize x < K).
    { intros x X. unfold rk'. rewrite (proj2 (inb_In _ _) (WN x X)), size_of_in by auto. split; auto. apply node_in_preorder, nsize_in in X. unfold K; lia. }
    assert (POS : forall x : node, 0 < nsize x) by (intros []; cbn; lia).
    assert (OUT : forall n, In n (names st) -> ~ In n (layer_names m) -> rk' n = rk n * K).
    { intros n0 A B. unfold rk'. destruct (inb n0 (layer_names r)) eqn:E; auto. apply inb_In, NO in E. tauto. }
    destruct (RD l' n I1 I2) as [(l & n0 & A & B & C & D & Q)|(x & X & -> & [(l & L1 & L2 & L3)|(a & A & ->)])].
    + rewrite C. pose proof (R l n0 A D) as LT. rewrite (OUT (lc_name l)) by (auto; unfold names; now apply in_map).
      destruct Q as [[-> ->]|(E & -> & F)].
      * assert (RW : In (wired m r) (preorder (wired m r))) by (apply node_in_preorder; constructor). pose proof (RI _ RW) as [E1 E2].
        replace (n_name (wired m r)) with (n_name r) in E1; [rewrite E1; nia|]. unfold wired. rewrite name_set_leaves, assign_name. reflexivity.
      * rewrite OUT by (auto; eapply (wf_conns st W); eauto). nia.
    + change (lc_name (n_layer x)) with (n_name x). destruct (RI x X) as [-> _]. pose proof (R l n (LEAF l L1) L2) as LT.
      rewrite OUT by (auto; eapply (wf_conns st W); eauto). destruct (leaf_in m l L1) as (y & Y & <- & _).
      destruct (mtree_rank st rk true m y R M Y) as [->|J]; unfold n_name in *; nia.
    + change (lc_name (n_layer x)) with (n_name x). destruct (RI x X) as [-> _]. destruct (RI a (SUB x a X A)) as [-> _]. pose proof (nsize_input x a A). lia.
Qed.
