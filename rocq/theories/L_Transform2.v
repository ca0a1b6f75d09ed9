From Coq Require Import String Permutation.
From Verif Require Import Base M_Tensor M_Transform S_Transform L_Transform.
Open Scope nat_scope.

(** ** Structure of the wired replacement *)
Definition same_payload (a b : node) : Prop :=
  same_layer (n_layer a) (n_layer b) /\ n_weights b = n_weights a /\ n_nw b = n_nw a /\ n_meta b = n_meta a.
Lemma same_payload_refl a : same_payload a a.
Proof. repeat split. Qed.
Lemma same_payload_trans a b c : same_payload a b -> same_payload b c -> same_payload a c.
Proof. unfold same_payload, same_layer. intuition congruence. Qed.
Lemma Forall2_trans' {A} (R : A -> A -> Prop) : (forall a b c, R a b -> R b c -> R a c) -> forall x y z, Forall2 R x y -> Forall2 R y z -> Forall2 R x z.
Proof. intros T x y z H. revert z. induction H; intros z H'; inversion H'; subst; constructor; eauto. Qed.
Lemma assign_payload n : Forall2 same_payload (preorder n) (preorder (assign_inbounds n)).
Proof.
  induction n as [l w nw m ins IH] using node_ind'. destruct ins as [|a r].
  - cbn. repeat constructor.
  - change (preorder (assign_inbounds (Node l w nw m (a :: r)))) with
      (Node (set_inbound l [map (fun i => mkConn (n_name i) 0 0 []) (a :: r)]) w nw m (map assign_inbounds (a :: r)) :: flat_map preorder (map assign_inbounds (a :: r))).
    cbn [preorder]. constructor; [repeat split|]. generalize dependent (a :: r). clear a r.
    intros ins IH. induction IH; cbn [flat_map map]; [constructor|]. apply Forall2_app; auto.
Qed.
Definition set_go := fix go (ns : list node) (ibs : list (list (list conn))) : list node * list (list (list conn)) :=
                           match ns with
                           | [] => ([], ibs)
                           | a :: ns' => let '(a', r) := set_leaves a ibs in let '(ns'', r') := go ns' r in (a' :: ns'', r')
                           end.
Lemma set_leaves_cons l w nw m a r ibs : set_leaves (Node l w nw m (a :: r)) ibs = let '(ins', q) := set_go (a :: r) ibs in (Node l w nw m ins', q).
Proof. reflexivity. Qed.
Lemma set_go_cons a ns ibs : set_go (a :: ns) ibs = let '(a', r) := set_leaves a ibs in let '(ns'', r') := set_go ns r in (a' :: ns'', r').
Proof. reflexivity. Qed.
Lemma set_payload n : forall ibs, Forall2 same_payload (preorder n) (preorder (fst (set_leaves n ibs))).
Proof.
  induction n as [l w nw m ins IH] using node_ind'; intros ibs. destruct ins as [|a r].
  - destruct ibs; cbn; repeat constructor.
  - rewrite set_leaves_cons. destruct (set_go (a :: r) ibs) as [ins' q] eqn:E. cbn [fst preorder]. constructor; [repeat split|].
    revert ibs ins' q E. generalize dependent (a :: r). clear a r. intros ins IH. induction IH as [|x ns H F IHF]; intros ibs ins' q.
    + cbn. intros [= <- <-]. constructor.
    + rewrite set_go_cons. destruct (set_leaves x ibs) as [a' r'] eqn:E1. destruct (set_go ns r') as [ns'' r''] eqn:E2. intros [= <- <-].
      cbn [flat_map]. apply Forall2_app; [|eapply IHF; eauto]. specialize (H ibs). now rewrite E1 in H.
Qed.
Definition wired (m r : node) : node := fst (set_leaves (assign_inbounds r) (map lc_inbound (leaf_layers m))).
Lemma wired_payload m r : Forall2 same_payload (preorder r) (preorder (wired m r)).
Proof. eapply Forall2_trans'; [apply same_payload_trans|apply assign_payload|apply set_payload]. Qed.
Lemma payload_names x y : Forall2 same_payload x y -> map n_name y = map n_name x.
Proof. induction 1 as [|a b x y H F IH]; auto. cbn [map]. rewrite IH. f_equal. destruct H as ((_ & H & _) & _). exact H. Qed.
Lemma payload_in x y b : Forall2 same_payload x y -> In b y -> exists a, In a x /\ same_payload a b.
Proof. induction 1; intros []; subst; [eexists; split; [left|]; eauto|]. destruct IHForall2 as (a & ? & ?); auto. exists a; split; auto; now right. Qed.
Lemma payload_in_l x y a : Forall2 same_payload x y -> In a x -> exists b, In b y /\ same_payload a b.
Proof. induction 1; intros []; subst; [eexists; split; [left|]; eauto|]. destruct IHForall2 as (b & ? & ?); auto. exists b; split; auto; now right. Qed.
Lemma wired_names m r : layer_names (wired m r) = layer_names r.
Proof. rewrite !layer_names_preorder. apply payload_names, wired_payload. Qed.

Lemma replace_functional_layers st m r st' : replace_functional st m r = Ok st' ->
  s_layers st' = (map (rename_layer (n_name m) (n_name r)) (filter (fun l => negb (inb (lc_name l) (layer_names m))) (s_layers st)) ++ map n_layer (preorder (wired m r)))%list /\
  s_outputs st' = map (rename_output (n_name m) (n_name r)) (s_outputs st) /\
  st' = fold_left register (preorder (wired m r)) (mkS (s_layers st') (s_outputs st') (pop (layer_names m) (s_w st)) (pop (layer_names m) (s_nw st)) (pop (layer_names m) (s_meta st)) (s_cand st)) /\
  List.length (leaf_layers (assign_inbounds r)) = List.length (leaf_layers m).
Proof.
  unfold replace_functional. destruct (negb _) eqn:E; [discriminate|]. apply negb_false_iff, Nat.eqb_eq in E. rewrite map_length in E. intros [= <-].
  change (fst (set_leaves (assign_inbounds r) (map lc_inbound (leaf_layers m)))) with (wired m r).
  match goal with |- context [fold_left register ?ns ?st0] => destruct (fold_register_layers ns st0) as [A B] end. rewrite A, B.
  cbn [set_layers remove_layers s_layers s_outputs]. split; [|split; [|split]]; auto.
  f_equal. clear. induction (s_layers st) as [|l ls IH]; auto. cbn [map filter]. replace (lc_name (rename_layer (n_name m) (n_name r) l)) with (lc_name l) by (unfold rename_layer; destruct (inb _ _); auto).
  destruct (negb _); cbn [map]; now rewrite IH.
Qed.
Lemma rename_same old new l : same_layer l (rename_layer old new l).
Proof. unfold rename_layer; destruct (inb _ _); repeat split. Qed.
Lemma rename_conn_names old new c : conn_names (rename_conn old new c) = map (fun n => if String.eqb n old then new else n) (conn_names c).
Proof.
  unfold conn_names, rename_conn. cbn [c_name c_kwargs map]. f_equal. induction (c_kwargs c) as [|[k [v|]] r IH]; cbn; auto. now rewrite IH.
Qed.
Lemma rename_redirected old new l : redirected old new l (rename_layer old new l).
Proof.
  unfold redirected, rename_layer, reads. destruct (inb old (inbound_layer_names l)) eqn:E; cbn [lc_inbound].
  - rewrite !map_map. repeat split; apply map_ext; intros a; rewrite !map_map; apply map_ext; intros c; auto. apply rename_conn_names.
  - repeat split. rewrite map_map. apply map_ext_in. intros a A. rewrite map_map. apply map_ext_in. intros c C.
    rewrite <- (map_id (conn_names c)) at 1. apply map_ext_in. intros n N. destruct (String.eqb_spec n old); auto. subst.
    apply inb_false in E. exfalso. apply E. unfold inbound_layer_names. apply in_flat_map. exists a; split; auto. apply in_flat_map. exists c; auto.
Qed.

Lemma replace_sequential_layers st m r st' : replace_sequential st m r = Ok st' ->
  let keep := filter (fun l => negb (inb (lc_name l) (layer_names m))) (s_layers st) in
  let i := index_first (layer_names m) (s_layers st) in
  s_layers st' = (firstn i keep ++ map n_layer (postorder r) ++ skipn i keep)%list /\ s_outputs st' = s_outputs st /\
  st' = fold_left register (postorder r) (mkS (s_layers st') (s_outputs st') (pop (layer_names m) (s_w st)) (pop (layer_names m) (s_nw st)) (pop (layer_names m) (s_meta st)) (s_cand st)).
Proof.
  unfold replace_sequential. intros [= <-]. match goal with |- context [fold_left register ?ns ?st0] => destruct (fold_register_layers ns st0) as [A B] end.
  rewrite A, B. cbn [set_layers remove_layers s_layers s_outputs]. auto.
Qed.
Lemma postorder_names r : forall n, In n (map n_name (postorder r)) <-> In n (layer_names r).
Proof.
  intros n. rewrite layer_names_preorder, !in_map_iff. split; intros (x & A & B); exists x; split; auto; now apply postorder_perm.
Qed.
(** Nodes registered, by model kind. *)
Definition new_nodes (k : mkind) (m r : node) : list node := match k with Functional => preorder (wired m r) | Sequential => postorder r end.
Lemma new_nodes_names k m r n : In n (map n_name (new_nodes k m r)) <-> In n (layer_names r).
Proof. destruct k; cbn; [rewrite <- layer_names_preorder, wired_names; tauto|apply postorder_names]. Qed.
Lemma new_nodes_payload k m r x : In x (new_nodes k m r) -> exists a, node_in a r /\ same_payload a x.
Proof.
  destruct k; cbn; intros H.
  - destruct (payload_in _ _ x (wired_payload m r) H) as (a & A & B). exists a; split; auto. now apply node_in_preorder.
  - exists x. split; [now apply node_in_preorder, postorder_perm|apply same_payload_refl].
Qed.
Lemma new_nodes_payload_l k m r a : node_in a r -> exists x, In x (new_nodes k m r) /\ same_payload a x.
Proof.
  intros H. apply node_in_preorder in H. destruct k; cbn.
  - destruct (payload_in_l _ _ a (wired_payload m r) H) as (b & A & B). exists b; auto.
  - exists a. split; [now apply postorder_perm|apply same_payload_refl].
Qed.
Lemma postorder_perm' r : Permutation (postorder r) (preorder r).
Proof.
  induction r as [l w nw m ins IH] using node_ind'. cbn [postorder preorder]. eapply Permutation_trans; [apply Permutation_app_comm|]. cbn [app].
  constructor. induction IH; cbn [flat_map]; auto. apply Permutation_app; auto.
Qed.
Lemma new_nodes_nodup k m r : NoDup (layer_names r) -> NoDup (map n_name (new_nodes k m r)).
Proof.
  intros H. destruct k; cbn [new_nodes]; [now rewrite <- layer_names_preorder, wired_names|].
  eapply Permutation_NoDup; [|rewrite layer_names_preorder in H; exact H]. apply Permutation_map, Permutation_sym, postorder_perm'.
Qed.
(** Membership in the new list of layers. *)
Lemma replace_in k st m r st' : replace k st m r = Ok st' -> forall l', In l' (s_layers st') <->
  (exists l, In l (s_layers st) /\ ~ In (lc_name l) (layer_names m) /\ l' = (match k with Functional => rename_layer (n_name m) (n_name r) l | Sequential => l end)) \/
  In l' (map n_layer (new_nodes k m r)).
Proof.
  destruct k; intros H l'.
  - apply replace_functional_layers in H as (H & _). rewrite H, in_app_iff. cbn [new_nodes]. rewrite (in_map_iff (rename_layer _ _)). apply or_iff_compat_r.
    split; intros (l & A & B).
    + apply filter_In in B as [B C]. apply negb_true_iff, inb_false in C. eauto.
    + destruct B as [B ->]. exists l; split; auto. apply filter_In; split; auto. apply negb_true_iff, inb_false; auto.
  - apply replace_sequential_layers in H as (H & _). rewrite H, !in_app_iff. cbn [new_nodes].
    set (keep := filter _ _). set (i := index_first _ _).
    assert (E : In l' (firstn i keep) \/ In l' (skipn i keep) <-> In l' keep) by (rewrite <- in_app_iff, firstn_skipn; tauto).
    transitivity (In l' keep \/ In l' (map n_layer (postorder r))); [tauto|]. apply or_iff_compat_r. unfold keep. rewrite filter_In, negb_true_iff, inb_false.
    split; [intros []; eauto|intros (l & A & B & ->); auto].
Qed.
Lemma replace_names k st m r st' : replace k st m r = Ok st' -> forall n, In n (names st') <-> (In n (names st) /\ ~ In n (layer_names m)) \/ In n (layer_names r).
Proof.
  intros H n. unfold names. rewrite !in_map_iff. split.
  - intros (l' & <- & I). apply (replace_in _ _ _ _ _ H) in I as [(l & A & B & ->)|I].
    + left. destruct k; [destruct (rename_same (n_name m) (n_name r) l) as (_ & -> & _)|]; eauto.
    + right. rewrite <- (new_nodes_names k m r). apply in_map_iff in I as (x & <- & I). apply in_map_iff. exists x; auto.
  - intros [[(l & <- & A) B]|I].
    + exists (match k with Functional => rename_layer (n_name m) (n_name r) l | Sequential => l end). split; [destruct k; auto; apply rename_same|].
      apply (replace_in _ _ _ _ _ H). left. eauto.
    + rewrite <- (new_nodes_names k m r) in I. apply in_map_iff in I as (x & <- & I). exists (n_layer x). split; auto.
      apply (replace_in _ _ _ _ _ H). right. now apply in_map.
Qed.
Lemma replace_fold k st m r st' : replace k st m r = Ok st' ->
  st' = fold_left register (new_nodes k m r) (mkS (s_layers st') (s_outputs st') (pop (layer_names m) (s_w st)) (pop (layer_names m) (s_nw st)) (pop (layer_names m) (s_meta st)) (s_cand st)).
Proof. destruct k; intros H; [apply replace_functional_layers in H as (_ & _ & H & _)|apply replace_sequential_layers in H as (_ & _ & H)]; exact H. Qed.
(** Entries of names outside match and replacement. *)
Lemma replace_outside k st m r st' n : replace k st m r = Ok st' -> ~ In n (layer_names m) -> ~ In n (layer_names r) ->
  assoc n (s_w st') = assoc n (s_w st) /\ assoc n (s_nw st') = assoc n (s_nw st) /\ assoc n (s_meta st') = assoc n (s_meta st).
Proof.
  intros H A B. rewrite (replace_fold _ _ _ _ _ H). rewrite <- (new_nodes_names k m r) in B.
  match goal with |- context [fold_left register ?ns ?st0] => destruct (fold_register_other ns st0 n B) as (X & Y & Z) end.
  rewrite X, Y, Z. cbn. now rewrite !assoc_pop.
Qed.
Lemma maps_ok_replace k st m r st' : maps_ok st -> replace k st m r = Ok st' -> maps_ok st'.
Proof.
  intros M H n N. rewrite (replace_names _ _ _ _ _ H) in N. assert (N2 : ~ In n (layer_names r)) by tauto.
  rewrite (replace_fold _ _ _ _ _ H). rewrite <- (new_nodes_names k m r) in N2.
  match goal with |- context [fold_left register ?ns ?st0] => destruct (fold_register_other ns st0 n N2) as (X & Y & Z) end.
  rewrite X, Y, Z. cbn. destruct (in_dec string_dec n (layer_names m)) as [I|I]; [now rewrite !assoc_pop_in|]. rewrite !assoc_pop; auto. apply M. tauto.
Qed.
(** Entries of the replacement's layers. *)
Lemma replace_inside k st m r st' a : maps_ok st -> names_ok st m r -> replace k st m r = Ok st' -> node_in a r ->
  get_weights st' (n_name a) = n_weights a /\ get_nw st' (n_name a) = n_nw a /\ assoc (n_name a) (s_meta st') = (if meta_truthy (n_meta a) then Some (n_meta a) else None).
Proof.
  intros M [ND NO] H I. destruct (new_nodes_payload_l k m r a I) as (x & X & (_ & PN & _) & PW & PX & PM).
  assert (E : n_name x = n_name a) by exact PN. rewrite <- E, <- PW, <- PX, <- PM. rewrite (replace_fold _ _ _ _ _ H).
  assert (Q : forall A (l : list (string * A)), (~ In (n_name x) (names st) -> assoc (n_name x) l = None) -> assoc (n_name x) (pop (layer_names m) l) = None).
  { intros A l HL. destruct (NO (n_name x)) as [J|J]; [rewrite E; apply in_layer_names; eauto|now apply assoc_pop_in|].
    destruct (in_dec string_dec (n_name x) (layer_names m)); [now apply assoc_pop_in|rewrite assoc_pop; auto]. }
  apply fold_register_self; auto; [now apply new_nodes_nodup|..]; cbn; apply Q; intros J; apply M in J; tauto.
Qed.
Lemma fold_register_cand ns : forall st, (s_cand st = [] -> s_cand (fold_left register ns st) = []) /\
  (s_cand st <> [] -> s_cand (fold_left register ns st) <> [] /\ forall n, In n (s_cand (fold_left register ns st)) <-> In n (s_cand st) \/ In n (map n_name ns)).
Proof.
  induction ns as [|x r IH]; intros st; cbn [fold_left]; [split; auto; intros; split; auto; cbn; tauto|].
  destruct (IH (register st x)) as [A B]. split.
  - intros E. apply A. unfold register; cbn. now rewrite E.
  - intros E. assert (F : s_cand (register st x) = n_name x :: s_cand st) by (unfold register; cbn; destruct (s_cand st); congruence).
    destruct B as [B C]; [rewrite F; discriminate|]. split; auto. intros n. rewrite C, F. cbn. split; tauto.
Qed.
Lemma replace_cand k st m r st' : replace k st m r = Ok st' -> (s_cand st = [] -> s_cand st' = []) /\
  (s_cand st <> [] -> s_cand st' <> [] /\ forall n, In n (s_cand st') <-> In n (s_cand st) \/ In n (layer_names r)).
Proof.
  intros H. rewrite (replace_fold _ _ _ _ _ H).
  match goal with |- context [fold_left register ?ns ?st0] => destruct (fold_register_cand ns st0) as [A B] end. cbn [s_cand] in *. split; auto.
  intros E. destruct (B E) as [C D]. split; auto. intros n. rewrite D, new_nodes_names. tauto.
Qed.
Lemma replace_outputs k st m r st' : replace k st m r = Ok st' -> s_outputs st' = match k with Functional => map (rename_output (n_name m) (n_name r)) (s_outputs st) | Sequential => s_outputs st end.
Proof. destruct k; intros H; [now apply replace_functional_layers in H as (_ & H & _)|now apply replace_sequential_layers in H as (_ & H & _)]. Qed.
