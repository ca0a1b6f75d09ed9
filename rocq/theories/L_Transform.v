From Coq Require Import String.
From Verif Require Import Base M_Tensor M_Transform S_Transform.
Open Scope nat_scope.

Lemma inb_In s l : inb s l = true <-> In s l.
Proof. unfold inb. rewrite existsb_exists. split; [intros (x & H & E); apply String.eqb_eq in E; now subst | intros H; exists s; split; auto; apply String.eqb_refl]. Qed.
Lemma inb_false s l : inb s l = false <-> ~ In s l.
Proof. rewrite <- inb_In. destruct (inb s l); split; congruence. Qed.

Section NodeInd.
  Variable P : node -> Prop.
  Hypothesis H : forall l w nw m ins, Forall P ins -> P (Node l w nw m ins).
  Fixpoint node_ind' (n : node) : P n :=
    match n with Node l w nw m ins =>
      H l w nw m ins ((fix go (l : list node) : Forall P l := match l with [] => Forall_nil _ | a :: r => Forall_cons _ (node_ind' a) (go r) end) ins)
    end.
End NodeInd.

Lemma node_in_cons l w nw m ins x : node_in x (Node l w nw m ins) <-> x = Node l w nw m ins \/ exists a, In a ins /\ node_in x a.
Proof. split; [intros H; inversion H; subst; eauto | intros [->|(a & A & B)]; [constructor|econstructor; eauto]]. Qed.
Lemma node_in_preorder x n : node_in x n <-> In x (preorder n).
Proof.
  revert x; induction n as [l w nw m ins IH] using node_ind'; intros x. rewrite node_in_cons. cbn [preorder In]. rewrite in_flat_map.
  rewrite Forall_forall in IH. split.
  - intros [->|(a & A & B)]; auto. right; exists a; split; auto; now apply IH.
  - intros [<-|(a & A & B)]; auto. right; exists a; split; auto; now apply IH.
Qed.
Lemma layer_names_preorder n : layer_names n = map n_name (preorder n).
Proof.
  induction n as [l w nw m ins IH] using node_ind'. cbn [layer_names preorder map]. f_equal.
  induction ins as [|a r IHr]; auto. inversion IH; subst. cbn [flat_map]. rewrite map_app. f_equal; auto.
Qed.
Lemma postorder_perm n : forall x, In x (postorder n) <-> In x (preorder n).
Proof.
  induction n as [l w nw m ins IH] using node_ind'; intros x. cbn [postorder preorder]. rewrite in_app_iff, in_flat_map. cbn [In]. rewrite in_flat_map.
  rewrite Forall_forall in IH. split.
  - intros [(a & A & B)|[<-|[]]]; auto. right; exists a; split; auto. now apply IH.
  - intros [<-|(a & A & B)]; auto. left; exists a; split; auto. now apply IH.
Qed.
Lemma in_layer_names n s : In s (layer_names n) <-> exists x, node_in x n /\ n_name x = s.
Proof. rewrite layer_names_preorder, in_map_iff. split; intros (x & A & B); exists x; split; auto; now apply node_in_preorder. Qed.
Lemma leaf_in n l : In l (leaf_layers n) -> exists x, node_in x n /\ n_layer x = l /\ n_inputs x = [].
Proof.
  induction n as [lc w nw m ins IH] using node_ind'. destruct ins as [|a r].
  - cbn. intros [<-|[]]. eexists; split; [constructor|]. auto.
  - change (leaf_layers (Node lc w nw m (a :: r))) with (flat_map leaf_layers (a :: r)). rewrite in_flat_map. intros (b & B & C).
    rewrite Forall_forall in IH. destruct (IH b B C) as (x & X & Y). exists x; split; auto. econstructor; eauto.
Qed.

(** ** Matching *)
Definition good_node (k : mkind) (st : state) (hd : bool) (x : node) : Prop :=
  In (n_layer x) (s_layers st) /\ candidate st (n_name x) = true /\ n_weights x = get_weights st (n_name x) /\ n_nw x = get_nw st (n_name x) /\
  n_meta x = get_meta st (n_name x) /\ (k = Functional -> is_match_supported st (n_layer x) hd = true).
(** The tree of a match. *)
Inductive mtree (k : mkind) (st : state) : bool -> node -> Prop :=
| mt_node : forall hd x, good_node k st hd x ->
    (n_inputs x = [] \/ exists inames, input_layer_names k st (n_layer x) = Ok inames /\ map n_layer (n_inputs x) = get_layers st inames) ->
    Forall (mtree k st false) (n_inputs x) -> mtree k st hd x.

Section PatInd.
  Variable P : pat -> Prop.
  Hypothesis H : forall c g ps, Forall P ps -> P (Pat c g ps).
  Fixpoint pat_ind' (p : pat) : P p :=
    match p with Pat c g ps => H c g ps ((fix go (l : list pat) : Forall P l := match l with [] => Forall_nil _ | a :: r => Forall_cons _ (pat_ind' a) (go r) end) ps) end.
End PatInd.

Lemma match_with_inputs_tree k st p : forall l hd m, In l (s_layers st) -> match_with_inputs k st l p hd = Ok (Some m) -> mtree k st hd m /\ n_layer m = l.
Proof.
  induction p as [c g ps IH] using pat_ind'. intros l hd m Hl. cbn [match_with_inputs].
  destruct (negb (match_layer st l c g)) eqn:E; [discriminate|].
  destruct (match k with Functional => negb (is_match_supported st l hd) | Sequential => false end) eqn:E2; [discriminate|].
  assert (G : forall ins, good_node k st hd (mk_node st l ins)).
  { intros ins. unfold good_node, mk_node, n_name; cbn. repeat split; auto.
    - unfold match_layer in E. apply negb_false_iff in E. apply andb_true_iff in E as [E _]. now apply andb_true_iff in E as [E _].
    - intros ->. now apply negb_false_iff in E2. }
  destruct ps as [|p0 ps'].
  - intros [= <-]. split; [|reflexivity]. constructor; [apply G|left; reflexivity|constructor].
  - set (ps := p0 :: ps') in *. destruct (input_layer_names k st l) as [inames|] eqn:EI; [|discriminate]. cbn [bind].
    destruct (negb (Nat.eqb (List.length (get_layers st inames)) (List.length ps))) eqn:EL; [discriminate|].
    apply negb_false_iff, Nat.eqb_eq in EL.
    set (go := fix go (ls : list layerc) (qs : list pat) {struct qs} : res (option (list node)) := _).
    assert (GO : forall qs ls ns, Forall (fun p => forall l hd m, In l (s_layers st) -> match_with_inputs k st l p hd = Ok (Some m) -> mtree k st hd m /\ n_layer m = l) qs ->
               List.length ls = List.length qs -> Forall (fun l => In l (s_layers st)) ls -> go ls qs = Ok (Some ns) -> Forall (mtree k st false) ns /\ map n_layer ns = ls).
    { induction qs as [|q qs IQ]; intros ls ns F L Fl.
      - destruct ls; [|discriminate]. cbn. intros [= <-]. auto.
      - destruct ls as [|a ls]; [discriminate|]. injection L as L. inversion F; subst. inversion Fl; subst.
        cbn [go]. fold go. destruct (match_with_inputs k st a q false) as [[n|]|] eqn:EM; cbn [bind]; try discriminate.
        destruct (go ls qs) as [[ns'|]|] eqn:EG; cbn [bind]; try discriminate. intros [= <-].
        destruct (IQ ls ns' H2 L H4 EG) as [A B]. destruct (H1 a false n H3 EM) as [C D]. split; [constructor; auto|]. cbn. now rewrite D, B. }
    match goal with |- (bind ?x _ = _ -> _) => change x with (go (get_layers st inames) ps) end.
    destruct (go (get_layers st inames) ps) as [[ns|]|] eqn:EG; cbn [bind]; try discriminate. intros E'; cbv beta iota in E'; injection E' as E'; subst m.
    destruct (GO ps (get_layers st inames) ns IH EL) as [A B]; auto.
    { apply Forall_forall. intros x Hx. now apply filter_In in Hx as [Hx _]. }
    split; [|reflexivity]. constructor; [apply G| |exact A]. right. exists inames. split; [exact EI|exact B].
Qed.
Lemma find_pattern_tree k st p matched m : find_pattern k st p matched = Ok (Some m) -> mtree k st true m /\ ~ In (n_name m) matched.
Proof.
  unfold find_pattern. assert (HS : forall l, In l (s_layers st) -> In l (s_layers st)) by auto. revert HS.
  generalize (s_layers st) at 1 3 as ls. induction ls as [|l r IH]; intros HS; cbn [find_pattern_in]; [discriminate|].
  destruct (inb (lc_name l) matched) eqn:E; [apply IH; firstorder|].
  destruct (match_with_inputs k st l p true) as [[n|]|] eqn:EM; cbn [bind]; try discriminate.
  - intros E'; injection E' as E'; subst m. destruct (match_with_inputs_tree k st p l true n (HS l (or_introl eq_refl)) EM) as [A B]. split; auto. unfold n_name. rewrite B. now apply inb_false.
  - apply IH; firstorder.
Qed.
Lemma mtree_in k st hd m : mtree k st hd m -> forall x, node_in x m -> exists hd', mtree k st hd' x.
Proof.
  revert hd; induction m as [l w nw md ins IH] using node_ind'; intros hd M x N. apply node_in_cons in N as [->|(a & A & B)]; [eauto|].
  inversion M; subst. cbn in *. rewrite Forall_forall in *. eapply IH; eauto.
Qed.
Lemma mtree_good k st hd m x : mtree k st hd m -> node_in x m -> exists hd', good_node k st hd' x.
Proof. intros M N. destruct (mtree_in k st hd m M x N) as (h & T). inversion T; eauto. Qed.

(** ** Effect of a replacement on the maps *)
Lemma assoc_pop {A} ns (l : list (string * A)) n : ~ In n ns -> assoc n (pop ns l) = assoc n l.
Proof.
  intros H. induction l as [|[s a] r IH]; auto. cbn [pop filter fst]. destruct (negb (inb s ns)) eqn:E.
  - cbn [assoc]. destruct (String.eqb s n) eqn:E2; auto.
  - cbn [assoc]. destruct (String.eqb s n) eqn:E2; auto. apply String.eqb_eq in E2. subst. apply negb_false_iff, inb_In in E. contradiction.
Qed.
Lemma assoc_pop_in {A} ns (l : list (string * A)) n : In n ns -> assoc n (pop ns l) = None.
Proof.
  intros H. induction l as [|[s a] r IH]; auto. cbn [pop filter fst]. destruct (negb (inb s ns)) eqn:E; auto.
  cbn [assoc]. destruct (String.eqb s n) eqn:E2; auto. apply String.eqb_eq in E2. subst. apply negb_true_iff, inb_false in E. contradiction.
Qed.
Lemma register_layers n st : s_layers (register st n) = s_layers st /\ s_outputs (register st n) = s_outputs st.
Proof. unfold register; auto. Qed.
Lemma fold_register_layers ns : forall st, s_layers (fold_left register ns st) = s_layers st /\ s_outputs (fold_left register ns st) = s_outputs st.
Proof. induction ns as [|n r IH]; intros st; cbn [fold_left]; auto. destruct (IH (register st n)) as [A B]. rewrite A, B. apply register_layers. Qed.
Lemma register_other n st s : s <> n_name n -> assoc s (s_w (register st n)) = assoc s (s_w st) /\ assoc s (s_nw (register st n)) = assoc s (s_nw st) /\
  assoc s (s_meta (register st n)) = assoc s (s_meta st).
Proof.
  intros D. unfold register; cbn. assert (E : String.eqb (n_name n) s = false) by (apply String.eqb_neq; congruence).
  repeat split; [destruct (n_weights n) | destruct (n_nw n) | destruct (meta_truthy (n_meta n))]; auto; unfold put; cbn [assoc]; now rewrite E.
Qed.
Lemma fold_register_other ns : forall st s, ~ In s (map n_name ns) ->
  assoc s (s_w (fold_left register ns st)) = assoc s (s_w st) /\ assoc s (s_nw (fold_left register ns st)) = assoc s (s_nw st) /\
  assoc s (s_meta (fold_left register ns st)) = assoc s (s_meta st).
Proof.
  induction ns as [|n r IH]; intros st s H; cbn [fold_left]; auto. cbn in H. destruct (IH (register st n) s) as (A & B & C); [tauto|].
  destruct (register_other n st s) as (A' & B' & C'); [intuition congruence|]. rewrite A, B, C; auto.
Qed.
(** The registered entries: weights and metadata of the node of that name. *)
Lemma fold_register_self ns : forall st x, NoDup (map n_name ns) -> In x ns ->
  assoc (n_name x) (s_w st) = None -> assoc (n_name x) (s_nw st) = None -> assoc (n_name x) (s_meta st) = None ->
  let st' := fold_left register ns st in
  get_weights st' (n_name x) = n_weights x /\ get_nw st' (n_name x) = n_nw x /\
  assoc (n_name x) (s_meta st') = (if meta_truthy (n_meta x) then Some (n_meta x) else None).
Proof.
  induction ns as [|n r IH]; intros st x ND I A B C st'; [easy|]. cbn in ND. inversion ND as [|? ? N1 N2]; subst. subst st'. cbn [fold_left].
  destruct I as [->|I].
  - destruct (fold_register_other r (register st x) (n_name x) N1) as (A' & B' & C'). unfold get_weights, get_nw. rewrite A', B', C'.
    unfold register; cbn. unfold put. repeat split.
    + destruct (n_weights x) as [|p q] eqn:E; [now rewrite A|]. cbn [assoc]. now rewrite String.eqb_refl.
    + destruct (n_nw x); cbn [assoc]; [now rewrite String.eqb_refl|auto].
    + destruct (meta_truthy (n_meta x)); cbn [assoc]; [now rewrite String.eqb_refl|auto].
  - assert (D : n_name x <> n_name n) by (intros E; apply N1; rewrite <- E; apply in_map_iff; eauto).
    destruct (register_other n st (n_name x) D) as (A' & B' & C'). apply IH; auto; congruence.
Qed.
