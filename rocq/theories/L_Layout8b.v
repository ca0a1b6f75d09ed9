From Coq Require Import String.
From Verif Require Import Base M_Tensor M_Transform M_Layout8 S_Transform S_Layout8 L_Transform L_Transform2 L_Transform3 L_Transform4 L_Transform5 L_Transform6 L_Layout8.
Open Scope string_scope.
Open Scope nat_scope.

Definition of_class (c : string) (st : state) : list string := nodup string_dec (map lc_name (filter (fun l => String.eqb (lc_class l) c) (s_layers st))).
Definition pending_inputs (st : state) (matched : list (string * string)) : list string :=
  filter (fun n => if in_dec pdec ("InputLayerQuantize", n) matched then false else true) (of_class "InputLayer" st).
Definition weight (st : state) (matched : list (string * string)) : nat :=
  2 * List.length (of_class "SeparableConv1D" st) + List.length (of_class "SeparableConv2D" st) + List.length (pending_inputs st matched).
Lemma in_of_class c st n : In n (of_class c st) <-> exists l, In l (s_layers st) /\ lc_class l = c /\ lc_name l = n.
Proof.
  unfold of_class. rewrite nodup_In, in_map_iff. split.
  - intros (l & A & B). apply filter_In in B as [B C]. apply String.eqb_eq in C. eauto.
  - intros (l & A & B & C). exists l; split; auto. apply filter_In; split; auto. now apply String.eqb_eq.
Qed.
Lemma of_class_nodup c st : NoDup (of_class c st).
Proof. apply NoDup_nodup. Qed.
Lemma in_pending st M n : In n (pending_inputs st M) <-> In n (of_class "InputLayer" st) /\ ~ In ("InputLayerQuantize", n) M.
Proof. unfold pending_inputs. rewrite filter_In. destruct (in_dec _ _ _); split; intros [? ?]; split; tauto || congruence. Qed.
Lemma pending_nodup st M : NoDup (pending_inputs st M).
Proof. apply NoDup_filter, of_class_nodup. Qed.
(** Class and name of the layers after a replacement. *)
Lemma replace_classes k st m r st' : replace k st m r = Ok st' -> forall c n,
  In n (of_class c st') -> (In n (of_class c st) /\ ~ In n (layer_names m)) \/ exists x, node_in x r /\ lc_class (n_layer x) = c /\ n_name x = n.
Proof.
  intros R c n H. apply in_of_class in H as (l & A & B & C). apply (replace_in _ _ _ _ _ R) in A as [(l0 & A1 & A2 & ->)|A].
  - left. assert (E : lc_class l0 = c /\ lc_name l0 = n) by (destruct k; auto; destruct (rename_same (n_name m) (n_name r) l0) as (E1 & E2 & _); split; congruence).
    destruct E as [E1 E2]. split; [apply in_of_class; eauto|congruence].
  - right. apply in_map_iff in A as (x & <- & X). destruct (new_nodes_payload k m r x X) as (a & A1 & (A2 & A3 & _) & _). exists a. repeat split; auto; unfold n_name in *; congruence.
Qed.
Lemma length_sub {A} (l l' : list A) : NoDup l -> (forall x, In x l -> In x l') -> List.length l <= List.length l'.
Proof. intros; now apply NoDup_incl_length. Qed.
Lemma length_sub1 {A} (l l' : list A) y : NoDup l -> (forall x, In x l -> In x l') -> In y l' -> ~ In y l -> List.length l < List.length l'.
Proof. intros N S Y NY. apply (NoDup_incl_length (l := y :: l)); [constructor; auto|intros x [<-|X]; auto]. Qed.
Lemma length_add1 {A} (l l' : list A) y : NoDup l -> (forall x, In x l -> In x l' \/ x = y) -> List.length l <= S (List.length l').
Proof. intros N S'. apply (NoDup_incl_length (l' := y :: l')); auto. intros x X. destruct (S' x X) as [?|<-]; [now right|now left]. Qed.

Lemma weight_grow st M p : weight st (p :: M) <= weight st M.
Proof. unfold weight. enough (List.length (pending_inputs st (p :: M)) <= List.length (pending_inputs st M)) by lia. apply length_sub; [apply pending_nodup|]. intros x X. apply in_pending in X as [A B]. apply in_pending. split; auto. intros C. apply B. now right. Qed.
Lemma default_weight sch gen ik k st matched t m r st' :
  In t (layout_transforms sch gen ik) -> find_pattern k st (t_pattern t) (matched_names t matched) = Ok (Some m) ->
  t_repl t (List.length matched) m = Ok r -> (st' = st \/ replace k st m r = Ok st') ->
  weight st' ((t_name t, n_name m) :: matched) < weight st matched \/
  (weight st' ((t_name t, n_name m) :: matched) = weight st matched /\ forall n, In n (names st') -> In n (names st)).
Proof.
  intros T F TR D. pose proof (weight_grow st matched (t_name t, n_name m)) as G.
  destruct D as [->|R]; [destruct (Nat.eq_dec (weight st ((t_name t, n_name m) :: matched)) (weight st matched)); [right; auto|left; lia]|].
  assert (SAT := find_satisfies _ _ _ _ _ F). apply find_pattern_tree in F as [M NM].
  assert (MH : exists l, In l (s_layers st) /\ l = n_layer m) by (inversion M as [? ? (X & _)]; subst; eauto). destruct MH as (lm & LM & ->).
  destruct (default_cases Rtop sch gen ik t (List.length matched) m r) as [SM|SM]; try (unfold Rtop; auto; fail); auto.
  - (* shape kept *)
    assert (SUB : forall c n, In n (of_class c st') -> In n (of_class c st)).
    { intros c n H. apply (replace_classes k st m r st' R) in H as [[H _]|(x & X & C & N)]; auto.
      apply sim_cn in SM. apply node_in_preorder in X. apply (in_map (fun x => (lc_class (n_layer x), n_name x))) in X. rewrite SM in X. apply in_map_iff in X as (y & E & Y). injection E as E1 E2.
      apply node_in_preorder in Y. destruct (mtree_good _ _ _ _ y M Y) as (h & GL & _). apply in_of_class. exists (n_layer y). repeat split; auto; unfold n_name in *; congruence. }
    assert (L : weight st' ((t_name t, n_name m) :: matched) <= weight st ((t_name t, n_name m) :: matched)).
    { unfold weight. pose proof (length_sub _ _ (of_class_nodup "SeparableConv1D" st') (SUB _)). pose proof (length_sub _ _ (of_class_nodup "SeparableConv2D" st') (SUB _)).
      enough (List.length (pending_inputs st' ((t_name t, n_name m) :: matched)) <= List.length (pending_inputs st ((t_name t, n_name m) :: matched))) by lia.
      apply length_sub; [apply pending_nodup|]. intros x X. apply in_pending in X as [A B]. apply in_pending; auto. }
    destruct (Nat.eq_dec (weight st' ((t_name t, n_name m) :: matched)) (weight st matched)); [right; split; auto|left; lia].
    intros n N. apply (replace_names _ _ _ _ _ R) in N as [[N _]|N]; auto. rewrite (sim_names _ _ _ SM) in N. apply in_layer_names in N as (x & X & <-).
    destruct (mtree_good _ _ _ _ _ M X) as (h & GL & _). exact (in_map lc_name _ _ GL).
  - left. pose proof (replace_classes k st m r st' R) as RC.
    assert (NI : In (n_name m) (layer_names m)) by (destruct m; cbn; auto).
    remember (t_name t) as tn eqn:TN. destruct SM as [C E LF | C E LF HC | C E LF HC].
    + unfold repl_input in E. injection E as <-.
      assert (SUB : forall c n, c <> "QuantizeLayer" -> In n (of_class c st') -> In n (of_class c st)).
      { intros c n NC H. apply RC in H as [[H _]|(x & X & CX & NX)]; auto. inversion X; subst; [cbn in NC; congruence|]. match goal with H : In _ [_] |- _ => destruct H as [<-|[]] end.
        match goal with H : node_in x m |- _ => rename H into Y end. destruct (mtree_good _ _ _ _ x M Y) as (h & GL & _). apply in_of_class. eauto. }
      unfold weight. pose proof (length_sub _ _ (of_class_nodup "SeparableConv1D" st') (fun n => SUB "SeparableConv1D" n ltac:(discriminate))). pose proof (length_sub _ _ (of_class_nodup "SeparableConv2D" st') (fun n => SUB "SeparableConv2D" n ltac:(discriminate))).
      enough (List.length (pending_inputs st' (("InputLayerQuantize", n_name m) :: matched)) < List.length (pending_inputs st matched)) by lia.
      apply (length_sub1 _ _ (n_name m)).
      * apply pending_nodup.
      * intros x X. apply in_pending in X as [A B]. apply in_pending. split; [apply SUB; auto; discriminate|intros J; apply B; now right].
      * apply in_pending. split; [apply in_of_class; exists (n_layer m); auto|]. intros J. apply NM. unfold matched_names. apply in_map_iff. exists ("InputLayerQuantize", n_name m). split; auto. apply filter_In; split; auto. cbn.
        rewrite <- TN. reflexivity.
      * intros X. apply in_pending in X as [_ B]. apply B. now left.
    + assert (RX : forall x, node_in x r -> (lc_class (n_layer x) = "SeparableConv2D" /\ n_name x = (n_name m ++ "_QAT_SepConv2D")%string) \/ lc_class (n_layer x) = "Lambda").
      { unfold repl_sepconv1d in E. rewrite HC in E. destruct (String.eqb _ _); [discriminate|]. destruct (map snd (n_weights m)) as [|w0 [|w1 rest]]; try discriminate.
        assert (Q : exists ws g1 g2, r = Node (mkLc "Lambda" g1 [] []) [] None (cfg_meta NoOpCfg)
              [Node (mkLc "SeparableConv2D" (lc_name (n_layer m) ++ "_QAT_SepConv2D") (lc_cfg (n_layer m)) []) ws None cfg_meta_none [Node (mkLc "Lambda" g2 [] []) [] None (cfg_meta NoOpCfg) []]]).
        { destruct (use_bias (n_layer m)); [destruct rest; [discriminate|]|]; cbn [bind] in E; injection E as <-; eauto. }
        destruct Q as (ws & g1 & g2 & ->). intros x X. apply node_in_preorder in X. cbn in X. destruct X as [<-|[<-|[<-|[]]]]; cbn; auto. }
      clear E. assert (S1 : forall c n, c <> "SeparableConv2D" -> c <> "Lambda" -> In n (of_class c st') -> In n (of_class c st) /\ n <> n_name m).
      { intros c n N1 N2 H. apply RC in H as [[H1 H2]|(x & X & CX & NX)]; [split; auto; congruence|]. destruct (RX x X) as [[Q _]|Q]; congruence. }
      assert (S2 : forall n, In n (of_class "SeparableConv2D" st') -> In n (of_class "SeparableConv2D" st) \/ n = (n_name m ++ "_QAT_SepConv2D")%string).
      { intros n H. apply RC in H as [[H1 H2]|(x & X & CX & NX)]; auto. destruct (RX x X) as [[_ Q]|Q]; [right; congruence|congruence]. }
      assert (L1 : List.length (of_class "SeparableConv1D" st') < List.length (of_class "SeparableConv1D" st)).
      { apply (length_sub1 _ _ (n_name m)); [apply of_class_nodup|intros x X; apply S1 in X as [X _]; auto; discriminate|apply in_of_class; exists (n_layer m); auto|intros X; apply S1 in X as [_ X]; auto; discriminate]. }
      pose proof (length_add1 _ _ _ (of_class_nodup "SeparableConv2D" st') S2) as L2.
      assert (L3 : List.length (pending_inputs st' (("SeparableConv1DQuantize", n_name m) :: matched)) <= List.length (pending_inputs st matched)).
      { apply length_sub; [apply pending_nodup|]. intros x X. apply in_pending in X as [A B]. apply in_pending. apply S1 in A as [A _]; [|discriminate|discriminate]. split; auto. intros J; apply B; now right. }
      unfold weight. lia.
    + assert (RX : forall x, node_in x r -> lc_class (n_layer x) = "DepthwiseConv2D" \/ lc_class (n_layer x) = "Conv2D").
      { unfold repl_sepconv in E. rewrite HC in E. destruct (map snd (n_weights m)) as [|w0 [|w1 rest]]; try discriminate.
        assert (Q : exists ws ws' g1 g2 c1 c2, r = Node (mkLc "Conv2D" g1 c1 []) ws None cfg_meta_none [Node (mkLc "DepthwiseConv2D" g2 c2 []) ws' None cfg_meta_none []]).
        { destruct (use_bias (n_layer m)); [destruct rest; [discriminate|]|]; cbn [bind] in E; injection E as <-; do 6 eexists; reflexivity. }
        destruct Q as (ws & ws' & g1 & g2 & c1 & c2 & ->). intros x X. apply node_in_preorder in X. cbn in X. destruct X as [<-|[<-|[]]]; cbn; auto. }
      clear E. assert (S1 : forall c n, c <> "DepthwiseConv2D" -> c <> "Conv2D" -> In n (of_class c st') -> In n (of_class c st) /\ n <> n_name m).
      { intros c n N1 N2 H. apply RC in H as [[H1 H2]|(x & X & CX & NX)]; [split; auto; congruence|]. destruct (RX x X) as [Q|Q]; congruence. }
      assert (L2 : List.length (of_class "SeparableConv2D" st') < List.length (of_class "SeparableConv2D" st)).
      { apply (length_sub1 _ _ (n_name m)); [apply of_class_nodup|intros x X; apply S1 in X as [X _]; auto; discriminate|apply in_of_class; exists (n_layer m); auto|intros X; apply S1 in X as [_ X]; auto; discriminate]. }
      assert (L1 : List.length (of_class "SeparableConv1D" st') <= List.length (of_class "SeparableConv1D" st)).
      { apply length_sub; [apply of_class_nodup|intros x X; apply S1 in X as [X _]; auto; discriminate]. }
      assert (L3 : List.length (pending_inputs st' (("SeparableConvQuantize", n_name m) :: matched)) <= List.length (pending_inputs st matched)).
      { apply length_sub; [apply pending_nodup|]. intros x X. apply in_pending in X as [A B]. apply in_pending. apply S1 in A as [A _]; [|discriminate|discriminate]. split; auto. intros J; apply B; now right. }
      unfold weight. lia.
Qed.
Theorem default_terminates sch gen ik ueq k st0 : terminates (default_meq sch ueq) k (layout_transforms sch gen ik) st0.
Proof. apply (terminate_weighted _ _ _ weight (fun _ => True)); auto. intros. eapply default_weight; eauto. Qed.
