From Coq Require Import String Permutation.
From Verif Require Import Base M_Tensor M_Transform M_Layout8 S_Transform S_Layout8 L_Transform L_Transform2 L_Transform3 L_Transform4 L_Transform5 L_Transform6 L_Layout8 L_Layout8b L_Layout8c.
Open Scope string_scope.
Open Scope nat_scope.

(** Names of the structural replacements. *)
Lemma structural_names gen i m r t : structural gen i m r t ->
  (t = "InputLayerQuantize" /\ r = Node (mkLc "QuantizeLayer" (gen "quantize_layer" i) [] []) [] None meta_empty [m] /\ lc_class (n_layer m) = "InputLayer") \/
  (lc_class (n_layer m) = "SeparableConv1D" /\ n_inputs m = [] /\ (forall x, node_in x r -> lc_class (n_layer x) = "Lambda" \/ lc_class (n_layer x) = "SeparableConv2D") /\
     layer_names r = [gen "sepconv1d_squeeze" i; n_name m ++ "_QAT_SepConv2D"; gen "sepconv1d_expand" i]) \/
  (lc_class (n_layer m) = "SeparableConv2D" /\ n_inputs m = [] /\ (forall x, node_in x r -> lc_class (n_layer x) = "Conv2D" \/ lc_class (n_layer x) = "DepthwiseConv2D") /\
     layer_names r = [gen "conv2d" i; gen "depthwise_conv2d" i]).
Proof.
  intros [C E LF | C E LF HC | C E LF HC].
  - left. unfold repl_input in E. injection E as <-. auto.
  - right; left. split; auto. split; auto. unfold repl_sepconv1d in E. rewrite HC in E. destruct (String.eqb _ _); [discriminate|]. destruct (map snd (n_weights m)) as [|w0 [|w1 rest]]; try discriminate.
    assert (Q : exists ws, r = Node (mkLc "Lambda" (gen "sepconv1d_squeeze" i) [] []) [] None (cfg_meta NoOpCfg)
              [Node (mkLc "SeparableConv2D" (lc_name (n_layer m) ++ "_QAT_SepConv2D") (lc_cfg (n_layer m)) []) ws None cfg_meta_none [Node (mkLc "Lambda" (gen "sepconv1d_expand" i) [] []) [] None (cfg_meta NoOpCfg) []]]).
    { destruct (use_bias (n_layer m)); [destruct rest; [discriminate|]|]; cbn [bind] in E; injection E as <-; eauto. }
    destruct Q as (ws & ->). split; [|reflexivity]. intros x X. apply node_in_preorder in X. cbn in X. destruct X as [<-|[<-|[<-|[]]]]; cbn; auto.
  - right; right. split; auto. split; auto. unfold repl_sepconv in E. rewrite HC in E. destruct (map snd (n_weights m)) as [|w0 [|w1 rest]]; try discriminate.
    assert (Q : exists ws ws' c1 c2, r = Node (mkLc "Conv2D" (gen "conv2d" i) c1 []) ws None cfg_meta_none [Node (mkLc "DepthwiseConv2D" (gen "depthwise_conv2d" i) c2 []) ws' None cfg_meta_none []]).
    { destruct (use_bias (n_layer m)); [destruct rest; [discriminate|]|]; cbn [bind] in E; injection E as <-; do 4 eexists; reflexivity. }
    destruct Q as (ws & ws' & c1 & c2 & ->). split; [|reflexivity]. intros x X. apply node_in_preorder in X. cbn in X. destruct X as [<-|[<-|[]]]; cbn; auto.
Qed.
Lemma sim_in R m : forall r x, sim R m r -> node_in x m -> exists y, node_in y r /\ sim R x y.
Proof.
  induction m as [l w nw md ins IH] using node_ind'. intros r x S X. apply node_in_cons in X as [->|(a & A & B)]; [exists r; split; [constructor|auto]|].
  inversion S; subst. rewrite Forall_forall in IH. match goal with H : Forall2 (sim R) ins ?y |- _ => rename H into F end.
  assert (Q : exists b, In b ins' /\ sim R a b).
  { clear -F A. induction F; [easy|]. destruct A as [<-|A]; [eexists; split; [left|]; eauto|]. destruct (IHF A) as (b & ? & ?). exists b; split; auto; now right. }
  destruct Q as (b & B1 & B2). destruct (IH a A b x B2 B) as (y & Y1 & Y2). exists y. split; auto. econstructor; eauto.
Qed.
Lemma get_meta_inside k st m r st' a : maps_ok st -> names_ok st m r -> replace k st m r = Ok st' -> node_in a r -> get_meta st' (n_name a) = n_meta a.
Proof.
  intros MO NO R I. destruct (replace_inside _ _ _ _ _ a MO NO R I) as (_ & _ & E). unfold get_meta. rewrite E. destruct (meta_truthy (n_meta a)) eqn:T; auto.
  unfold meta_truthy in T. destruct (n_meta a) as [[c|] q]; cbn in *; [discriminate|]. subst. reflexivity.
Qed.

Definition new_classes : list string := ["QuantizeLayer"; "Lambda"; "SeparableConv2D"; "DepthwiseConv2D"; "Conv2D"].
Section Run.
  Variables (sch : scheme) (gen : string -> nat -> string) (ik : string -> bool) (meq : meta -> meta -> bool) (k : mkind) (st0 : state).
  Hypothesis W0 : wf_model k st0.
  Hypothesis M0 : maps_ok st0.
  Hypothesis FN : fresh_naming gen (names st0).
  Hypothesis C0 : s_cand st0 <> [].
  Definition NC : Prop := forall l, In l (s_layers st0) -> In (lc_name l) (s_cand st0) -> lc_class l <> "Concatenate".
  Definition NR : Prop := forall l, In l (s_layers st0) -> In (lc_name l) (s_cand st0) -> lc_class l <> "ReLU" /\ lc_class l <> "Activation".
  Notation ts := (layout_transforms sch gen ik).
  Record Iv (st : state) (c : nat) : Prop := mkIv {
    i_wf : wf_model k st;
    i_maps : maps_ok st;
    i_names : forall n, In n (names st) -> In n (names st0) \/ (exists p j, j < c /\ n = gen p j) \/ (exists x, n = x ++ "_QAT_SepConv2D" /\ In x (names st0) /\ ~ In x (names st));
    i_classes : forall l', In l' (s_layers st) -> (exists l, In l (s_layers st0) /\ lc_class l = lc_class l' /\ lc_name l = lc_name l') \/ (In (lc_class l') new_classes /\ ~ In (lc_name l') (names st0));
    i_sep1 : forall l', In l' (s_layers st) -> lc_class l' = "SeparableConv1D" -> In (lc_name l') (names st0);
    i_cand : s_cand st <> [] /\ forall n, In n (s_cand st) -> In n (s_cand st0) \/ ~ In n (names st0);
    i_layers : forall l, In l (s_layers st0) -> ~ sepconv (lc_class l) -> exists l', still_there st0 st l l' /\ meta_after NC NR l (get_meta st0 (lc_name l)) (get_meta st (lc_name l)) }.
  Lemma meta_after_refl l a : meta_after NC NR l a a.
  Proof. constructor; auto; [eauto|]. intros [i d| | |s d] E; eauto. Qed.
  Lemma meta_after_trans l l' a b c : lc_class l' = lc_class l -> lc_name l' = lc_name l -> meta_after NC NR l a b -> meta_after NC NR l' b c -> meta_after NC NR l a c.
  Proof.
    intros E _ [A1 A2 A3 A4 A5 A6 A7] [B1 B2 B3 B4 B5 B6 B7]. unfold own_config in *. rewrite E in *. constructor; auto.
    - intros i d U F. destruct (A2 i d U F) as (d' & U' & D'). destruct (B2 i d' U' F) as (d'' & U'' & D''). exists d''. split; auto. destruct D'' as [->|[-> D'']]; auto.
    - intros [i d| | |s d] U; auto; specialize (B3 _ U).
      + destruct B3 as (d1 & B3). exact (A3 _ B3).
      + destruct B3 as [B3|(d1 & B3)]; auto. exact (A3 _ B3).
    - unfold own_config. intros U X1 X2 X3. apply B5; auto. 
  Qed.
  Lemma iv_init : Iv st0 0.
  Proof.
    constructor; auto.
    - intros l' L. left; eauto.
    - intros l' L _. exact (in_map lc_name _ _ L).
    - intros l L _. exists l. split; [repeat split; auto|apply meta_after_refl].
  Qed.
  Lemma iv_mono st c : Iv st c -> Iv st (S c).
  Proof. intros [A B C D E F G]. constructor; auto. intros n N. destruct (C n N) as [?|[(p & j & ? & ?)|?]]; auto. right; left. exists p, j. split; auto. Qed.

  (** A node of a match that has an original class not among the invented ones is an original candidate. *)
  Lemma match_original st c hd m x cls : Iv st c -> mtree k st hd m -> node_in x m -> lc_class (n_layer x) = cls -> ~ In cls new_classes ->
    exists l, In l (s_layers st0) /\ In (lc_name l) (s_cand st0) /\ lc_class l = cls.
  Proof.
    intros IV M X E NCL. destruct (mtree_good _ _ _ _ x M X) as (h & G1 & G2 & _). destruct (i_classes st c IV _ G1) as [(l & L1 & L2 & L3)|[Q _]]; [|rewrite E in Q; contradiction].
    exists l. split; auto. split; [|congruence]. destruct (i_cand st c IV) as [NE IC]. unfold candidate in G2. destruct (s_cand st) eqn:EC; [congruence|]. apply inb_In in G2. rewrite L3.
    destruct (IC _ G2) as [Q|Q]; auto. exfalso; apply Q. change (n_name x) with (lc_name (n_layer x)). rewrite <- L3. exact (in_map lc_name _ _ L1).
  Qed.

  Lemma iv_step s t m r st' : Iv (ls_state s) (List.length (ls_matched s)) -> about_to_replace meq k ts st0 s t m r -> replace k (ls_state s) m r = Ok st' -> Iv st' (S (List.length (ls_matched s))).
  Proof.
    intros IV (_ & T & _ & F & TR) R. set (st := ls_state s) in *. set (c := List.length (ls_matched s)) in *.
    assert (SAT := find_satisfies _ _ _ _ _ F). apply find_pattern_tree in F as [M NM].
    pose proof (i_wf st c IV) as W. pose proof (i_maps st c IV) as MO. pose proof (wf_model_names k st W) as ND.
    pose proof (match_nodup k st m true W M) as NDM.
    assert (MN : forall x, node_in x m -> In (n_name x) (names st)) by (intros x X; destruct (mtree_good _ _ _ _ x M X) as (h & G & _); exact (in_map lc_name _ _ G)).
    assert (MNm : forall n, In n (layer_names m) -> In n (names st)) by (intros n N; apply in_layer_names in N as (x & X & <-); auto).
    assert (MC : forall n, In n (layer_names m) -> In n (s_cand st0) \/ ~ In n (names st0)).
    { intros n N. apply in_layer_names in N as (x & X & <-). destruct (mtree_good _ _ _ _ x M X) as (h & _ & G & _). destruct (i_cand st c IV) as [NE IC]. apply IC. unfold candidate in G. destruct (s_cand st); [congruence|]. now apply inb_In. }
    (* fresh generated names *)
    assert (GF : forall p, ~ In (gen p c) (names st)).
    { intros p J. destruct (i_names st c IV _ J) as [Q|[(q & j & L & E)|(x & E & _)]].
      - eapply fn_new; eauto.
      - apply (fn_inj _ _ FN) in E as [_ E]. lia.
      - eapply fn_diff; eauto. }
    (* replaced layer in place: common part *)
    assert (OUTSIDE : forall l, In l (s_layers st0) -> ~ sepconv (lc_class l) -> ~ In (lc_name l) (layer_names m) -> ~ In (lc_name l) (layer_names r) ->
        exists l', still_there st0 st' l l' /\ meta_after NC NR l (get_meta st0 (lc_name l)) (get_meta st' (lc_name l))).
    { intros l L1 L2 L3 L4. destruct (i_layers st c IV l L1 L2) as (l' & (A1 & A2 & A3 & A4 & A5 & A6) & A7).
      destruct (replace_outside _ _ _ _ _ (lc_name l) R L3 L4) as (B1 & B2 & B3).
      exists (match k with Functional => rename_layer (n_name m) (n_name r) l' | Sequential => l' end). unfold still_there, get_weights, get_nw, get_meta in *. rewrite B3. split; auto.
      split; [apply (replace_in _ _ _ _ _ R); left; exists l'; rewrite A3; auto|]. rewrite B1, B2. destruct k; [|auto].
      destruct (rename_same (n_name m) (n_name r) l') as (E1 & E2 & E3). rewrite E1, E2, E3. auto. }
    assert (LOOKUP : forall l' x, In l' (s_layers st) -> node_in x m -> lc_name l' = n_name x -> l' = n_layer x).
    { intros l' x L X E. destruct (mtree_good _ _ _ _ x M X) as (h & G & _). eapply by_name; eauto. }
    assert (FEED : forall x cls, node_in x m -> lc_class (n_layer x) = cls -> ~ In cls new_classes -> exists l, In l (s_layers st0) /\ In (lc_name l) (s_cand st0) /\ lc_class l = cls).
    { intros x cls X. eapply match_original; eauto. }
    assert (SC : forall n, In n (s_cand st') -> In n (s_cand st) \/ In n (layer_names r)).
    { destruct (replace_cand _ _ _ _ _ R) as [_ Q]. destruct (i_cand st c IV) as [NE _]. destruct (Q NE) as [_ Q2]. intros n N. now apply Q2. }
    assert (SCN : s_cand st' <> []) by (destruct (replace_cand _ _ _ _ _ R) as [_ Q]; destruct (i_cand st c IV) as [NE _]; apply Q; auto).
    destruct (default_cases (meta_after NC NR) sch gen ik t c m r) as [SM|SM]; auto.
    { apply meta_after_refl. }
    { intros l a cc SB EN. constructor.
      - discriminate.
      - intros i d E; congruence.
      - intros c0 E0. injection E0 as <-. destruct SB as [_ [-> | (d & ->)]]; auto.
      - intros _ B1 B2 _. destruct SB as [[Q|Q] _]; try congruence. rewrite Q in B1. discriminate B1.
      - intros _ B1 B2 _. destruct SB as [[Q|Q] _]; congruence.
      - intros _ _ B1 B2 _. destruct SB as [[Q|Q] _]; congruence.
      - discriminate. }
    { intros _ _ PF.
        assert (NNC : ~ NC).
        { intros HNC. assert (CM : lc_class (n_layer m) = "Concatenate").
          { unfold layout_transforms, default_8bit_transforms, default_n_bit_transforms in T. destruct sch; repeat match type of T with _ \/ _ => destruct T as [<-|T] | In _ (_ :: _) => destruct T as [<-|T] | In _ [] => destruct T end; try discriminate PF;
              cbn [t_pattern] in SAT; inversion SAT; subst; cbn [n_layer]; eapply match_single; eauto. }
          destruct (FEED m "Concatenate") as (l0 & L1 & L2 & L3); [constructor|auto|cbn; intuition discriminate|]. eapply HNC; eauto. }
      split; [|split; [|split]].
      - intros l a _. constructor; auto; [eauto|]. intros [i d| | |s0 d] E; eauto.
      - apply meta_after_trans.
      - intros l a cc E. constructor.
        + discriminate.
        + intros i d U _. rewrite U in E. injection E as <-. exists true. split; auto.
        + intros c0 E0. injection E0 as <-. destruct cc; cbn; eauto.
        + intros; congruence.
        + intros [O|[O|[_ O]]] _ _ _; rewrite E in O; [discriminate| |]; injection O as ->; right; right; split; auto; reflexivity.
        + intros Q. destruct (NNC Q).
        + discriminate.
      - intros l a SU E. constructor.
        + discriminate.
        + intros i d U; congruence.
        + intros c0 E0. injection E0 as <-. left; split; [reflexivity|exact NNC].
        + intros; congruence.
        + intros _ _ _ _. right; left; reflexivity.
        + intros Q. destruct (NNC Q).
        + discriminate. }
    { intros a t' PF SAT' EI. assert (FC : relu_feeder (lc_class (n_layer a)) = true /\ (lc_class (n_layer m) = "ReLU" \/ lc_class (n_layer m) = "Activation")).
      { unfold layout_transforms, default_8bit_transforms, default_n_bit_transforms in T. destruct sch; repeat match type of T with _ \/ _ => destruct T as [<-|T] | In _ (_ :: _) => destruct T as [<-|T] | In _ [] => destruct T end; try discriminate PF;
          cbn [t_pattern] in SAT; inversion SAT as [? ? ? ? ? ? ? ? HP _ F2]; subst; cbn [n_layer n_inputs] in *; subst; inversion F2 as [|? ? ? ? S1 S2]; subst; inversion S1; subst; cbn [n_layer]; (split; [assumption|]); first [left; eapply match_single; eauto; fail|right; eapply match_single; eauto; fail]. }
      destruct FC as [FC CM].
      assert (NNR : relu_feeder (lc_class (n_layer a)) = false \/ NR -> False).
      { intros [Q|Q]; [congruence|].
      destruct CM as [CM|CM]; [destruct (FEED m "ReLU") as (l0 & L1 & L2 & L3)|destruct (FEED m "Activation") as (l0 & L1 & L2 & L3)]; try (constructor; fail); auto; try (cbn; intuition discriminate); destruct (Q l0 L1 L2); congruence. }
      constructor.
      - discriminate.
      - intros i d U Q. destruct (NNR Q).
      - intros c0 E0. injection E0 as <-. exact I.
      - intros; congruence.
      - intros _ _ _ Q. destruct (NNR Q).
      - intros _ _ _ _ Q. destruct (NNR Q).
      - discriminate. }
    - (* same shape *)
      pose proof (sim_names _ _ _ SM) as EN.
      assert (NO : names_ok st m r) by (split; [rewrite EN; auto|intros n N; left; now rewrite <- EN]).
      assert (NS : forall n, In n (names st') -> In n (names st)) by (intros n N; apply (replace_names _ _ _ _ _ R) in N as [[N _]|N]; auto; apply MNm; now rewrite <- EN).
      assert (NS2 : forall n, In n (names st) -> In n (names st')).
      { intros n N. apply (replace_names _ _ _ _ _ R). destruct (in_dec string_dec n (layer_names m)) as [I|I]; [right; now rewrite EN|left; auto]. }
      assert (CLS : forall l', In l' (s_layers st') -> exists l0, In l0 (s_layers st) /\ lc_class l0 = lc_class l' /\ lc_name l0 = lc_name l').
      { intros l' L. apply (replace_in _ _ _ _ _ R) in L as [(l0 & A1 & A2 & ->)|L].
        - exists l0. split; auto. destruct k; auto. destruct (rename_same (n_name m) (n_name r) l0) as (E1 & E2 & _). auto.
        - apply in_map_iff in L as (y & <- & Y). destruct (new_nodes_payload k m r y Y) as (a & A1 & (A2 & A3 & _) & _). apply sim_cn in SM. apply node_in_preorder in A1.
          apply (in_map (fun x => (lc_class (n_layer x), n_name x))) in A1. rewrite SM in A1. apply in_map_iff in A1 as (z & E & Z). apply node_in_preorder in Z. injection E as E1 E2.
          destruct (mtree_good _ _ _ _ z M Z) as (h & G & _). exists (n_layer z). unfold n_name in *. repeat split; auto; congruence. }
      constructor; auto.
      + eapply wf_model_replace; eauto.
      + eapply maps_ok_replace; eauto.
      + intros n N. destruct (i_names st c IV n (NS n N)) as [?|[(p & j & ? & ?)|(x & X1 & X2 & X3)]]; auto; [right; left; exists p, j; auto|right; right; exists x; split; [auto|split; [auto|intros J; apply X3; auto]]].
      + intros l' L. destruct (CLS l' L) as (l0 & A & B & C). destruct (i_classes st c IV l0 A) as [(l & ? & ? & ?)|[? ?]]; [left; exists l; repeat split; congruence|right; rewrite <- B, <- C; auto].
      + intros l' L E. destruct (CLS l' L) as (l0 & A & B & C). rewrite <- C. eapply (i_sep1 st c IV); eauto. congruence.
      + split; auto. intros n N. apply SC in N as [N|N]; [now apply (i_cand st c IV)|]. apply MC. now rewrite <- EN.
      + intros l L1 L2. destruct (in_dec string_dec (lc_name l) (layer_names m)) as [I|I]; [|apply OUTSIDE; auto; now rewrite EN].
        apply in_layer_names in I as (x & X & EX). destruct (i_layers st c IV l L1 L2) as (l' & (A1 & A2 & A3 & A4 & A5 & A6) & A7).
        assert (E : l' = n_layer x) by (apply LOOKUP; auto; congruence). destruct (sim_in _ _ _ x SM X) as (y & Y & SY).
        destruct (mtree_good _ _ _ _ x M X) as (h & _ & _ & G3 & G4 & G5 & _).
        destruct (new_nodes_payload_l k m r y Y) as (z & Z & (P1 & P2 & P3) & _). destruct (replace_inside _ _ _ _ _ y MO NO R Y) as (B1 & B2 & _).
        pose proof (get_meta_inside _ _ _ _ _ y MO NO R Y) as B3. inversion SY as [lx wx nwx mx insx ly my insy Q1 Q2 Q3 Q4 Q5 Q6]; subst. unfold n_name in *; cbn in *.
        exists (n_layer z). rewrite EX in *. rewrite Q2 in B1, B2, B3. split.
        * split; [apply (replace_in _ _ _ _ _ R); right; now apply in_map|]. repeat split; try congruence; destruct (sba_trans _ _ _ A4 Q4) as [Z1 Z2]; rewrite P3; auto.
        * rewrite B3. eapply meta_after_trans; [| |exact A7|]; eauto. rewrite <- G5. auto.
    - destruct (structural_names _ _ _ _ _ SM) as [(ET & -> & CI)|[(CI & LF & CR & NRn)|(CI & LF & CR & NRn)]].
      + (* InputLayer *)
        assert (NO : names_ok st m (Node (mkLc "QuantizeLayer" (gen "quantize_layer" c) [] []) [] None meta_empty [m])).
        { split.
          - cbn [layer_names flat_map]. rewrite app_nil_r. constructor; auto. intros J. apply (GF "quantize_layer"). apply MNm. exact J.
          - cbn [layer_names flat_map]. rewrite app_nil_r. intros n [<-|N]; [right; apply GF|left; auto]. }
        assert (RNM : forall n, In n (layer_names (Node (mkLc "QuantizeLayer" (gen "quantize_layer" c) [] []) [] None meta_empty [m])) <-> n = gen "quantize_layer" c \/ In n (layer_names m)).
        { intros n. cbn [layer_names flat_map lc_name]. rewrite app_nil_r. cbn [In]. intuition. }
        assert (NST : forall n, In n (names st') -> n = gen "quantize_layer" c \/ In n (names st)).
        { intros n N. apply (replace_names _ _ _ _ _ R) in N as [[N _]|N]; auto. apply RNM in N as [N|N]; auto. }
        assert (GQ : ~ In (gen "quantize_layer" c) (names st0)) by (apply (fn_new _ _ FN)).
        assert (CLS : forall l', In l' (s_layers st') -> (exists l0, In l0 (s_layers st) /\ lc_class l0 = lc_class l' /\ lc_name l0 = lc_name l') \/ (lc_class l' = "QuantizeLayer" /\ lc_name l' = gen "quantize_layer" c)).
        { intros l' L. apply (replace_in _ _ _ _ _ R) in L as [(l0 & A1 & A2 & ->)|L].
          - left. exists l0. split; auto. destruct k; auto. match goal with |- context [rename_layer ?a ?b l0] => destruct (rename_same a b l0) as (E1 & E2 & _) end. auto.
          - apply in_map_iff in L as (y & <- & Y). destruct (new_nodes_payload k _ _ y Y) as (a & A1 & (A2 & A3 & _) & _). apply node_in_cons in A1 as [->|(b & [<-|[]] & B)]; [right; auto|].
            left. destruct (mtree_good _ _ _ _ a M B) as (h & G & _). exists (n_layer a). auto. }
        constructor; auto.
        * eapply wf_model_replace; eauto.
        * eapply maps_ok_replace; eauto.
        * intros n N. destruct (NST n N) as [->|N']; [right; left; exists "quantize_layer", c; split; auto|].
          destruct (i_names st c IV n N') as [?|[(p & j & ? & ?)|(x & X1 & X2 & X3)]]; auto; [right; left; exists p, j; auto|right; right; exists x; repeat split; auto].
          intros J. destruct (NST x J) as [->|J']; auto.
        * intros l' L. destruct (CLS l' L) as [(l0 & A & B & C)|[Q1 Q2]].
          -- destruct (i_classes st c IV l0 A) as [(l & ? & ? & ?)|[? ?]]; [left; exists l; repeat split; congruence|right; rewrite <- B, <- C; auto].
          -- right. rewrite Q1, Q2. split; auto. now left.
        * intros l' L E. destruct (CLS l' L) as [(l0 & A & B & C)|[Q1 Q2]]; [|congruence]. rewrite <- C. eapply (i_sep1 st c IV); eauto. congruence.
        * split; auto. intros n N. apply SC in N as [N|N]; [now apply (i_cand st c IV)|]. apply RNM in N as [->|N]; auto.
        * intros l L1 L2. destruct (in_dec string_dec (lc_name l) (layer_names m)) as [I|I].
          2:{ apply OUTSIDE; auto. rewrite RNM. intros [Q|Q]; auto. apply GQ. rewrite <- Q. exact (in_map lc_name _ _ L1). }
          apply in_layer_names in I as (x & X & EX). destruct (i_layers st c IV l L1 L2) as (l' & (A1 & A2 & A3 & A4 & A5 & A6) & A7).
          assert (E : l' = n_layer x) by (apply LOOKUP; auto; congruence). subst l'.
          assert (XR : node_in x (Node (mkLc "QuantizeLayer" (gen "quantize_layer" c) [] []) [] None meta_empty [m])) by (econstructor; [left; reflexivity|auto]).
          destruct (mtree_good _ _ _ _ x M X) as (h & _ & _ & G3 & G4 & G5 & _).
          destruct (new_nodes_payload_l k m _ x XR) as (z & Z & (P1 & P2 & P3) & _). destruct (replace_inside _ _ _ _ _ x MO NO R XR) as (B1 & B2 & _).
          pose proof (get_meta_inside _ _ _ _ _ x MO NO R XR) as B3. rewrite EX in *. exists (n_layer z). split.
          -- split; [apply (replace_in _ _ _ _ _ R); right; now apply in_map|]. rewrite P3. repeat split; try congruence; apply A4.
          -- rewrite B3, G5. auto.
      + (* SeparableConv1D *)
        assert (ML : layer_names m = [n_name m]) by (destruct m as [lm wm nwm mm im]; cbn in *; subst im; auto).
        assert (MI : In (n_name m) (names st0)). { assert (X : node_in m m) by constructor. destruct (mtree_good _ _ _ _ m M X) as (h & G & _). apply (i_sep1 st c IV _ G CI). }
        assert (QF : ~ In (n_name m ++ "_QAT_SepConv2D") (names st)).
        { intros J. destruct (i_names st c IV _ J) as [Q|[(q & j & L & E)|(x & E & E2 & E3)]].
          - eapply fn_qat; eauto.
          - symmetry in E. eapply fn_diff; eauto.
          - apply append_cancel in E. subst x. apply E3. apply MN. constructor. }
        assert (NEW0 : forall n, In n (layer_names r) -> ~ In n (names st0) /\ ~ In n (names st)).
        { intros n N. rewrite NRn in N. destruct N as [<-|[<-|[<-|[]]]]; split; auto; try apply (fn_new _ _ FN); apply (fn_qat _ _ FN). }
        assert (NO : names_ok st m r).
        { split; [|intros n N; right; apply NEW0; auto]. rewrite NRn. repeat constructor; cbn; intuition; try (eapply fn_diff; eauto; fail).
          match goal with H : gen _ _ = gen _ _ |- _ => apply (fn_inj _ _ FN) in H as [H _]; discriminate end. }
        assert (NST : forall n, In n (names st') <-> (In n (names st) /\ n <> n_name m) \/ In n (layer_names r)).
        { intros n. rewrite (replace_names _ _ _ _ _ R), ML. cbn [In]. intuition. }
        constructor; auto.
        * eapply wf_model_replace; eauto.
        * eapply maps_ok_replace; eauto.
        * intros n N. apply NST in N as [[N NN]|N].
          -- destruct (i_names st c IV n N) as [?|[(p & j & ? & ?)|(x & X1 & X2 & X3)]]; auto; [right; left; exists p, j; auto|right; right; exists x; repeat split; auto].
             intros J. apply NST in J as [[J _]|J]; auto. apply NEW0 in J as [J _]; auto.
          -- right. rewrite NRn in N. destruct N as [<-|[<-|[<-|[]]]]; [left; do 2 eexists; split; [|reflexivity]; auto| |left; do 2 eexists; split; [|reflexivity]; auto].
             right. exists (n_name m). split; auto. split; auto. intros J. apply NST in J as [[_ J]|J]; auto. apply NEW0 in J as [J _]; auto.
        * intros l' L. apply (replace_in _ _ _ _ _ R) in L as [(l0 & A1 & A2 & ->)|L].
          -- assert (Q : lc_class (match k with Functional => rename_layer (n_name m) (n_name r) l0 | Sequential => l0 end) = lc_class l0 /\ lc_name (match k with Functional => rename_layer (n_name m) (n_name r) l0 | Sequential => l0 end) = lc_name l0) by (destruct k; auto; split; apply rename_same).
             destruct Q as [Q1 Q2]. rewrite Q1, Q2. apply (i_classes st c IV l0 A1).
          -- right. apply in_map_iff in L as (y & <- & Y). destruct (new_nodes_payload k m r y Y) as (a & A1 & (A2 & A3 & _) & _). split.
             ++ rewrite A2. destruct (CR a A1) as [-> | ->]; cbn; tauto.
             ++ rewrite A3. apply NEW0. apply in_layer_names; eauto.
        * intros l' L E. apply (replace_in _ _ _ _ _ R) in L as [(l0 & A1 & A2 & ->)|L].
          -- destruct k; [destruct (rename_same (n_name m) (n_name r) l0) as (E1 & E2 & _); rewrite E2; rewrite E1 in E|]; eapply (i_sep1 st c IV); eauto.
          -- apply in_map_iff in L as (y & <- & Y). destruct (new_nodes_payload k m r y Y) as (a & A1 & (A2 & A3 & _) & _). destruct (CR a A1); congruence.
        * split; auto. intros n N. apply SC in N as [N|N]; [now apply (i_cand st c IV)|]. right. now apply NEW0.
        * intros l L1 L2. apply OUTSIDE; auto.
          -- rewrite ML. intros [Q|[]]. apply L2. left. destruct (i_layers st c IV l L1 L2) as (l' & (A1 & A2 & A3 & _) & _). rewrite <- A2. rewrite (LOOKUP l' m A1); [auto|constructor|congruence].
          -- intros Q. apply NEW0 in Q as [Q _]. apply Q. exact (in_map lc_name _ _ L1).
      + (* SeparableConv2D *)
        assert (ML : layer_names m = [n_name m]) by (destruct m as [lm wm nwm mm im]; cbn in *; subst im; auto).
        assert (NEW0 : forall n, In n (layer_names r) -> ~ In n (names st0) /\ ~ In n (names st)).
        { intros n N. rewrite NRn in N. destruct N as [<-|[<-|[]]]; split; auto; apply (fn_new _ _ FN). }
        assert (NO : names_ok st m r).
        { split; [|intros n N; right; apply NEW0; auto]. rewrite NRn. repeat constructor; cbn; intuition.
          match goal with H : gen _ _ = gen _ _ |- _ => apply (fn_inj _ _ FN) in H as [H _]; discriminate end. }
        assert (NST : forall n, In n (names st') <-> (In n (names st) /\ n <> n_name m) \/ In n (layer_names r)).
        { intros n. rewrite (replace_names _ _ _ _ _ R), ML. cbn [In]. intuition. }
        constructor; auto.
        * eapply wf_model_replace; eauto.
        * eapply maps_ok_replace; eauto.
        * intros n N. apply NST in N as [[N NN]|N].
          -- destruct (i_names st c IV n N) as [?|[(p & j & ? & ?)|(x & X1 & X2 & X3)]]; auto; [right; left; exists p, j; auto|right; right; exists x; repeat split; auto].
             intros J. apply NST in J as [[J _]|J]; auto. apply NEW0 in J as [J _]; auto.
          -- right; left. rewrite NRn in N. destruct N as [<-|[<-|[]]]; do 2 eexists; (split; [|reflexivity]; auto).
        * intros l' L. apply (replace_in _ _ _ _ _ R) in L as [(l0 & A1 & A2 & ->)|L].
          -- assert (Q : lc_class (match k with Functional => rename_layer (n_name m) (n_name r) l0 | Sequential => l0 end) = lc_class l0 /\ lc_name (match k with Functional => rename_layer (n_name m) (n_name r) l0 | Sequential => l0 end) = lc_name l0) by (destruct k; auto; split; apply rename_same).
             destruct Q as [Q1 Q2]. rewrite Q1, Q2. apply (i_classes st c IV l0 A1).
          -- right. apply in_map_iff in L as (y & <- & Y). destruct (new_nodes_payload k m r y Y) as (a & A1 & (A2 & A3 & _) & _). split.
             ++ rewrite A2. destruct (CR a A1) as [-> | ->]; cbn; tauto.
             ++ rewrite A3. apply NEW0. apply in_layer_names; eauto.
        * intros l' L E. apply (replace_in _ _ _ _ _ R) in L as [(l0 & A1 & A2 & ->)|L].
          -- destruct k; [destruct (rename_same (n_name m) (n_name r) l0) as (E1 & E2 & _); rewrite E2; rewrite E1 in E|]; eapply (i_sep1 st c IV); eauto.
          -- apply in_map_iff in L as (y & <- & Y). destruct (new_nodes_payload k m r y Y) as (a & A1 & (A2 & A3 & _) & _). destruct (CR a A1); congruence.
        * split; auto. intros n N. apply SC in N as [N|N]; [now apply (i_cand st c IV)|]. right. now apply NEW0.
        * intros l L1 L2. apply OUTSIDE; auto.
          -- rewrite ML. intros [Q|[]]. apply L2. right. destruct (i_layers st c IV l L1 L2) as (l' & (A1 & A2 & A3 & _) & _). rewrite <- A2. rewrite (LOOKUP l' m A1); [auto|constructor|congruence].
          -- intros Q. apply NEW0 in Q as [Q _]. apply Q. exact (in_map lc_name _ _ L1).
  Qed.
  Theorem default_run n st : iterate meq k ts n (start ts st0) = Done st -> exists c, Iv st c.
  Proof. intros E. pose proof (run_inv2 meq k ts st0 Iv iv_init iv_mono iv_step n) as H. now rewrite E in H. Qed.
End Run.
