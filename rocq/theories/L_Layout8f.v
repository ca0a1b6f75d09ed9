(** Liveness of the Conv-BN-ReLU transforms. *)
From Coq Require Import String Permutation.
From Verif Require Import Base M_Tensor M_Transform M_Layout8 S_Transform S_Layout8 L_Transform L_Transform2 L_Transform3 L_Transform4 L_Transform5 L_Transform6 L_Layout8 L_Layout8b L_Layout8c L_Layout8d L_Transform9 L_Transform10.
Open Scope string_scope.
Open Scope nat_scope.

Definition CV : string := "Conv2D|DepthwiseConv2D".
Lemma conv_cls c : In c ["Conv2D"; "DepthwiseConv2D"; "Conv2DTranspose"] -> match_pattern c CV = true /\
  forall p, In p ["ReLU"; "Activation"; BN; "Lambda"; "InputLayer"; "SeparableConv1D"; "SeparableConv2D"] -> match_pattern c p = false.
Proof. intros [<-|[<-|[<-|[]]]]; (split; [reflexivity|]); intros p P; cbn [In] in P; repeat (destruct P as [<-|P]; [reflexivity|]); destruct P. Qed.
Lemma bn_cls c : In c ["BatchNormalization"; "SyncBatchNormalization"] -> match_pattern c BN = true /\
  forall p, In p ["ReLU"; "Activation"; CV; "Lambda"; "InputLayer"; "SeparableConv1D"; "SeparableConv2D"] -> match_pattern c p = false.
Proof. intros [<-|[<-|[]]]; (split; [reflexivity|]); intros p P; cbn [In] in P; repeat (destruct P as [<-|P]; [reflexivity|]); destruct P. Qed.
Lemma relu_cls c : In c ["ReLU"; "Activation"] -> 
  forall p, In p [BN; CV; "Lambda"; "InputLayer"; "SeparableConv1D"; "SeparableConv2D"] -> match_pattern c p = false.
Proof. intros [<-|[<-|[]]]; intros p P; cbn [In] in P; repeat (destruct P as [<-|P]; [reflexivity|]); destruct P. Qed.

Lemma find_in_some k st p matched l n : forall ls, In l ls -> ~ In (lc_name l) matched -> match_with_inputs k st l p true = Ok (Some n) -> find_pattern_in k st p matched ls <> Ok None.
Proof.
  induction ls as [|a r IH]; [intros []|]. intros I1 N M. cbn [find_pattern_in]. destruct I1 as [->|I1].
  - apply inb_false in N. rewrite N, M. discriminate.
  - destruct (inb (lc_name a) matched); auto. destruct (match_with_inputs k st a p true) as [[x|]|]; cbn [bind]; try discriminate. auto.
Qed.
Lemma all_same_len (l : list layerc) n : NoDup (map lc_name l) -> (forall x, In x l -> lc_name x = n) -> List.length l <= 1.
Proof.
  intros N H. destruct l as [|a [|b r]]; cbn; try lia. exfalso. cbn in N. inversion N as [|? ? N1 N2]; subst. apply N1. left. rewrite (H a), (H b); cbn; auto.
Qed.
Lemma nodup_filter (f : layerc -> bool) l : NoDup (map lc_name l) -> NoDup (map lc_name (filter f l)).
Proof.
  induction l as [|a r IH]; cbn; [auto|]. intros N. inversion N as [|? ? N1 N2]; subst. destruct (f a); cbn; auto. constructor; auto.
  intros H. apply N1. apply in_map_iff in H as (x & E & X). apply filter_In in X as [X _]. rewrite <- E. now apply in_map.
Qed.
Lemma filter_nil {A} (f : A -> bool) l : (forall x, In x l -> f x = false) -> filter f l = [].
Proof. induction l as [|a r IH]; intros H; auto. cbn. rewrite (H a) by now left. apply IH. intros; apply H; now right. Qed.
Lemma supported st l hd n' : NoDup (names st) -> List.length (lc_inbound l) <= 1 ->
  (hd = true \/ (forall x, In x (s_layers st) -> In (lc_name l) (inbound_layer_names x) -> lc_name x = n') /\ (forall o, In o (s_outputs st) -> c_name o <> lc_name l)) ->
  is_match_supported st l hd = true.
Proof.
  intros N L H. unfold is_match_supported. destruct (Nat.ltb_spec 1 (List.length (lc_inbound l))); [lia|].
  destruct (Nat.ltb_spec 1 (List.length (consuming_layers st (lc_name l)) + List.length (output_consumers st (lc_name l)))) as [X|]; auto. destruct H as [->|[H1 H2]]; auto. exfalso.
  assert (output_consumers st (lc_name l) = []) as E.
  { unfold output_consumers. apply filter_nil. intros o O. apply String.eqb_neq. auto. }
  assert (List.length (consuming_layers st (lc_name l)) <= 1).
  { unfold consuming_layers. apply (all_same_len _ n'); [now apply nodup_filter|]. intros x I1. apply filter_In in I1 as [I1 I2]. apply inb_In in I2. auto. }
  rewrite E in X. cbn in X. lia.
Qed.

Lemma sat_three hp hc cc m : satisfies (Pat hp hc [Pat BN [] [Pat CV cc []]]) m -> exists l1 w1 nw1 md1 l2 w2 nw2 md2 l3 w3 nw3 md3,
  m = Node l1 w1 nw1 md1 [Node l2 w2 nw2 md2 [Node l3 w3 nw3 md3 []]] /\ match_pattern (lc_class l1) hp = true /\ match_pattern (lc_class l2) BN = true /\ match_pattern (lc_class l3) CV = true /\
  (forall k v, In (k, v) hc -> match_pattern (config_get l1 k) v = true \/ config_get l1 k = v).
Proof.
  intros S1. inversion S1 as [? ? ? l1 w1 nw1 md1 ins1 P1 PC F1 E1 E2]; subst. inversion F1 as [|? b ? ? S2 F1' ]; subst. inversion F1'; subst.
  inversion S2 as [? ? ? l2 w2 nw2 md2 ins2 P2 _ F2 E1 E2]; subst. inversion F2 as [|? cv ? ? S4 F3']; subst. inversion F3'; subst.
  inversion S4 as [? ? ? l4 w4 nw4 md4 ins4 P4 _ F4 E1 E2]; subst. inversion F4; subst. do 12 eexists. split; [reflexivity|]. auto.
Qed.
Lemma sat_four hp hc lc cc m : satisfies (Pat hp hc [Pat BN [] [Pat "Lambda" lc [Pat CV cc []]]]) m -> exists l1 w1 nw1 md1 l2 w2 nw2 md2 l3 w3 nw3 md3 l4 w4 nw4 md4,
  m = Node l1 w1 nw1 md1 [Node l2 w2 nw2 md2 [Node l3 w3 nw3 md3 [Node l4 w4 nw4 md4 []]]] /\ match_pattern (lc_class l1) hp = true /\ match_pattern (lc_class l2) BN = true /\ match_pattern (lc_class l3) "Lambda" = true /\ match_pattern (lc_class l4) CV = true.
Proof.
  intros S1. inversion S1 as [? ? ? l1 w1 nw1 md1 ins1 P1 _ F1 E1 E2]; subst. inversion F1 as [|? b ? ? S2 F1' ]; subst. inversion F1'; subst.
  inversion S2 as [? ? ? l2 w2 nw2 md2 ins2 P2 _ F2 E1 E2]; subst. inversion F2 as [|? la ? ? S3 F2']; subst. inversion F2'; subst.
  inversion S3 as [? ? ? l3 w3 nw3 md3 ins3 P3 _ F3 E1 E2]; subst. inversion F3 as [|? cv ? ? S4 F3']; subst. inversion F3'; subst.
  inversion S4 as [? ? ? l4 w4 nw4 md4 ins4 P4 _ F4 E1 E2]; subst. inversion F4; subst. do 16 eexists. split; [reflexivity|]. auto.
Qed.
Lemma sn_layer meq a b : same_node meq a b -> n_layer a = n_layer b.
Proof. intros S. inversion S; subst. reflexivity. Qed.
Section Chain.
  Variables (cn bnn rn : string) (conv0 bn0 relu0 : layerc).
  Hypothesis Nc : lc_name conv0 = cn.
  Hypothesis Nb : lc_name bn0 = bnn.
  Hypothesis Nr : lc_name relu0 = rn.
  Hypothesis Cc : In (lc_class conv0) ["Conv2D"; "DepthwiseConv2D"; "Conv2DTranspose"].
  Hypothesis Ac : assoc "activation" (lc_cfg conv0) = Some "linear".
  Hypothesis Cb : In (lc_class bn0) ["BatchNormalization"; "SyncBatchNormalization"].
  Hypothesis Cr : lc_class relu0 = "ReLU" \/ lc_class relu0 = "Activation" /\ assoc "activation" (lc_cfg relu0) = Some "relu".
  Lemma Cr' : In (lc_class relu0) ["ReLU"; "Activation"]. Proof. destruct Cr as [->|[-> _]]; cbn; auto. Qed.

  (** [l] is the original layer [l0], up to its connections. *)
  Definition is_layer (st : state) (l0 l : layerc) : Prop := In l (s_layers st) /\ lc_name l = lc_name l0 /\ lc_class l = lc_class l0 /\ lc_cfg l = lc_cfg l0.
  Record chain (st : state) : Prop := mkChain {
    ch_conv : exists l, is_layer st conv0 l /\ List.length (lc_inbound l) <= 1;
    ch_bn : exists l c, is_layer st bn0 l /\ lc_inbound l = [[c]] /\ c_name c = cn;
    ch_relu : exists l c, is_layer st relu0 l /\ lc_inbound l = [[c]] /\ c_name c = bnn;
    ch_c1 : forall l, In l (s_layers st) -> In cn (inbound_layer_names l) -> lc_name l = bnn;
    ch_c2 : forall l, In l (s_layers st) -> In bnn (inbound_layer_names l) -> lc_name l = rn;
    ch_o : forall o, In o (s_outputs st) -> c_name o <> cn /\ c_name o <> bnn;
    ch_cand : forall n, In n [cn; bnn; rn] -> In n (s_cand st);
    ch_meta : forall n, In n [cn; bnn; rn] -> meta_config (get_meta st n) = None }.

  Lemma is_layer_keep st m r st' l0 l : replace Functional st m r = Ok st' -> ~ In (lc_name l0) (layer_names m) -> is_layer st l0 l -> is_layer st' l0 (rename_layer (n_name m) (n_name r) l).
  Proof.
    intros R D (A1 & A2 & A3 & A4). destruct (rename_same (n_name m) (n_name r) l) as (E1 & E2 & E3). split; [|rewrite E1, E2, E3; auto].
    apply (replace_in _ _ _ _ _ R). left. exists l. rewrite A2. auto.
  Qed.
  Lemma reads_keep old new l c n : lc_inbound l = [[c]] -> c_name c = n -> n <> old -> exists c', lc_inbound (rename_layer old new l) = [[c']] /\ c_name c' = n.
  Proof.
    intros E1 E2 N. unfold rename_layer. destruct (inb old (inbound_layer_names l)); [|eauto]. cbn [lc_inbound]. rewrite E1. cbn [map]. eexists. split; [reflexivity|]. cbn.
    destruct (String.eqb_spec (c_name c) old); congruence.
  Qed.
  Lemma rename_inb old new l n : In n (inbound_layer_names (rename_layer old new l)) -> n = new \/ In n (inbound_layer_names l).
  Proof.
    unfold rename_layer. destruct (inb old (inbound_layer_names l)); auto. unfold inbound_layer_names. cbn [lc_inbound]. intros H.
    apply in_flat_map in H as (a & A & H). apply in_map_iff in A as (a0 & <- & A). apply in_flat_map in H as (c & C & H). apply in_map_iff in C as (c0 & <- & C).
    rewrite rename_conn_names in H. apply in_map_iff in H as (x & E & X). destruct (String.eqb x old); [auto|]. subst x. right. apply in_flat_map. exists a0. split; auto. apply in_flat_map. exists c0. auto.
  Qed.
  Lemma new_reads st m r st' l n : replace Functional st m r = Ok st' -> In l (map n_layer (new_nodes Functional m r)) -> In n (inbound_layer_names l) ->
    In n (layer_names r) \/ exists x, In x (leaf_layers m) /\ In n (inbound_layer_names x).
  Proof.
    intros R L I1. pose proof (replace_functional_layers _ _ _ _ R) as (_ & _ & _ & LE). pose proof (wired_spec m r LE) as W. rewrite Forall_forall in W.
    apply in_map_iff in L as (x & <- & X). cbn [new_nodes] in X. destruct (W x X) as [[A _]|A].
    - right. apply in_map_iff in A as (y & E & Y). exists y. split; auto. unfold inbound_layer_names in *. now rewrite E.
    - left. unfold inbound_layer_names in I1. rewrite A in I1. cbn [flat_map] in I1. rewrite app_nil_r in I1. apply in_flat_map in I1 as (c & C & H). apply in_map_iff in C as (i & <- & C).
      cbn in H. destruct H as [<-|[]]. rewrite <- (wired_names m r). apply in_layer_names. exists i. split; auto. apply node_in_preorder in X.
      assert (TR : forall a b c, node_in a b -> node_in b c -> node_in a c).
      { intros a b c Ab Bc. revert Ab. induction Bc as [|u l0 w nw m0 ins y U Y IH]; auto. intros Ab. econstructor; [exact U|]. auto. }
      apply (TR i x); auto. destruct x as [lx wx nwx mx ix]. cbn in C. econstructor; [exact C|constructor].
  Qed.
  Lemma chain_keep st m r st' : mtree Functional st true m -> replace Functional st m r = Ok st' ->
    (forall n, In n [cn; bnn; rn] -> ~ In n (layer_names m)) -> (forall n, In n [cn; bnn; rn] -> ~ In n (layer_names r)) -> chain st -> chain st'.
  Proof.
    intros M R Dm Dr [K1 K2 K3 K4 K5 K6 K7 K8].
    assert (HM : In (n_name m) (layer_names m)) by (apply in_layer_names; exists m; split; [constructor|auto]).
    assert (HR : In (n_name r) (layer_names r)) by (apply in_layer_names; exists r; split; [constructor|auto]).
    assert (LF : forall x, In x (leaf_layers m) -> In x (s_layers st) /\ In (lc_name x) (layer_names m)).
    { intros x X. destruct (leaf_in m x X) as (y & Y & E & _). subst x. destruct (mtree_good _ _ _ _ y M Y) as (h & G & _). split; auto. apply in_layer_names. eauto. }
    assert (D1 : forall n, In n [cn; bnn; rn] -> n <> n_name m) by (intros n N E; apply (Dm n N); now rewrite E).
    assert (D2 : forall n, In n [cn; bnn; rn] -> n <> n_name r) by (intros n N E; apply (Dr n N); now rewrite E).
    constructor.
    - destruct K1 as (l & A & B). exists (rename_layer (n_name m) (n_name r) l). split; [eapply is_layer_keep; eauto; rewrite Nc; apply Dm; cbn; auto|].
      unfold rename_layer. destruct (inb _ _); auto. cbn. now rewrite map_length.
    - destruct K2 as (l & c & A & B & C). destruct (reads_keep (n_name m) (n_name r) l c cn B C) as (c' & E1 & E2); [apply D1; cbn; auto|].
      do 2 eexists. split; [eapply is_layer_keep; eauto; rewrite Nb; apply Dm; cbn; auto|eauto].
    - destruct K3 as (l & c & A & B & C). destruct (reads_keep (n_name m) (n_name r) l c bnn B C) as (c' & E1 & E2); [apply D1; cbn; auto|].
      do 2 eexists. split; [eapply is_layer_keep; eauto; rewrite Nr; apply Dm; cbn; auto|eauto].
    - intros l L I1. apply (replace_in _ _ _ _ _ R) in L as [(l0 & A1 & A2 & ->)|L].
      + destruct (rename_same (n_name m) (n_name r) l0) as (_ & -> & _). apply rename_inb in I1 as [I1|I1]; auto. exfalso. apply (D2 cn); cbn; auto.
      + exfalso. destruct (new_reads _ _ _ _ _ _ R L I1) as [Q|(x & X1 & X2)]; [apply (Dr cn); cbn; auto|]. destruct (LF x X1) as [Y1 Y2]. apply (Dm bnn); [cbn; auto|]. rewrite <- (K4 x Y1 X2). auto.
    - intros l L I1. apply (replace_in _ _ _ _ _ R) in L as [(l0 & A1 & A2 & ->)|L].
      + destruct (rename_same (n_name m) (n_name r) l0) as (_ & -> & _). apply rename_inb in I1 as [I1|I1]; auto. exfalso. apply (D2 bnn); cbn; auto.
      + exfalso. destruct (new_reads _ _ _ _ _ _ R L I1) as [Q|(x & X1 & X2)]; [apply (Dr bnn); cbn; auto|]. destruct (LF x X1) as [Y1 Y2]. apply (Dm rn); [cbn; auto|]. rewrite <- (K5 x Y1 X2). auto.
    - intros o O. rewrite (replace_outputs _ _ _ _ _ R) in O. apply in_map_iff in O as (o0 & <- & O). destruct (K6 o0 O) as [Q1 Q2]. unfold rename_output. destruct (String.eqb (c_name o0) (n_name m)); auto.
      cbn. split; intros E; symmetry in E; revert E; apply D2; cbn; auto.
    - intros n N. destruct (replace_cand _ _ _ _ _ R) as [_ Q]. assert (NE : s_cand st <> []) by (specialize (K7 n N); destruct (s_cand st); [destruct K7|discriminate]). apply Q; auto.
    - intros n N. destruct (replace_outside _ _ _ _ _ n R (Dm n N) (Dr n N)) as (_ & _ & E). unfold get_meta. rewrite E. apply K8; auto.
  Qed.
  Section Match.
    Variables (st : state) (p : pat) (matched : list string) (m : node).
    Hypothesis ND : NoDup (names st).
    Hypothesis CH : chain st.
    Hypothesis F : find_pattern Functional st p matched = Ok (Some m).
    Lemma Mt : mtree Functional st true m. Proof. now apply find_pattern_tree in F as [M _]. Qed.
    Lemma node_at x l0 l : node_in x m -> is_layer st l0 l -> n_name x = lc_name l0 -> n_layer x = l.
    Proof. intros X (A1 & A2 & _) E. destruct (mtree_good _ _ _ _ x Mt X) as (h & G & _). apply (by_name st); auto. unfold n_name in E. congruence. Qed.
    Lemma at_conv x : node_in x m -> n_name x = cn -> lc_class (n_layer x) = lc_class conv0.
    Proof. intros X E. destruct (ch_conv st CH) as (l & L & _). rewrite (node_at x conv0 l X L); [apply L|congruence]. Qed.
    Lemma at_bn x : node_in x m -> n_name x = bnn -> lc_class (n_layer x) = lc_class bn0.
    Proof. intros X E. destruct (ch_bn st CH) as (l & c & L & _). rewrite (node_at x bn0 l X L); [apply L|congruence]. Qed.
    Lemma at_relu x : node_in x m -> n_name x = rn -> lc_class (n_layer x) = lc_class relu0.
    Proof. intros X E. destruct (ch_relu st CH) as (l & c & L & _). rewrite (node_at x relu0 l X L); [apply L|congruence]. Qed.
    Lemma below_bn x a : node_in x m -> In a (n_inputs x) -> n_name x = bnn -> n_name a = cn.
    Proof.
      intros X A E. assert (NE : n_inputs x <> []) by (destruct (n_inputs x); [destruct A|discriminate]). pose proof (connected Functional st p matched m x ND F X NE) as (cs & rest & I1 & _ & I2).
      destruct (ch_bn st CH) as (l & c & L & Q1 & Q2). rewrite (node_at x bn0 l X L) in I1 by congruence. rewrite Q1 in I1. injection I1 as <- <-. destruct (proj1 (I2 (n_layer a)) (in_map n_layer _ _ A)) as [_ [Q|[]]]. unfold n_name. congruence.
    Qed.
    Lemma below_relu x a : node_in x m -> In a (n_inputs x) -> n_name x = rn -> n_name a = bnn.
    Proof.
      intros X A E. assert (NE : n_inputs x <> []) by (destruct (n_inputs x); [destruct A|discriminate]). pose proof (connected Functional st p matched m x ND F X NE) as (cs & rest & I1 & _ & I2).
      destruct (ch_relu st CH) as (l & c & L & Q1 & Q2). rewrite (node_at x relu0 l X L) in I1 by congruence. rewrite Q1 in I1. injection I1 as <- <-. destruct (proj1 (I2 (n_layer a)) (in_map n_layer _ _ A)) as [_ [Q|[]]]. unfold n_name. congruence.
    Qed.
    Lemma above x a : node_in x m -> In a (n_inputs x) -> (n_name a = cn -> n_name x = bnn) /\ (n_name a = bnn -> n_name x = rn).
    Proof.
      intros X A. destruct (mtree_in _ _ _ _ Mt x X) as (h & T). destruct (mtree_reads st h x a T A) as [Q _]. destruct (mtree_good _ _ _ _ x Mt X) as (h' & G & _).
      split; intros E; rewrite E in Q; [apply (ch_c1 st CH)|apply (ch_c2 st CH)]; auto.
    Qed.
    Lemma no_conv x q : node_in x m -> match_pattern (lc_class (n_layer x)) q = true -> In q ["ReLU"; "Activation"; BN; "Lambda"; "InputLayer"; "SeparableConv1D"; "SeparableConv2D"] -> n_name x <> cn.
    Proof. intros X Q I1 E. rewrite (at_conv x X E) in Q. rewrite (proj2 (conv_cls _ Cc) q I1) in Q. discriminate. Qed.
    Lemma no_bn x q : node_in x m -> match_pattern (lc_class (n_layer x)) q = true -> In q ["ReLU"; "Activation"; CV; "Lambda"; "InputLayer"; "SeparableConv1D"; "SeparableConv2D"] -> n_name x <> bnn.
    Proof. intros X Q I1 E. rewrite (at_bn x X E) in Q. rewrite (proj2 (bn_cls _ Cb) q I1) in Q. discriminate. Qed.
    Lemma no_relu x q : node_in x m -> match_pattern (lc_class (n_layer x)) q = true -> In q [BN; CV; "Lambda"; "InputLayer"; "SeparableConv1D"; "SeparableConv2D"] -> n_name x <> rn.
    Proof. intros X Q I1 E. rewrite (at_relu x X E) in Q. rewrite (relu_cls _ Cr' q I1) in Q. discriminate. Qed.
    Lemma disjoint_leaf q : p = Pat q [] [] -> In q ["InputLayer"; "SeparableConv1D"; "SeparableConv2D"] -> forall n, In n [cn; bnn; rn] -> ~ In n (layer_names m).
    Proof.
      intros Ep Q n N I1. pose proof (find_satisfies _ _ _ _ _ F) as S1. rewrite Ep in S1. pose proof (sat_leaf _ _ _ S1) as LF. assert (MP : match_pattern (lc_class (n_layer m)) q = true) by exact (sat_head _ _ q S1 (ex_intro _ [] (ex_intro _ [] eq_refl))).
      assert (layer_names m = [n_name m]) as E by (clear -LF; destruct m; cbn in *; subst; auto). rewrite E in I1. destruct I1 as [I1|[]]. assert (X : node_in m m) by constructor.
      destruct N as [<-|[<-|[<-|[]]]]; [eapply no_conv|eapply no_bn|eapply no_relu]; eauto; cbn in *; tauto.
    Qed.
    (** head <- BN <- Lambda <- Conv *)
    Lemma disjoint_reshape hp hc lc cc : p = Pat hp hc [Pat BN [] [Pat "Lambda" lc [Pat CV cc []]]] -> In hp ["ReLU"; "Activation"] -> forall n, In n [cn; bnn; rn] -> ~ In n (layer_names m).
    Proof.
      intros Ep Q n N I1. pose proof (find_satisfies _ _ _ _ _ F) as S1. rewrite Ep in S1.
      destruct (sat_four _ _ _ _ _ S1) as (l1 & w1 & nw1 & md1 & l2 & w2 & nw2 & md2 & l3 & w3 & nw3 & md3 & l4 & w4 & nw4 & md4 & Em & P1 & P2 & P3 & P4).
      set (C := Node l4 w4 nw4 md4 []) in *. set (L := Node l3 w3 nw3 md3 [C]) in *. set (B := Node l2 w2 nw2 md2 [L]) in *.
      assert (XH : node_in m m) by constructor. assert (XB : node_in B m) by (rewrite Em; econstructor; [left; reflexivity|constructor]). assert (XL : node_in L m) by (rewrite Em; econstructor; [left; reflexivity|]; econstructor; [left; reflexivity|constructor]).
      assert (XC : node_in C m) by (rewrite Em; econstructor; [left; reflexivity|]; econstructor; [left; reflexivity|]; econstructor; [left; reflexivity|constructor]).
      assert (LN : layer_names m = [n_name m; n_name B; n_name L; n_name C]) by (rewrite Em; reflexivity). rewrite LN in I1. clear LN.
      assert (IB : In B (n_inputs m)) by (rewrite Em; now left). assert (P1' : match_pattern (lc_class (n_layer m)) hp = true) by (rewrite Em; exact P1).
      assert (NL : n_name L <> cn /\ n_name L <> bnn) by (split; [eapply no_conv|eapply no_bn]; eauto; cbn; tauto).
      assert (NB : n_name B <> bnn) by (intros E; apply (proj1 NL); exact (below_bn B L XB (or_introl eq_refl) E)).
      assert (NH : n_name m <> rn) by (intros E; apply NB; exact (below_relu m B XH IB E)).
      assert (NC : n_name C <> cn) by (intros E; apply (proj2 NL); apply (proj1 (above L C XL (or_introl eq_refl))); exact E).
      destruct N as [<-|[<-|[<-|[]]]]; destruct I1 as [I1|[I1|[I1|[I1|[]]]]]; try contradiction; try (destruct NL; contradiction).
      - revert I1. apply (no_conv m hp); auto. cbn in *; tauto.
      - revert I1. apply (no_conv B BN); auto. cbn; tauto.
      - revert I1. apply (no_bn m hp); auto. cbn in *; tauto.
      - revert I1. apply (no_bn C CV); auto. cbn; tauto.
      - revert I1. apply (no_relu B BN); auto. cbn; tauto.
      - revert I1. apply (no_relu L "Lambda"); auto. cbn; tauto.
      - revert I1. apply (no_relu C CV); auto. cbn; tauto.
    Qed.
    (** head <- BN <- Conv: the shape of the match *)
    Lemma three hp hc cc : p = Pat hp hc [Pat BN [] [Pat CV cc []]] -> exists l1 w1 nw1 md1 l2 w2 nw2 md2 l3 w3 nw3 md3,
      m = Node l1 w1 nw1 md1 [Node l2 w2 nw2 md2 [Node l3 w3 nw3 md3 []]] /\ match_pattern (lc_class l1) hp = true /\ match_pattern (lc_class l2) BN = true /\ match_pattern (lc_class l3) CV = true /\
      (forall k v, In (k, v) hc -> match_pattern (config_get l1 k) v = true \/ config_get l1 k = v).
    Proof.
      intros Ep. apply (sat_three hp hc cc). rewrite <- Ep. exact (find_satisfies _ _ _ _ _ F).
    Qed.
    Lemma disjoint_three hp hc cc : p = Pat hp hc [Pat BN [] [Pat CV cc []]] -> In hp ["ReLU"; "Activation"] -> n_name m <> rn -> forall n, In n [cn; bnn; rn] -> ~ In n (layer_names m).
    Proof.
      intros E Q NH n N I1. destruct (three hp hc cc E) as (l1 & w1 & nw1 & md1 & l2 & w2 & nw2 & md2 & l4 & w4 & nw4 & md4 & Em & P1 & P2 & P4 & _). 
      set (C := Node l4 w4 nw4 md4 []) in *. set (B := Node l2 w2 nw2 md2 [C]) in *. 
      assert (XH : node_in m m) by constructor. assert (XB : node_in B m) by (rewrite Em; econstructor; [left; reflexivity|constructor]).
      assert (XC : node_in C m) by (rewrite Em; econstructor; [left; reflexivity|]; econstructor; [left; reflexivity|constructor]).
      assert (LN : layer_names m = [n_name m; n_name B; n_name C]) by (rewrite Em; reflexivity). rewrite LN in I1. clear LN.
      assert (P1' : match_pattern (lc_class (n_layer m)) hp = true) by (rewrite Em; exact P1).
      assert (IB : In B (n_inputs m)) by (rewrite Em; now left).
      assert (NB : n_name B <> bnn) by (intros X; apply NH; apply (proj2 (above m B XH IB)); exact X).
      assert (NC : n_name C <> cn) by (intros X; apply NB; apply (proj1 (above B C XB (or_introl eq_refl))); exact X).
      destruct N as [<-|[<-|[<-|[]]]]; destruct I1 as [I1|[I1|[I1|[]]]]; try contradiction.
      - revert I1. apply (no_conv m hp); auto. cbn in *; tauto.
      - revert I1. apply (no_conv B BN); auto. cbn; tauto.
      - revert I1. apply (no_bn m hp); auto. cbn in *; tauto.
      - revert I1. apply (no_bn C CV); auto. cbn; tauto.
      - revert I1. apply (no_relu B BN); auto. cbn; tauto.
      - revert I1. apply (no_relu C CV); auto. cbn; tauto.
    Qed.
  End Match.

  (** The match is found. *)
  Lemma match_exists st hp hc : NoDup (names st) -> chain st -> match_pattern (lc_class relu0) hp = true ->
    (forall k v, In (k, v) hc -> k = "activation" /\ v = "relu" /\ assoc k (lc_cfg relu0) = Some "relu") ->
    exists l n, In l (s_layers st) /\ lc_name l = rn /\ match_with_inputs Functional st l (Pat hp hc [pat_conv_bn]) true = Ok (Some n).
  Proof.
    intros ND CH MP HC. destruct (ch_relu st CH) as (lr & c & (R1 & R2 & R3 & R4) & R5 & R6). destruct (ch_bn st CH) as (lb & c' & (B1 & B2 & B3 & B4) & B5 & B6). destruct (ch_conv st CH) as (lv & (V1 & V2 & V3 & V4) & V5).
    assert (CA : forall n, In n [cn; bnn; rn] -> candidate st n = true).
    { intros n N. pose proof (ch_cand st CH n N) as Q. unfold candidate. destruct (s_cand st) eqn:E; auto. rewrite <- E in *. now apply inb_In. }
    exists lr. assert (M1 : match_layer st lr hp hc = true).
    { unfold match_layer. rewrite R2, Nr, CA by (cbn; auto). rewrite R3, MP. cbn [andb]. apply forallb_forall. intros [k v] KV. destruct (HC k v KV) as (-> & -> & A). cbn [fst snd]. unfold config_get. cbn. rewrite R4, A. reflexivity. }
    assert (M2 : match_layer st lb BN [] = true).
    { unfold match_layer. rewrite B2, Nb, CA by (cbn; auto). rewrite B3, (proj1 (bn_cls _ Cb)). reflexivity. }
    assert (M3 : match_layer st lv CV [("activation", "linear")] = true).
    { unfold match_layer. rewrite V2, Nc, CA by (cbn; auto). rewrite V3, (proj1 (conv_cls _ Cc)). cbn [andb forallb fst snd]. unfold config_get. cbn. rewrite V4, Ac. reflexivity. }
    assert (G2 : get_layers st [bnn] = [lb]) by (apply filter_one; auto; congruence). assert (G3 : get_layers st [cn] = [lv]) by (apply filter_one; auto; congruence).
    assert (Z1 : is_match_supported st lr true = true) by (apply (supported st lr true ""); auto; rewrite R5; cbn; lia).
    assert (Z2 : is_match_supported st lb false = true).
    { apply (supported st lb false rn); auto; [rewrite B5; cbn; lia|]. right. rewrite B2, Nb. split; [apply (ch_c2 st CH)|]. intros o O. apply (ch_o st CH o O). }
    assert (Z3 : is_match_supported st lv false = true).
    { apply (supported st lv false bnn); auto. right. rewrite V2, Nc. split; [apply (ch_c1 st CH)|]. intros o O. apply (ch_o st CH o O). }
    assert (E3 : match_with_inputs Functional st lv (Pat CV [("activation", "linear")] []) false = Ok (Some (mk_node st lv []))).
    { cbn [match_with_inputs]. rewrite M3, Z3. reflexivity. }
    assert (E2 : match_with_inputs Functional st lb pat_conv_bn false = Ok (Some (mk_node st lb [mk_node st lv []]))).
    { unfold pat_conv_bn. change "Conv2D|DepthwiseConv2D" with CV. cbn [match_with_inputs]. rewrite M2, Z2. cbn [negb]. unfold input_layer_names. rewrite B5. cbn [map bind]. rewrite B6, G3. cbn [List.length Nat.eqb negb]. rewrite M3, Z3. reflexivity. }
    eexists. split; [exact R1|]. split; [congruence|]. clear E2 E3. unfold pat_conv_bn. change "Conv2D|DepthwiseConv2D" with CV. cbn [match_with_inputs].
    rewrite M1, Z1. cbn [negb]. unfold input_layer_names at 1. rewrite R5. cbn [map bind]. rewrite R6, G2. cbn [List.length Nat.eqb negb]. rewrite M2, Z2. cbn [negb]. unfold input_layer_names. rewrite B5. cbn [map bind]. rewrite B6, G3. cbn [List.length Nat.eqb negb]. rewrite M3, Z3. reflexivity.
  Qed.
  (** ** The run *)
  Variables (sch : scheme) (gen : string -> nat -> string) (ik : string -> bool) (meq : meta -> meta -> bool) (st0 : state).
  Hypothesis W0 : wf_model Functional st0.
  Hypothesis M0 : maps_ok st0.
  Hypothesis FN : fresh_naming gen (names st0).
  Hypothesis C0 : s_cand st0 <> [].
  Hypothesis Ic : In conv0 (s_layers st0).
  Hypothesis Ib : In bn0 (s_layers st0).
  Hypothesis Ir : In relu0 (s_layers st0).
  Hypothesis CH0 : chain st0.
  Notation ts := (layout_transforms sch gen ik).
  Notation IV := (Iv gen Functional st0).
  Lemma in_names n : In n [cn; bnn; rn] -> In n (names st0).
  Proof. intros [<-|[<-|[<-|[]]]]; [rewrite <- Nc|rewrite <- Nb|rewrite <- Nr]; now apply in_map. Qed.
  Lemma structural_disj i m r tn : structural gen i m r tn -> (forall n, In n [cn; bnn; rn] -> ~ In n (layer_names m)) -> forall n, In n [cn; bnn; rn] -> ~ In n (layer_names r).
  Proof.
    intros S1 D n N I1. pose proof (in_names n N) as NI. destruct (structural_names _ _ _ _ _ S1) as [(_ & -> & _)|[(_ & _ & _ & E)|(_ & _ & _ & E)]].
    - cbn [layer_names flat_map lc_name] in I1. rewrite app_nil_r in I1. destruct I1 as [<-|I1]; [eapply (fn_new _ _ FN); eauto|]. eapply D; eauto.
    - rewrite E in I1. destruct I1 as [<-|[<-|[<-|[]]]]; [eapply (fn_new _ _ FN)|eapply (fn_qat _ _ FN)|eapply (fn_new _ _ FN)]; eauto.
    - rewrite E in I1. destruct I1 as [<-|[<-|[]]]; eapply (fn_new _ _ FN); eauto.
  Qed.
  Definition RT (l : layerc) (a b : meta) : Prop := m_cfg a = Some (Some NoOpCfg) -> m_cfg b = Some (Some NoOpCfg).
  Lemma cases t i m r : In t ts -> satisfies (t_pattern t) m -> t_repl t i m = Ok r -> sim RT m r \/ structural gen i m r (t_name t).
  Proof.
    intros T S1 TR. unfold RT. apply (default_cases (fun _ a b => m_cfg a = Some (Some NoOpCfg) -> m_cfg b = Some (Some NoOpCfg)) sch gen ik t i m r); auto.
    - intros l a c _ E H. unfold meta_config in E. rewrite H in E. discriminate.
    - intros _ _ _. repeat split; auto.
      + intros l a c E H. unfold meta_config in E. rewrite H in E. injection E as <-. reflexivity.
      + intros l a _ E H. unfold meta_config in E. rewrite H in E. discriminate.
  Qed.
  Lemma r_disjoint t i m r : In t ts -> satisfies (t_pattern t) m -> t_repl t i m = Ok r -> (forall n, In n [cn; bnn; rn] -> ~ In n (layer_names m)) -> forall n, In n [cn; bnn; rn] -> ~ In n (layer_names r).
  Proof. intros T S1 TR D. destruct (cases t i m r T S1 TR) as [SM|SM]; [rewrite (sim_names _ _ _ SM); auto|eapply structural_disj; eauto]. Qed.

  Definition fused (st : state) : Prop :=
    (exists l, In l (s_layers st) /\ lc_name l = cn /\ assoc "activation" (lc_cfg l) = Some "NoOpActivation") /\ m_cfg (get_meta st bnn) = Some (Some NoOpCfg).
  Definition own (t : transform) : Prop :=
    t = mkTr "Conv2DBatchNormReLUQuantize" (pat_relu pat_conv_bn) repl_bn_relu /\ lc_class relu0 = "ReLU" \/
    t = mkTr "Conv2DBatchNormActivationQuantize" (pat_act_relu pat_conv_bn) repl_bn_relu /\ lc_class relu0 = "Activation" /\ assoc "activation" (lc_cfg relu0) = Some "relu".
  Definition early (t : transform) : Prop :=
    (exists q, t_pattern t = Pat q [] [] /\ In q ["InputLayer"; "SeparableConv1D"; "SeparableConv2D"]) \/
    (exists hp hc lc cc, t_pattern t = Pat hp hc [Pat BN [] [Pat "Lambda" lc [Pat CV cc []]]] /\ In hp ["ReLU"; "Activation"]) \/
    (t_pattern t = pat_relu pat_conv_bn /\ lc_class relu0 = "Activation").
  Definition waiting (s : loop_state) : Prop := chain (ls_state s) /\ exists pre o rest, ls_todo s = (pre ++ o :: rest)%list /\ own o /\ (forall t, In t pre -> early t) /\ ~ In (t_name o, rn) (ls_matched s).
  Lemma waiting_start : waiting (start ts st0).
  Proof.
    split; [exact CH0|]. cbn [start ls_todo ls_matched].
    assert (E1 : forall tn q rp, In q ["InputLayer"; "SeparableConv1D"; "SeparableConv2D"] -> early (mkTr tn (Pat q [] []) rp)) by (intros tn q rp Q; left; exists q; split; [reflexivity|exact Q]).
    assert (E2 : forall tn rp, early (mkTr tn (pat_relu pat_conv_reshape_bn) rp)) by (intros; right; left; do 4 eexists; split; [reflexivity|cbn; auto]).
    assert (E3 : forall tn rp, early (mkTr tn (pat_act_relu pat_conv_reshape_bn) rp)) by (intros; right; left; do 4 eexists; split; [reflexivity|cbn; auto]).
    destruct Cr as [CR|CR].
    - exists (firstn 5 ts), (mkTr "Conv2DBatchNormReLUQuantize" (pat_relu pat_conv_bn) repl_bn_relu), (skipn 6 ts). split; [destruct sch; reflexivity|]. split; [left; auto|]. split; [|intros []].
      intros t T. destruct sch; cbn [layout_transforms default_8bit_transforms default_n_bit_transforms firstn In] in T; repeat (destruct T as [<-|T]; [first [apply E1; cbn; tauto|apply E2|apply E3]|]); destruct T.
    - exists (firstn 6 ts), (mkTr "Conv2DBatchNormActivationQuantize" (pat_act_relu pat_conv_bn) repl_bn_relu), (skipn 7 ts). split; [destruct sch; reflexivity|]. split; [right; auto|]. split; [|intros []].
      intros t T. destruct sch; cbn [layout_transforms default_8bit_transforms default_n_bit_transforms firstn In] in T; repeat (destruct T as [<-|T]; [first [apply E1; cbn; tauto|apply E2|apply E3|right; right; split; [reflexivity|apply CR]]|]); destruct T.
  Qed.

  (** The own match fuses the chain. *)
  Lemma own_match st c o matched i m r : IV st c -> chain st -> own o -> find_pattern Functional st (t_pattern o) matched = Ok (Some m) -> n_name m = rn -> t_repl o i m = Ok r ->
    node_eqb meq m r = false /\ forall st', replace Functional st m r = Ok st' -> fused st'.
  Proof.
    intros V CH O F NM TR. pose proof (i_wf _ _ _ _ _ V) as W. pose proof (i_maps _ _ _ _ _ V) as MO. pose proof (wf_model_names _ _ W) as ND. pose proof F as F'. apply find_pattern_tree in F' as [M _].
    pose proof (match_nodup _ _ _ _ W M) as NDM.
    assert (TR' : repl_bn_relu i m = Ok r) by (destruct O as [[-> _]|[-> _]]; exact TR).
    assert (P : exists hp hc, t_pattern o = Pat hp hc [Pat BN [] [Pat CV [("activation", "linear")] []]]) by (destruct O as [[-> _]|[-> _]]; do 2 eexists; reflexivity).
    destruct P as (hp & hc & P). rewrite P in F. destruct (three st _ matched m F hp hc _ eq_refl) as (l1 & w1 & nw1 & md1 & l2 & w2 & nw2 & md2 & l3 & w3 & nw3 & md3 & Em & P1 & P2 & P4 & _).
    set (C := Node l3 w3 nw3 md3 []) in *. set (B := Node l2 w2 nw2 md2 [C]) in *.
    assert (XH : node_in m m) by constructor. assert (XB : node_in B m) by (rewrite Em; econstructor; [left; reflexivity|constructor]).
    assert (XC : node_in C m) by (rewrite Em; econstructor; [left; reflexivity|]; econstructor; [left; reflexivity|constructor]).
    assert (IB : In B (n_inputs m)) by (rewrite Em; now left).
    pose proof (below_relu st _ matched m ND CH F m B XH IB NM) as NB. pose proof (below_bn st _ matched m ND CH F B C XB (or_introl eq_refl) NB) as NCC.
    destruct (mtree_good _ _ _ _ m M XH) as (h1 & _ & _ & _ & _ & G1 & _). destruct (mtree_good _ _ _ _ B M XB) as (h2 & _ & _ & _ & _ & G2 & _). destruct (mtree_good _ _ _ _ C M XC) as (h3 & _ & _ & _ & _ & G3 & _).
    assert (HCU : has_custom [m; B; C] = false).
    { unfold has_custom. cbn [existsb]. rewrite G1, G2, G3, NM, NB, NCC. rewrite !(ch_meta st CH) by (cbn; auto). reflexivity. }
    destruct (ch_conv st CH) as (lv & LV & _). assert (EL : l3 = lv) by (apply (node_at st _ matched m ND F C conv0 lv XC LV); congruence). destruct LV as (_ & _ & _ & LC).
    set (C' := noop_activation C). set (B' := Node l2 w2 nw2 (mkMeta (Some (Some NoOpCfg)) (m_noquant md2)) [C']).
    assert (Er : r = Node l1 w1 nw1 md1 [B']).
    { unfold repl_bn_relu in TR'. rewrite Em in TR'. cbn [input0 n_inputs bind] in TR'. unfold B in TR' at 1. cbn [input0 n_inputs bind] in TR'. rewrite <- Em in TR'. rewrite HCU in TR'. rewrite Em in TR'.
      apply (f_equal (fun x => match x with Ok v => v | Err _ => m end)) in TR'. cbv beta iota in TR'. rewrite <- TR'. reflexivity. }
    split.
    - destruct (node_eqb meq m r) eqn:E; auto. exfalso. apply node_iff in E. rewrite Em, Er in E. inversion E as [? ? ? ? ? ? ? ? ? _ _ F1]; subst. inversion F1 as [|? ? ? ? S1 _]; subst. unfold B, B' in S1. inversion S1 as [? ? ? ? ? ? ? ? ? _ _ F2]; subst.
      inversion F2 as [|? ? ? ? S2 _]; subst. unfold C', C in S2. cbn [noop_activation] in S2. 
      pose proof (f_equal lc_cfg (sn_layer _ _ _ S2)) as X. cbn [n_layer lc_cfg] in X. apply (f_equal (assoc "activation")) in X. rewrite assoc_dict_set, LC, Ac in X. discriminate X.
    - intros st' R. assert (LN : layer_names r = layer_names m) by (rewrite Em, Er; reflexivity).
      assert (NO : names_ok st m r) by (split; [rewrite LN; auto|intros n N; left; now rewrite <- LN]).
      assert (YB : node_in B' r) by (rewrite Er; econstructor; [left; reflexivity|constructor]).
      assert (YC : node_in C' r) by (rewrite Er; econstructor; [left; reflexivity|]; econstructor; [left; reflexivity|constructor]).
      split.
      + destruct (new_nodes_payload_l Functional m r C' YC) as (z & Z & (Q1 & Q2 & Q3) & _). exists (n_layer z). split; [apply (replace_in _ _ _ _ _ R); right; now apply in_map|]. split; [rewrite Q2; exact NCC|]. rewrite Q3. unfold C', C, noop_activation. cbn [n_layer lc_cfg]. now rewrite assoc_dict_set.
      + pose proof (get_meta_inside _ _ _ _ _ B' MO NO R YB) as Q. change (n_name B') with (n_name B) in Q. rewrite NB in Q. rewrite Q. reflexivity.
  Qed.

  (** Once fused, always fused. *)
  Lemma fused_keep st c t matched i m r st' : IV st c -> In t ts -> find_pattern Functional st (t_pattern t) matched = Ok (Some m) -> t_repl t i m = Ok r -> replace Functional st m r = Ok st' -> fused st -> fused st'.
  Proof.
    intros V T F TR R [(lv & L1 & L2 & L3) FM]. pose proof (i_wf _ _ _ _ _ V) as W. pose proof (i_maps _ _ _ _ _ V) as MO. pose proof (wf_model_names _ _ W) as ND.
    pose proof (find_satisfies _ _ _ _ _ F) as S1. pose proof F as F'. apply find_pattern_tree in F' as [M _]. pose proof (match_nodup _ _ _ _ W M) as NDM.
    assert (OUT1 : ~ In cn (layer_names m) -> ~ In cn (layer_names r) -> exists l, In l (s_layers st') /\ lc_name l = cn /\ assoc "activation" (lc_cfg l) = Some "NoOpActivation").
    { intros D1 D2. destruct (rename_same (n_name m) (n_name r) lv) as (_ & E2 & E3). exists (rename_layer (n_name m) (n_name r) lv). rewrite E2, E3. split; auto. apply (replace_in _ _ _ _ _ R). left. exists lv. rewrite L2. auto. }
    assert (OUT2 : ~ In bnn (layer_names m) -> ~ In bnn (layer_names r) -> m_cfg (get_meta st' bnn) = Some (Some NoOpCfg)).
    { intros D1 D2. destruct (replace_outside _ _ _ _ _ bnn R D1 D2) as (_ & _ & E). unfold get_meta. rewrite E. exact FM. }
    destruct (cases t i m r T S1 TR) as [SM|SM].
    - pose proof (sim_names _ _ _ SM) as EN. assert (NO : names_ok st m r) by (split; [rewrite EN; auto|intros n N; left; now rewrite <- EN]). split.
      + destruct (in_dec string_dec cn (layer_names m)) as [I1|I1]; [|apply OUT1; auto; now rewrite EN].
        apply in_layer_names in I1 as (x & X & EX). destruct (mtree_good _ _ _ _ x M X) as (h & G & _). assert (E : n_layer x = lv) by (apply (by_name st); auto; unfold n_name in EX; congruence).
        destruct (sim_in _ _ _ x SM X) as (y & Y & SY). destruct (new_nodes_payload_l Functional m r y Y) as (z & Z & (Q1 & Q2 & Q3) & _). exists (n_layer z).
        split; [apply (replace_in _ _ _ _ _ R); right; now apply in_map|]. inversion SY as [lx wx nwx mx insx ly my insy A1 A2 A3 A4 A5 A6]; subst. cbn [n_layer] in *. rewrite Q2, Q3. split; [congruence|].
        destruct A4 as [_ [A4|A4]]; [|exact A4]. rewrite A4. congruence.
      + destruct (in_dec string_dec bnn (layer_names m)) as [I1|I1]; [|apply OUT2; auto; now rewrite EN].
        apply in_layer_names in I1 as (x & X & EX). destruct (mtree_good _ _ _ _ x M X) as (h & _ & _ & _ & _ & G & _). destruct (sim_in _ _ _ x SM X) as (y & Y & SY).
        pose proof (get_meta_inside _ _ _ _ _ y MO NO R Y) as Q. inversion SY as [lx wx nwx mx insx ly my insy A1 A2 A3 A4 A5 A6]; subst x y. unfold n_name in *. cbn [n_layer n_meta] in *. rewrite A2, EX in Q. rewrite Q. apply A5. rewrite G, EX. exact FM.
    - assert (LF : layer_names m = [n_name m] /\ In (lc_class (n_layer m)) ["InputLayer"; "SeparableConv1D"; "SeparableConv2D"]).
      { assert (Q : n_inputs m = [] /\ In (lc_class (n_layer m)) ["InputLayer"; "SeparableConv1D"; "SeparableConv2D"]) by (destruct SM as [C E LF | C E LF HC | C E LF HC]; rewrite C; cbn; auto).
        destruct Q as [Q1 Q2]. split; auto. destruct m; cbn in *; subst; auto. }
      destruct LF as [LF LC]. assert (XM : node_in m m) by constructor. destruct (mtree_good _ _ _ _ m M XM) as (h & G & _).
      assert (DIS : forall l0, In l0 (s_layers st0) -> ~ sepconv (lc_class l0) -> lc_class l0 <> "InputLayer" -> n_name m <> lc_name l0).
      { intros l0 I0 NS NI E. destruct (i_layers _ _ _ _ _ V l0 I0 NS) as (l' & (A1 & A2 & A3 & _) & _). assert (n_layer m = l') as Q by (apply (by_name st); auto; unfold n_name in E; congruence).
        rewrite Q, A2 in LC. unfold sepconv in NS. destruct LC as [LC|[LC|[LC|[]]]]; [apply NI; auto|apply NS; auto|apply NS; auto]. }
      assert (D1 : n_name m <> cn) by (rewrite <- Nc; apply DIS; auto; unfold sepconv; destruct Cc as [<-|[<-|[<-|[]]]]; try discriminate; intros [Q|Q]; discriminate).
      assert (D2 : n_name m <> bnn) by (rewrite <- Nb; apply DIS; auto; unfold sepconv; destruct Cb as [<-|[<-|[]]]; try discriminate; intros [Q|Q]; discriminate).
      assert (D3 : n_name m <> rn) by (rewrite <- Nr; apply DIS; auto; unfold sepconv; destruct Cr as [->|[-> _]]; try discriminate; intros [Q|Q]; discriminate).
      assert (DM : forall n, In n [cn; bnn; rn] -> ~ In n (layer_names m)) by (rewrite LF; intros n [<-|[<-|[<-|[]]]] [Q|[]]; contradiction).
      pose proof (structural_disj _ _ _ _ SM DM) as DR. split; [apply OUT1|apply OUT2]; first [apply DM|apply DR]; cbn; auto.
  Qed.

  Lemma early_disjoint st c t matched m : IV st c -> chain st -> early t -> find_pattern Functional st (t_pattern t) matched = Ok (Some m) -> forall n, In n [cn; bnn; rn] -> ~ In n (layer_names m).
  Proof.
    intros V CH E F. pose proof (wf_model_names _ _ (i_wf _ _ _ _ _ V)) as ND. destruct E as [(q & E & Q)|[(hp & hc & lc & cc & E & Q)|(E & Q)]].
    - eapply disjoint_leaf; eauto.
    - eapply disjoint_reshape; eauto.
    - eapply (disjoint_three st (t_pattern t) matched m ND CH F "ReLU" [] [("activation", "linear")]); [exact E|cbn; auto|]. intros NM. assert (XM : node_in m m) by constructor.
      pose proof (at_relu st _ matched m ND CH F m XM NM) as CL. pose proof (find_satisfies _ _ _ _ _ F) as S1. rewrite E in S1. pose proof (sat_head _ _ "ReLU" S1 (ex_intro _ [] (ex_intro _ [pat_conv_bn] eq_refl))) as MP. rewrite CL, Q in MP. discriminate.
  Qed.
  Lemma own_disjoint st c o matched m : IV st c -> chain st -> own o -> find_pattern Functional st (t_pattern o) matched = Ok (Some m) -> n_name m <> rn -> forall n, In n [cn; bnn; rn] -> ~ In n (layer_names m).
  Proof.
    intros V CH O F NM. pose proof (wf_model_names _ _ (i_wf _ _ _ _ _ V)) as ND. destruct O as [[-> _]|[-> _]]; cbn [t_pattern] in F; [eapply (disjoint_three st _ matched m ND CH F "ReLU")|eapply (disjoint_three st _ matched m ND CH F "Activation")]; try reflexivity; auto; cbn; auto.
  Qed.
  Lemma own_found st c o matched : IV st c -> chain st -> own o -> ~ In rn matched -> find_pattern Functional st (t_pattern o) matched <> Ok None.
  Proof.
    intros V CH O NI. pose proof (wf_model_names _ _ (i_wf _ _ _ _ _ V)) as ND.
    assert (X : exists hp hc, t_pattern o = Pat hp hc [pat_conv_bn] /\ match_pattern (lc_class relu0) hp = true /\ forall k v, In (k, v) hc -> k = "activation" /\ v = "relu" /\ assoc k (lc_cfg relu0) = Some "relu").
    { destruct O as [[-> C]|[-> [C A]]]; do 2 eexists; (split; [reflexivity|]); rewrite C; (split; [reflexivity|]); [intros k v []|]. intros k v [E|[]]. injection E as <- <-. auto. }
    destruct X as (hp & hc & E & MP & HC). destruct (match_exists st hp hc ND CH MP HC) as (l & n & L1 & L2 & L3). rewrite E. unfold find_pattern. eapply find_in_some; eauto. congruence.
  Qed.

  Lemma live n : match iterate meq Functional ts n (start ts st0) with
    | Running s => IV (ls_state s) (List.length (ls_matched s)) /\ (waiting s \/ fused (ls_state s))
    | Done st => fused st
    | Failed _ => True end.
  Proof.
    induction n as [|n IH]; [split; [now apply iv_init|left; apply waiting_start]|]. rewrite iterate_S. destruct (iterate meq Functional ts n (start ts st0)) as [s|st|e] eqn:E; auto.
    destruct IH as [V PH]. destruct (todo_sub meq Functional ts st0 n s E) as (pre0 & T0).
    assert (NEXT : forall t rest m r st', ls_todo s = t :: rest -> find_pattern Functional (ls_state s) (t_pattern t) (matched_names t (ls_matched s)) = Ok (Some m) -> t_repl t (List.length (ls_matched s)) m = Ok r ->
        replace Functional (ls_state s) m r = Ok st' -> IV st' (S (List.length (ls_matched s)))).
    { intros t rest m r st' T F TR R. eapply iv_step; eauto. repeat split; eauto. rewrite T0, T, in_app_iff. right; now left. }
    unfold step. destruct (ls_todo s) as [|t rest] eqn:T.
    - destruct PH as [(_ & pre & o & r & Q & _)|PH]; [rewrite T in Q; destruct pre; discriminate|]. destruct (ls_found s); cbn [ls_state ls_matched]; auto.
    - assert (TIN : In t ts) by (rewrite T0, in_app_iff; right; now left).
      destruct (find_pattern Functional (ls_state s) (t_pattern t) (matched_names t (ls_matched s))) as [[m|]|] eqn:F; [| |exact I].
      + destruct (t_repl t (List.length (ls_matched s)) m) as [r|] eqn:TR; [|exact I]. pose proof (find_satisfies _ _ _ _ _ F) as S1. pose proof F as F'. apply find_pattern_tree in F' as [M _].
        destruct PH as [(CH & pre & o & rest' & Q & O & EA & NM)|PH].
        * rewrite T in Q.
          assert (CASE : own t /\ pre = [] /\ t = o /\ n_name m = rn \/ ((forall n, In n [cn; bnn; rn] -> ~ In n (layer_names m)) /\ ~ In (t_name o, rn) ((t_name t, n_name m) :: ls_matched s))).
          { destruct pre as [|t1 pre]; cbn [app] in Q; injection Q as -> Q.
            - destruct (string_dec (n_name m) rn) as [D|D]; [left; auto|right]. split; [eapply own_disjoint; eauto|]. intros [X|X]; [injection X as X; contradiction|auto].
            - right. assert (DJ : forall n, In n [cn; bnn; rn] -> ~ In n (layer_names m)) by (eapply early_disjoint; eauto; apply EA; now left). split; auto.
              intros [X|X]; auto. injection X as _ X. apply (DJ rn); [cbn; auto|]. rewrite <- X. apply in_layer_names. exists m. split; [constructor|auto]. }
          destruct CASE as [(_ & -> & -> & HN)|[DJ NM']].
          -- destruct (own_match _ _ o _ _ m r V CH O F HN TR) as [NE FU]. rewrite NE. destruct (replace Functional (ls_state s) m r) as [st'|] eqn:R; [|exact I]. cbn [ls_state ls_matched List.length]. split; [eapply NEXT; eauto|right; auto].
          -- destruct (node_eqb meq m r).
             ++ cbn [ls_state ls_matched List.length]. split; [now apply iv_mono|]. left. split; [exact CH|]. exists pre, o, rest'. cbn [ls_todo ls_matched]. auto.
             ++ destruct (replace Functional (ls_state s) m r) as [st'|] eqn:R; [|exact I]. cbn [ls_state ls_matched List.length]. split; [eapply NEXT; eauto|]. left. split.
                ** cbn [ls_state]. eapply chain_keep; eauto. eapply r_disjoint; eauto.
                ** exists pre, o, rest'. cbn [ls_todo ls_matched]. auto.
        * destruct (node_eqb meq m r).
          -- cbn [ls_state ls_matched List.length]. split; [now apply iv_mono|auto].
          -- destruct (replace Functional (ls_state s) m r) as [st'|] eqn:R; [|exact I]. cbn [ls_state ls_matched List.length]. split; [eapply NEXT; eauto|]. right. eapply fused_keep; eauto.
      + cbn [ls_state ls_matched]. split; auto. destruct PH as [(CH & pre & o & rest' & Q & O & EA & NM)|PH]; [|auto]. left. rewrite T in Q. destruct pre as [|t1 pre]; cbn [app] in Q; injection Q as -> Q.
        * exfalso. revert F. eapply own_found; eauto. unfold matched_names. intros X. apply in_map_iff in X as ([a b] & E1 & X). apply filter_In in X as [X1 X2]. cbn in *. subst b. apply String.eqb_eq in X2. subst a. auto.
        * split; [exact CH|]. exists pre, o, rest'. cbn [ls_todo ls_matched]. split; auto. split; auto. split; auto. intros t T1. apply EA. now right.
  Qed.
End Chain.
