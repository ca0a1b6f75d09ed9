(** The replacements of the default layout transforms, exactly. *)
From Coq Require Import String.
From Verif Require Import Base M_Tensor M_Transform M_Layout8 S_Transform S_Layout8 S_Layout8b L_Transform L_Transform5.
Open Scope string_scope.
Open Scope list_scope.
Open Scope nat_scope.

Lemma unconf m : unconfigured m <-> meta_config m = None.
Proof.
  unfold unconfigured, configured, meta_config. destruct (m_cfg m) as [[c|]|]; split; try congruence; try (intros _ c [=]).
  intros H. exfalso. now apply (H c).
Qed.
Lemma conf m c : configured m c <-> meta_config m = Some c.
Proof. unfold configured, meta_config. destruct (m_cfg m) as [[d|]|]; split; try congruence; now intros [= ->]. Qed.
Lemma custom_iff ns : has_custom ns = false <-> forall n, In n ns -> unconfigured (n_meta n).
Proof.
  unfold has_custom. induction ns as [|a r IH]; cbn [existsb In]; [tauto|]. rewrite Bool.orb_false_iff, IH. split.
  - intros [A B] n [<-|N]; auto. apply unconf. destruct (meta_config (n_meta a)); congruence.
  - intros H. split; auto. specialize (H a (or_introl eq_refl)). apply unconf in H. now rewrite H.
Qed.
Lemma dict_set_same k v l : assoc k (dict_set k v l) = Some v.
Proof. induction l as [|[a b] r IH]; cbn; [now rewrite String.eqb_refl|]. destruct (String.eqb a k) eqn:E; cbn; [now rewrite String.eqb_refl|]. now rewrite E. Qed.
Lemma dict_set_other k v j l : j <> k -> assoc j (dict_set k v l) = assoc j l.
Proof.
  intros N. induction l as [|[a b] r IH]; cbn.
  - destruct (String.eqb_spec k j); congruence.
  - destruct (String.eqb_spec a k) as [->|E]; cbn.
    + destruct (String.eqb_spec k j); [congruence|reflexivity].
    + now rewrite IH.
Qed.
Ltac splits := lazymatch goal with |- activation_removed _ _ => idtac | |- _ /\ _ => split; splits | |- same_layer _ _ => repeat split | |- with_config _ _ _ => repeat split | |- _ => cbn; auto end.
Lemma noop_removed n : activation_removed n (noop_activation n).
Proof. destruct n as [l w nw m i]. unfold activation_removed, noop_activation, n_name. cbn. repeat split; auto using dict_set_same. intros k K. now apply dict_set_other. Qed.


Lemma name_pick sch gen ik name t : layout_transform sch gen ik name t -> forall t', In t' (layout_transforms sch gen ik) -> t_name t' = name -> t = t'.
Proof.
  intros [A B] t' A' B'. assert (N : NoDup (map t_name (layout_transforms sch gen ik))) by (destruct sch; apply L_Transform5.nodupb_iff; vm_compute; reflexivity).
  revert A A' N. generalize (layout_transforms sch gen ik) as ts. clear -B B'. induction ts as [|x ts IH]; [intros []|]. cbn [map]. intros A A' N. inversion N as [|? ? N1 N2]; subst.
  destruct A as [->|A], A' as [->|A']; auto.
  - exfalso. apply N1. rewrite <- B'. now apply in_map. - exfalso. apply N1. rewrite B'. now apply in_map.
Qed.
Ltac pick H := match goal with |- context [t_repl ?t _ _] =>
  first [ rewrite (name_pick _ _ _ _ _ H (mkTr _ _ _) ltac:(cbn [layout_transforms default_8bit_transforms default_n_bit_transforms In]; eauto 25) eq_refl) ] end.
Lemma names_of sch gen ik name t : layout_transform sch gen ik name t ->
  (In name ["Conv2DBatchNormQuantize"; "DenseBatchNormQuantize"] -> t_repl t = repl_bn) /\
  (name = "Conv2DReshapeBatchNormQuantize" -> t_repl t = repl_reshape_bn) /\
  (In name ["Conv2DBatchNormReLUQuantize"; "Conv2DBatchNormActivationQuantize"; "DenseBatchNormReLUQuantize"; "DenseBatchNormActivationQuantize"] -> t_repl t = repl_bn_relu) /\
  (In name ["Conv2DReshapeBatchNormReLUQuantize"; "Conv2DReshapeBatchNormActivationQuantize"] -> t_repl t = repl_reshape_bn_relu) /\
  (In name ["LayerReLUQuantize"; "LayerReluActivationQuantize"] -> t_repl t = repl_layer_relu) /\
  (name = "InputLayerQuantize" -> t_repl t = repl_input gen) /\
  (name = "SeparableConv1DQuantize" -> t_repl t = repl_sepconv1d gen) /\
  (name = "SeparableConvQuantize" -> t_repl t = repl_sepconv gen) /\
  (In name ["ConcatTransform"; "ConcatTransform3Inputs"; "ConcatTransform4Inputs"; "ConcatTransform5Inputs"; "ConcatTransform6Inputs"] -> t_repl t = repl_concat sch ik).
Proof.
  intros [A B]. destruct sch; cbn [layout_transforms default_8bit_transforms default_n_bit_transforms In] in A;
  (repeat destruct A as [<-|A]; [..|destruct A]); cbn [t_name t_repl] in *; subst name; repeat split; intros N; try reflexivity; try discriminate N;
  exfalso; cbn [In] in N; repeat destruct N as [N|N]; try discriminate N; destruct N.
Qed.
Lemma bn_exact i bn conv rest : n_inputs bn = conv :: rest -> exists r, repl_bn i bn = Ok r /\
  (unconfigured (n_meta bn) /\ unconfigured (n_meta conv) -> same_layer bn r /\ with_config (OutputCfg false) (n_meta bn) (n_meta r) /\
     exists conv', n_inputs r = conv' :: rest /\ activation_removed conv conv') /\
  (~ (unconfigured (n_meta bn) /\ unconfigured (n_meta conv)) -> r = bn).
Proof.
  intros I. unfold repl_bn, input0. rewrite I. cbn [bind]. destruct (has_custom [bn; conv]) eqn:C; eexists; (split; [reflexivity|]); split; auto.
  - intros [A B]. exfalso. assert (has_custom [bn; conv] = false) as E; [|congruence]. apply custom_iff. cbn [In]. intros n [<-|[<-|[]]]; auto.
  - intros _. destruct bn as [l w nw m ins]. cbn in I. subst ins. unfold set_input0. cbn. repeat split; auto. exists (noop_activation conv). split; [reflexivity|apply noop_removed].
  - intros N. exfalso. apply N. rewrite custom_iff in C. cbn [In] in C. auto.
Qed.
Lemma reshape_exact i bn sq conv r1 r2 : n_inputs bn = sq :: r1 -> n_inputs sq = conv :: r2 -> exists r, repl_reshape_bn i bn = Ok r /\
  (unconfigured (n_meta bn) /\ unconfigured (n_meta conv) -> same_layer bn r /\ with_config (OutputCfg false) (n_meta bn) (n_meta r) /\
     exists sq' conv', n_inputs r = sq' :: r1 /\ same_layer sq sq' /\ n_meta sq' = n_meta sq /\ n_inputs sq' = conv' :: r2 /\ activation_removed conv conv') /\
  (~ (unconfigured (n_meta bn) /\ unconfigured (n_meta conv)) -> r = bn).
Proof.
  intros I J. unfold repl_reshape_bn, input0. rewrite I. cbn [bind]. rewrite J. cbn [bind]. destruct (has_custom [bn; conv]) eqn:C; eexists; (split; [reflexivity|]); split; auto.
  - intros [A B]. exfalso. assert (has_custom [bn; conv] = false) as E; [|congruence]. apply custom_iff. cbn [In]. intros n [<-|[<-|[]]]; auto.
  - intros _. destruct bn as [l w nw m ins], sq as [l' w' nw' m' ins']. cbn in I, J. subst ins ins'. unfold set_input0. cbn. repeat split; auto.
    do 2 eexists. split; [reflexivity|]. splits. apply noop_removed.
  - intros N. exfalso. apply N. rewrite custom_iff in C. cbn [In] in C. auto.
Qed.
Lemma bn_relu_exact i relu bn conv r1 r2 : n_inputs relu = bn :: r1 -> n_inputs bn = conv :: r2 -> exists r, repl_bn_relu i relu = Ok r /\
  (unconfigured (n_meta relu) /\ unconfigured (n_meta bn) /\ unconfigured (n_meta conv) -> same_layer relu r /\ n_meta r = n_meta relu /\
     exists bn' conv', n_inputs r = bn' :: r1 /\ same_layer bn bn' /\ with_config NoOpCfg (n_meta bn) (n_meta bn') /\ n_inputs bn' = conv' :: r2 /\ activation_removed conv conv') /\
  (~ (unconfigured (n_meta relu) /\ unconfigured (n_meta bn) /\ unconfigured (n_meta conv)) -> r = relu).
Proof.
  intros I J. unfold repl_bn_relu, input0. rewrite I. cbn [bind]. rewrite J. cbn [bind]. destruct (has_custom [relu; bn; conv]) eqn:C; eexists; (split; [reflexivity|]); split; auto.
  - intros (A & B & D). exfalso. assert (has_custom [relu; bn; conv] = false) as E; [|congruence]. apply custom_iff. cbn [In]. intros n [<-|[<-|[<-|[]]]]; auto.
  - intros _. destruct relu as [l w nw m ins], bn as [l' w' nw' m' ins']. cbn in I, J. subst ins ins'. unfold set_input0. cbn. repeat split; auto.
    do 2 eexists. split; [reflexivity|]. splits. apply noop_removed.
  - intros N. exfalso. apply N. rewrite custom_iff in C. cbn [In] in C. split; [|split]; apply C; auto.
Qed.
Lemma reshape_relu_exact i relu bn sq conv r1 r2 r3 : n_inputs relu = bn :: r1 -> n_inputs bn = sq :: r2 -> n_inputs sq = conv :: r3 -> exists r, repl_reshape_bn_relu i relu = Ok r /\
  (unconfigured (n_meta relu) /\ unconfigured (n_meta bn) /\ unconfigured (n_meta conv) -> same_layer relu r /\ n_meta r = n_meta relu /\
     exists bn' sq' conv', n_inputs r = bn' :: r1 /\ same_layer bn bn' /\ with_config NoOpCfg (n_meta bn) (n_meta bn') /\
       n_inputs bn' = sq' :: r2 /\ same_layer sq sq' /\ n_meta sq' = n_meta sq /\ n_inputs sq' = conv' :: r3 /\ activation_removed conv conv') /\
  (~ (unconfigured (n_meta relu) /\ unconfigured (n_meta bn) /\ unconfigured (n_meta conv)) -> r = relu).
Proof.
  intros I J K. unfold repl_reshape_bn_relu, input0. rewrite I. cbn [bind]. rewrite J. cbn [bind]. rewrite K. cbn [bind]. destruct (has_custom [relu; bn; conv]) eqn:C; eexists; (split; [reflexivity|]); split; auto.
  - intros (A & B & D). exfalso. assert (has_custom [relu; bn; conv] = false) as E; [|congruence]. apply custom_iff. cbn [In]. intros n [<-|[<-|[<-|[]]]]; auto.
  - intros _. destruct relu as [l w nw m ins], bn as [l' w' nw' m' ins'], sq as [l2 w2 nw2 m2 ins2]. cbn in I, J, K. subst ins ins' ins2. unfold set_input0. cbn. repeat split; auto.
    do 3 eexists. split; [reflexivity|]. splits. apply noop_removed.
  - intros N. exfalso. apply N. rewrite custom_iff in C. cbn [In] in C. split; [|split]; apply C; auto.
Qed.
Lemma layer_relu_exact i relu a rest : n_inputs relu = a :: rest -> exists r, repl_layer_relu i relu = Ok r /\ same_layer relu r /\ n_meta r = n_meta relu /\
  exists a', n_inputs r = a' :: rest /\ same_layer a a' /\ n_inputs a' = n_inputs a /\ with_config NoOpCfg (n_meta a) (n_meta a').
Proof.
  intros I. unfold repl_layer_relu, input0. rewrite I. cbn [bind]. destruct relu as [l w nw m ins], a as [l' w' nw' m' ins']. cbn in I. subst ins. unfold set_input0. cbn.
  eexists. split; [reflexivity|]. repeat split. eexists. split; [reflexivity|]. repeat split.
Qed.

(** ConcatTransform. *)
Lemma supported_iff c : is_supported_class c = true <-> In c supported_classes.
Proof. apply inb_In. Qed.
Lemma quant_known_iff sch n : quant_known sch (lc_class (n_layer n)) = true <-> is_quantize_layer sch n.
Proof. unfold quant_known, is_quantize_layer. destruct sch; [rewrite String.eqb_eq; tauto|]. split; [discriminate|intros [? _]; discriminate]. Qed.
Lemma off_iff c : output_off c (disable_output c).
Proof. destruct c; constructor. Qed.
Lemma disable_unconf n : meta_config (n_meta n) = None -> disable_node n = n.
Proof. unfold disable_node. now intros ->. Qed.
Lemma set_config_same n c : same_layer n (set_config n c) /\ n_inputs (set_config n c) = n_inputs n /\ with_config c (n_meta n) (n_meta (set_config n c)).
Proof. destruct n. repeat split. Qed.
Lemma disable_set n c : disable_node (set_config n c) = set_config n (disable_output c).
Proof. destruct n. reflexivity. Qed.
Lemma feeds_ok sch ik feeds : (forall n, In n feeds -> concat_accepts sch ik n) -> exists fs, concat_feeds sch ik feeds = (fs, true) /\ Forall2 (fed_off sch) feeds (map disable_node fs).
Proof.
  induction feeds as [|n r IH]; intros H; [exists []; split; [reflexivity|constructor]|]. destruct IH as (fs & E & F); [intros x X; apply H; now right|].
  specialize (H n (or_introl eq_refl)). cbn [concat_feeds]. destruct (meta_config (n_meta n)) as [c|] eqn:C.
  - rewrite E. exists (n :: fs). split; [reflexivity|]. constructor; auto. unfold disable_node. rewrite C. destruct (set_config_same n (disable_output c)) as (A & B & D).
    split; auto. split; auto. left. exists c, (disable_output c). split; [now apply conf|]. split; [apply off_iff|auto].
  - assert (U : unconfigured (n_meta n)) by now apply unconf. destruct H as [(c & K)|H]; [exfalso; now apply (U c)|].
    destruct (String.eqb_spec (lc_class (n_layer n)) "Concatenate") as [CC|CC].
    + assert (quant_known sch (lc_class (n_layer n)) = false) as Q by (rewrite CC; now destruct sch). rewrite Q. cbn [orb].
      destruct H as [H|[H _]]; [apply quant_known_iff in H; congruence|]. rewrite H. cbn [negb]. rewrite E. eexists. split; [reflexivity|]. cbn [map]. constructor; auto. rewrite disable_set. cbn [disable_output].
      destruct (set_config_same n NoOpCfg) as (A & B & D). split; auto. split; auto.
    + destruct (quant_known sch (lc_class (n_layer n))) eqn:Q; cbn [orb negb].
      * rewrite E. eexists. split; [reflexivity|]. cbn [map]. constructor; auto. rewrite disable_unconf by (destruct n; exact C). destruct n as [l w nw m i]. split; [now repeat split|]. split; [reflexivity|].
        right. split; auto. right. left. split; [now apply quant_known_iff|reflexivity].
      * destruct H as [H|[H S1]]; [apply quant_known_iff in H; congruence|]. destruct S1 as [S1|S1]; [contradiction|]. rewrite H. cbn [negb]. rewrite (proj2 (supported_iff _) S1). cbn [negb]. rewrite E.
        eexists. split; [reflexivity|]. cbn [map]. constructor; auto. rewrite disable_set. cbn [disable_output]. destruct (set_config_same n (RegistryCfg (lc_class (n_layer n)) true)) as (A & B & D).
        split; auto. split; auto. right. split; auto. right. right. split; auto. split; auto. intros X. apply quant_known_iff in X. congruence.
Qed.
Lemma fed_kept_refl sch l : Forall2 (fed_kept sch) l l.
Proof. induction l; constructor; auto. now left. Qed.
Lemma feeds_bad sch ik feeds : (exists n, In n feeds /\ ~ concat_accepts sch ik n) -> exists fs, concat_feeds sch ik feeds = (fs, false) /\ Forall2 (fed_kept sch) feeds fs.
Proof.
  induction feeds as [|n r IH]; intros (x & X & N); [destruct X|]. cbn [concat_feeds]. destruct (meta_config (n_meta n)) as [c|] eqn:C.
  - destruct X as [<-|X]; [exfalso; apply N; left; exists c; now apply conf|]. destruct IH as (fs & E & F); [eauto|]. rewrite E. eexists. split; [reflexivity|]. constructor; auto. now left.
  - assert (U : unconfigured (n_meta n)) by now apply unconf.
    destruct (String.eqb_spec (lc_class (n_layer n)) "Concatenate") as [CC|CC].
    + assert (quant_known sch (lc_class (n_layer n)) = false) as Q by (rewrite CC; now destruct sch). rewrite Q. cbn [orb].
      destruct (ik (lc_class (n_layer n))) eqn:K; cbn [negb]; [|eexists; split; [reflexivity|apply fed_kept_refl]].
      destruct X as [<-|X]; [exfalso; apply N; right; right; auto|]. destruct IH as (fs & E & F); [eauto|]. rewrite E. eexists. split; [reflexivity|]. constructor; auto.
      destruct (set_config_same n NoOpCfg) as (A & B & D). right. auto 6.
    + destruct (quant_known sch (lc_class (n_layer n))) eqn:Q; cbn [orb negb].
      * destruct X as [<-|X]; [exfalso; apply N; right; left; now apply quant_known_iff|]. destruct IH as (fs & E & F); [eauto|]. rewrite E. eexists. split; [reflexivity|]. constructor; auto.
        right. destruct n as [l w nw m i]. split; [now repeat split|]. split; [reflexivity|]. split; auto. right. left. split; [now apply quant_known_iff|reflexivity].
      * destruct (ik (lc_class (n_layer n))) eqn:K; cbn [negb]; [|eexists; split; [reflexivity|apply fed_kept_refl]].
        destruct (is_supported_class (lc_class (n_layer n))) eqn:S1; cbn [negb]; [|eexists; split; [reflexivity|apply fed_kept_refl]].
        destruct X as [<-|X]; [exfalso; apply N; right; right; split; auto; right; now apply supported_iff|]. destruct IH as (fs & E & F); [eauto|]. rewrite E. eexists. split; [reflexivity|]. constructor; auto.
        destruct (set_config_same n (RegistryCfg (lc_class (n_layer n)) false)) as (A & B & D). right. auto 7.
Qed.
Lemma set_inputs_same n i : same_layer n (set_inputs n i) /\ n_inputs (set_inputs n i) = i /\ n_meta (set_inputs n i) = n_meta n.
Proof. destruct n. repeat split. Qed.
Lemma concat_exact sch ik i n : exists r, repl_concat sch ik i n = Ok r /\ same_layer n r /\
  ((forall f, In f (n_inputs n) -> concat_accepts sch ik f) ->
     Forall2 (fed_off sch) (n_inputs n) (n_inputs r) /\ (unconfigured (n_meta n) -> with_config (OutputCfg false) (n_meta n) (n_meta r)) /\ (~ unconfigured (n_meta n) -> n_meta r = n_meta n)) /\
  ((exists f, In f (n_inputs n) /\ ~ concat_accepts sch ik f) -> Forall2 (fed_kept sch) (n_inputs n) (n_inputs r) /\ n_meta r = n_meta n).
Proof.
  assert (D : (forall f, In f (n_inputs n) -> concat_accepts sch ik f) \/ exists f, In f (n_inputs n) /\ ~ concat_accepts sch ik f).
  { assert (X : forall f, {concat_accepts sch ik f} + {~ concat_accepts sch ik f}).
    { intros f. unfold concat_accepts. destruct (meta_config (n_meta f)) as [c|] eqn:C; [left; left; exists c; now apply conf|].
      destruct (quant_known sch (lc_class (n_layer f))) eqn:Q; [left; right; left; now apply quant_known_iff|].
      destruct (ik (lc_class (n_layer f))) eqn:K; [destruct (String.eqb_spec (lc_class (n_layer f)) "Concatenate") as [E|E]; [left; auto|destruct (is_supported_class (lc_class (n_layer f))) eqn:S1; [left; right; right; split; auto; right; now apply supported_iff|]]|].
      - right. intros [(c & A)|[A|[_ [A|A]]]]; [apply conf in A; congruence|apply quant_known_iff in A; congruence|congruence|apply supported_iff in A; congruence].
      - right. intros [(c & A)|[A|[A _]]]; [apply conf in A; congruence|apply quant_known_iff in A; congruence|congruence]. }
    generalize (n_inputs n) as l. induction l as [|a l IH]; [left; intros _ []|]. destruct (X a) as [A|A]; [|right; exists a; split; [now left|auto]].
    destruct IH as [IH|(f & F & G)]; [left; intros f [<-|F]; auto|right; exists f; split; [now right|auto]]. }
  unfold repl_concat. destruct D as [D|D].
  - destruct (feeds_ok _ _ _ D) as (fs & E & F). rewrite E. cbn [negb]. destruct (set_inputs_same n (map disable_node fs)) as (A & B & C).
    destruct (meta_config (n_meta n)) as [c|] eqn:K; eexists; (split; [reflexivity|]).
    + split; auto. split; [|intros (f & F1 & F2); exfalso; auto]. intros _. rewrite B. split; auto. split; auto. intros U. exfalso. apply unconf in U. congruence.
    + destruct (set_config_same (set_inputs n (map disable_node fs)) (OutputCfg false)) as (A' & B' & C'). split; [destruct A as (A1 & A2 & A3), A' as (A1' & A2' & A3'); split; [congruence|split; congruence]|].
      split; [|intros (f & F1 & F2); exfalso; auto]. intros _. rewrite B', B. split; auto. split; [intros _; rewrite C in C'; exact C'|]. intros U. exfalso. apply U. now apply unconf.
  - destruct (feeds_bad _ _ _ D) as (fs & E & F). rewrite E. cbn [negb]. destruct (set_inputs_same n fs) as (A & B & C). eexists. split; [reflexivity|]. split; auto. split.
    + intros H. exfalso. destruct D as (f & F1 & F2). auto.
    + intros _. rewrite B. auto.
Qed.

Lemma bias_split (b : option (tensor Q)) : match match b with Some b => [b] | None => [] end with x :: _ => b = Some x | [] => b = None end.
Proof. destruct b; reflexivity. Qed.
Lemma sepconv_exact gen i n dw pw bias : unconfigured (n_meta n) -> sep_weights n dw pw bias ->
  exists c d, repl_sepconv gen i n = Ok c /\ n_inputs c = [d] /\ n_inputs d = [] /\
    lc_class (n_layer d) = "DepthwiseConv2D" /\ n_name d = gen "depthwise_conv2d" i /\ lc_class (n_layer c) = "Conv2D" /\ n_name c = gen "conv2d" i /\
    n_weights d = [("depthwise_kernel:0", dw)] /\ n_weights c = ("kernel:0", pw) :: match bias with Some b => [("bias:0", b)] | None => [] end /\
    n_nw d = None /\ n_nw c = None /\ new_meta None (n_meta d) /\ new_meta None (n_meta c) /\
    (forall k, In k ["kernel_size"; "strides"; "padding"; "depth_multiplier"; "data_format"; "dilation_rate"; "depthwise_initializer"; "depthwise_regularizer"; "depthwise_constraint"; "trainable"] ->
       config_get (n_layer d) k = config_get (n_layer n) k) /\ config_get (n_layer d) "activation" = "linear" /\ config_get (n_layer d) "use_bias" = "False" /\
    (forall k, In k ["filters"; "data_format"; "dilation_rate"; "activation"; "use_bias"; "bias_initializer"; "bias_regularizer"; "activity_regularizer"; "bias_constraint"; "trainable"] ->
       config_get (n_layer c) k = config_get (n_layer n) k) /\
    (forall k, In k ["initializer"; "regularizer"; "constraint"] -> config_get (n_layer c) ("kernel_" ++ k)%string = config_get (n_layer n) ("pointwise_" ++ k)%string) /\
    config_get (n_layer c) "kernel_size" = "(1, 1)" /\ config_get (n_layer c) "strides" = "(1, 1)" /\ config_get (n_layer c) "padding" = "valid".
Proof.
  intros U [W B]. unfold repl_sepconv. assert (has_custom [n] = false) as -> by (apply custom_iff; cbn [In]; intros x [<-|[]]; auto). cbv zeta. rewrite W. cbn [app].
  assert (UB : use_bias (n_layer n) = match bias with Some _ => true | None => false end).
  { unfold use_bias. destruct bias as [b|]; [apply String.eqb_eq; apply B; discriminate|apply String.eqb_neq; intros X; apply B in X; congruence]. }
  destruct bias as [b|]; rewrite UB; cbn [bind]; do 2 eexists; (split; [reflexivity|]); cbn [n_inputs n_layer n_weights n_nw n_meta n_name lc_class lc_name];
  repeat (split; [reflexivity|]); (split; [|split; [reflexivity|]]); try reflexivity;
  try (intros k K; cbn [In] in K; repeat destruct K as [<-|K]; try destruct K; reflexivity);
  (split; [reflexivity|]); (split; [intros k K; cbn [In] in K; repeat destruct K as [<-|K]; try destruct K; reflexivity|]);
  (split; [intros k K; cbn [In] in K; repeat destruct K as [<-|K]; try destruct K; reflexivity|]); repeat split.
Qed.
Lemma sepconv1d_exact gen i n dw pw bias : unconfigured (n_meta n) -> sep_weights n dw pw bias -> config_get (n_layer n) "padding" <> "causal" ->
  exists sq c ex, repl_sepconv1d gen i n = Ok sq /\ n_inputs sq = [c] /\ n_inputs c = [ex] /\ n_inputs ex = [] /\
    lc_class (n_layer sq) = "Lambda" /\ n_name sq = gen "sepconv1d_squeeze" i /\ lc_class (n_layer ex) = "Lambda" /\ n_name ex = gen "sepconv1d_expand" i /\
    lc_class (n_layer c) = "SeparableConv2D" /\ n_name c = (n_name n ++ "_QAT_SepConv2D")%string /\
    new_meta (Some NoOpCfg) (n_meta sq) /\ new_meta None (n_meta c) /\ new_meta (Some NoOpCfg) (n_meta ex) /\ n_weights sq = [] /\ n_weights ex = [] /\
    exists dw' pw', lifted dw dw' /\ lifted pw pw' /\ n_weights c = ("depthwise_kernel:0", dw') :: ("pointwise_kernel:0", pw') :: match bias with Some b => [("bias:0", b)] | None => [] end.
Proof.
  intros U [W B] P. unfold repl_sepconv1d. assert (has_custom [n] = false) as -> by (apply custom_iff; cbn [In]; intros x [<-|[]]; auto). cbv zeta. apply String.eqb_neq in P. rewrite P, W. cbn [app].
  assert (UB : use_bias (n_layer n) = match bias with Some _ => true | None => false end).
  { unfold use_bias. destruct bias as [b|]; [apply String.eqb_eq; apply B; discriminate|apply String.eqb_neq; intros X; apply B in X; congruence]. }
  destruct bias as [b|]; rewrite UB; cbn [bind]; do 3 eexists; (split; [reflexivity|]); repeat (split; [reflexivity|]); exists (expand0 dw), (expand0 pw); repeat split.
Qed.
Lemma sepconv_refused gen i n : (unconfigured (n_meta n) -> config_get (n_layer n) "padding" = "causal" -> repl_sepconv1d gen i n = Err ValueError) /\
  (~ unconfigured (n_meta n) -> repl_sepconv1d gen i n = Ok n /\ repl_sepconv gen i n = Ok n).
Proof.
  unfold repl_sepconv1d, repl_sepconv. split.
  - intros U P. assert (has_custom [n] = false) as -> by (apply custom_iff; cbn [In]; intros x [<-|[]]; auto). rewrite P. reflexivity.
  - intros U. destruct (has_custom [n]) eqn:C; auto. exfalso. apply U. rewrite custom_iff in C. apply C. now left.
Qed.

Lemma meq_exact ueq a b : (default_meq EightBit ueq a b = true <-> a = b /\ comparable ueq a) /\
  (default_meq NBit ueq a b = true <-> equal_but_switch a b /\ comparable ueq a).
Proof.
  assert (G : forall m c, configured m c -> m_cfg m = Some (Some c)) by (intros m c X; exact X).
  destruct a as [ca na], b as [cb nb]. unfold default_meq, comparable, equal_but_switch, unconfigured, configured. cbn [m_cfg m_noquant].
  split; rewrite andb_true_iff, Bool.eqb_true_iff.
  - destruct ca as [[[i d| |d|s d]|]|], cb as [[[j e| |e|s' e]|]|]; split; try (intros [_ X]; discriminate X); try (intros [[=] _]; fail).
    + rewrite !andb_true_iff, Nat.eqb_eq, Bool.eqb_true_iff. intros (-> & (-> & ->) & ->). split; eauto 6.
    + intros ([= -> -> ->] & C). rewrite Nat.eqb_refl, Bool.eqb_reflx. destruct C as [C|[[-> _]|(c & d0 & _ & C)]]; auto; [exfalso; now apply (C _ eq_refl)|discriminate].
    + intros ([=] & C). destruct C as [C|[[_ (i & d0 & C)]|(c & d0 & _ & C)]]; try discriminate. exfalso; now apply (C _ eq_refl).
    + intros ([=] & C). destruct C as [C|[[_ (i & d1 & C)]|(c & d1 & _ & C)]]; try discriminate. exfalso; now apply (C _ eq_refl).
    + rewrite !andb_true_iff, String.eqb_eq, Bool.eqb_true_iff, Bool.negb_true_iff, String.eqb_neq. intros (-> & (X & ->) & ->). split; eauto 8.
    + intros ([= -> -> ->] & C). rewrite String.eqb_refl, Bool.eqb_reflx. destruct C as [C|[[_ (i & d0 & C)]|(c & d0 & N & C)]]; try discriminate; [exfalso; now apply (C _ eq_refl)|].
      injection C as -> ->. apply String.eqb_neq in N. now rewrite N.
    + intros (-> & _). split; auto. left. intros c [=].
    + intros ([= ->] & C). auto.
    + intros (-> & _). split; auto. left. intros c [=].
    + intros ([= ->] & C). auto.
  - destruct ca as [[[i d| |d|s d]|]|], cb as [[[j e| |e|s' e]|]|]; split; try (intros [_ X]; discriminate X); try (intros [[[=]|(_ & c0 & d0 & e0 & X & Y)] C]; [try discriminate X; discriminate Y]; fail).
    + rewrite !andb_true_iff, Nat.eqb_eq, Bool.eqb_true_iff. intros (-> & (-> & ->) & ->). split; eauto 6.
    + intros ([[= -> -> ->]|(_ & c0 & d0 & e0 & X & _)] & C); [|discriminate X]. rewrite Nat.eqb_refl, Bool.eqb_reflx. destruct C as [C|[[-> _]|(c & d0 & _ & C)]]; auto; [exfalso; now apply (C _ eq_refl)|discriminate].
    + intros ([[=]|(_ & c0 & d0 & e0 & X & _)] & C); [|discriminate X]. destruct C as [C|[[_ (i & d0 & C)]|(c & d0 & _ & C)]]; try discriminate. exfalso; now apply (C _ eq_refl).
    + intros ([[=]|(_ & c0 & d0 & e0 & X & _)] & C); [|discriminate X]. destruct C as [C|[[_ (i & d1 & C)]|(c & d1 & _ & C)]]; try discriminate. exfalso; now apply (C _ eq_refl).
    + rewrite !andb_true_iff, String.eqb_eq, Bool.negb_true_iff, String.eqb_neq. intros (-> & (X & ->) & _). split; eauto 10.
    + intros ([[= -> -> ->]|(NQ & c0 & d0 & e0 & X & Y)] & C).
      * rewrite String.eqb_refl. destruct C as [C|[[_ (i & d0 & C)]|(c & d0 & N & C)]]; try discriminate; [exfalso; now apply (C _ eq_refl)|].
        injection C as -> ->. apply String.eqb_neq in N. now rewrite N.
      * injection X as -> ->. injection Y as -> ->. rewrite String.eqb_refl. destruct C as [C|[[_ (i & d1 & C)]|(c & d1 & N & C)]]; try discriminate; [exfalso; now apply (C _ eq_refl)|].
        injection C as -> ->. apply String.eqb_neq in N. now rewrite N.
    + intros (-> & _). split; auto. left. intros c [=].
    + intros ([[= ->]|(_ & c0 & d0 & e0 & X & _)] & C); [auto|discriminate X].
    + intros (-> & _). split; auto. left. intros c [=].
    + intros ([[= ->]|(_ & c0 & d0 & e0 & X & _)] & C); [auto|discriminate X].
Qed.
