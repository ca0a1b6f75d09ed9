(** quantize_annotate_model, quantize_apply, fix_input_output_range: C43, C44, C45, C48, C83-C87. *)
From Coq Require Import String Ascii.
From Verif Require Import Base M_Tensor M_Transform M_Layout8 M_QuantizeApply S_Transform S_Layout8 S_QuantizeApply L_Transform L_Layout8 L_Layout8b L_Layout8d L_QuantizeApply L_QuantizeApply2 L_QuantizeApply4.
Open Scope string_scope.
Open Scope nat_scope.

(** Literal models for the examples and counterexamples. *)
Definition cn n := mkConn n 0 0 [].
Definition ly cls n cfg ins := mkLc cls n cfg (match ins with [] => [] | _ => [map cn ins] end).
Definition ann (l : layerc) := (l, Some (@None qcfg)).
Definition user (l : layerc) i := (l, Some (Some (UserCfg i false))).
Definition plain (l : layerc) := (l, @None (option qcfg)).
Definition lin := [("activation", "linear")].
Definition tin : layerc * option (option qcfg) := plain (ly "InputLayer" "in" [] []).

(** ** C43 *)
(** The annotated model has the same layers in the same order; position by position, InputLayers, annotated layers and Lambda
    layers are unchanged and every other layer is annotated, with no config. *)
Theorem C43_annotate : forall kd ls ls', quantize_annotate_model (TModel kd ls) = Ok ls' ->
  List.length ls' = List.length ls /\
  forall i k, nth_error ls i = Some k -> exists k', nth_error ls' i = Some k' /\ k_layer k' = k_layer k /\
    match k with
    | KLayer l => k' = (if String.eqb (lc_class l) "InputLayer" then KLayer l else KAnnotated l None)
    | KModel l => lc_class l = "InputLayer" /\ k' = k
    | _ => k' = k
    end.
Proof.
  intros kd ls ls' H. apply annotate_F2, F2_nth in H as [L N]. split; auto. intros i k K. destruct (N i k K) as (k' & K' & R). exists k'. split; auto. unfold is_input in R.
  destruct k as [l c|l|l|l]; cbn [k_layer add_quant_wrapper] in R; destruct (String.eqb (lc_class l) "InputLayer") eqn:E; try discriminate; injection R as <-; cbn; auto. split; auto. split; auto. now apply String.eqb_eq.
Qed.
Theorem C43_idempotent : forall kd ls ls', quantize_annotate_model (TModel kd ls) = Ok ls' -> quantize_annotate_model (TModel kd ls') = Ok ls'.
Proof. exact annotate_idem. Qed.
(** It fails exactly on nested models, and always with ValueError. *)
Theorem C43_nested : forall kd ls, (exists e, quantize_annotate_model (TModel kd ls) = Err e) <-> exists l, In (KModel l) ls /\ lc_class l <> "InputLayer".
Proof. exact annotate_err. Qed.
Theorem C43_errors : (forall t e, quantize_annotate_model t = Err e -> e = ValueError) /\
  quantize_annotate_model TNone = Err ValueError /\ quantize_annotate_model TNotModel = Err ValueError /\ quantize_annotate_model TSubclassed = Err ValueError.
Proof. split; [exact annotate_err_value|auto]. Qed.
Example C43_ex : quantize_annotate_model (TModel Sequential [KLayer (ly "InputLayer" "in" [] []); KLayer (ly "Dense" "d" [] []); KLambda (ly "Lambda" "f" [] []); KAnnotated (ly "Dense" "e" [] []) (Some (UserCfg 1 false))]) =
  Ok [KLayer (ly "InputLayer" "in" [] []); KAnnotated (ly "Dense" "d" [] []) None; KLambda (ly "Lambda" "f" [] []); KAnnotated (ly "Dense" "e" [] []) (Some (UserCfg 1 false))].
Proof. vm_compute. reflexivity. Qed.

(** ** C44 *)
(** An annotated layer (no InputLayer, QuantizeLayer or SeparableConv, and not already a QuantizeWrapper) is in the result,
    wrapped, exactly once; it keeps class, name, weights and configuration (up to its activation); the config is the user's
    own, the registry's for its class, or the library's NoOp / output-only config. *)
Theorem C44_annotated : forall sch gen is_keras ueq n prefix already m ls st,
  model_ok m -> fresh_naming gen (layer_names_of m) -> quantize_apply sch gen is_keras ueq n prefix already m = Some (Ok (ls, st)) ->
  forall l c, In (l, Some c) (am_layers m) -> ordinary l -> already (lc_name l) = false ->
  exists l' u, In (Wrapped (prefix ++ lc_name l) l' (Use u)) ls /\ carried_over m st l l' /\
    (forall q, In q ls -> lc_name (q_layer q) = lc_name l -> q = Wrapped (prefix ++ lc_name l) l' (Use u)) /\
    match u with
    | UserCfg i _ => exists d, c = Some (UserCfg i d)
    | RegistryCfg s _ => s = lc_class l \/ exists d, c = Some (RegistryCfg s d)
    | _ => True
    end.
Proof.
  intros sch gen ik ueq n prefix already m ls st OK FN QA l c H O AL. destruct (apply_annotated m OK sch gen ik ueq n prefix already FN ls st QA l c H O AL) as (l' & u & I & CO & U & MA). exists l', u. split; auto. split; auto. split.
  - intros q Q E. eapply wrapped_once; eauto. cbn. destruct CO as (_ & E2 & _). congruence.
  - destruct U as [(-> & _ & _)|U]; [left; apply CO|]. pose proof (ma_src _ _ _ _ _ MA u U) as R. destruct u; auto. destruct R as [[R _]|R]; auto.
Qed.
(** Every other layer stays as it is - configuration, weights, connections up to the renaming of quantized layers - and is
    left unwrapped, except that the sole producer of an annotated layer, if the registry knows its class, gets its output
    quantized (and nothing else). *)
Theorem C44_not_annotated : forall sch gen is_keras ueq n prefix already m ls st,
  model_ok m -> fresh_naming gen (layer_names_of m) -> quantize_apply sch gen is_keras ueq n prefix already m = Some (Ok (ls, st)) ->
  forall l, In (l, None) (am_layers m) -> ordinary l ->
  exists l', carried_over m st l l' /\ (exists f, (forall p, In (p, None) (am_layers m) -> lc_class p <> "InputLayer" -> f (lc_name p) = lc_name p) /\ kept f l l') /\
    ((~ sole_producer m (lc_name l) \/ already (lc_name l) = true \/ is_supported_class (lc_class l) = false) /\ In (Unwrapped l') ls \/
     (sole_producer m (lc_name l) /\ already (lc_name l) = false /\ is_supported_class (lc_class l) = true) /\
       In (Wrapped (prefix ++ lc_name l) l' (OutputOnly (RegistryCfg (lc_class l) false))) ls /\ quantized_weights (OutputOnly (RegistryCfg (lc_class l) false)) = Some []).
Proof.
  intros sch gen ik ueq n prefix already m ls st OK FN QA l H O. destruct (apply_others m OK sch gen ik ueq n prefix already FN ls st QA l H O) as (l' & CO & K & [[A B]|[A B]]); exists l'; split; auto; split; auto.
Qed.
(** No two layers of the result have the same name. *)
Theorem C44_names : forall sch gen is_keras ueq n prefix already m ls st,
  model_ok m -> fresh_naming gen (layer_names_of m) -> quantize_apply sch gen is_keras ueq n prefix already m = Some (Ok (ls, st)) -> NoDup (map (fun q => lc_name (q_layer q)) ls).
Proof. intros sch gen ik ueq n prefix already m ls st OK FN QA. destruct (q_names m OK sch gen ik ueq n prefix already FN ls st QA) as [-> ND]. exact ND. Qed.
(** Every layer of the result is a layer of the model or an inserted one: a QuantizeLayer, or part of a decomposed
    SeparableConv. *)
Theorem C44_nothing_else : forall sch gen is_keras ueq n prefix already m ls st,
  model_ok m -> fresh_naming gen (layer_names_of m) -> quantize_apply sch gen is_keras ueq n prefix already m = Some (Ok (ls, st)) ->
  forall q, In q ls -> (exists l a, In (l, a) (am_layers m) /\ lc_class l = lc_class (q_layer q) /\ lc_name l = lc_name (q_layer q)) \/
    (In (lc_class (q_layer q)) ["QuantizeLayer"; "Lambda"; "SeparableConv2D"; "DepthwiseConv2D"; "Conv2D"] /\ ~ In (lc_name (q_layer q)) (layer_names_of m)).
Proof.
  intros sch gen ik ueq n prefix already m ls st OK FN QA q QI. pose proof (apply_layers m sch gen ik ueq n prefix already ls st QA q QI) as L.
  destruct (apply_run m OK sch gen ik ueq n prefix already FN ls st QA) as (c & IV). destruct (i_classes _ _ _ _ _ IV _ L) as [(l & A & B & C)|[A B]].
  - left. apply in_layers in A as (a & A). eauto.
  - right. split; auto. now rewrite names_init in B.
Qed.
(** Annotated layers the library cannot quantize: never a result. *)
Theorem C44_unsupported : forall sch gen is_keras ueq n prefix already m ls st l,
  model_ok m -> fresh_naming gen (layer_names_of m) -> In (l, Some None) (am_layers m) -> ordinary l -> already (lc_name l) = false ->
  is_supported_class (lc_class l) = false -> match_pattern (lc_class l) BN = false -> relu_feeder (lc_class l) = false ->
  quantize_apply sch gen is_keras ueq n prefix already m <> Some (Ok (ls, st)).
Proof.
  intros sch gen ik ueq n prefix already m ls st l OK FN H O AL S1 S2 S3 QA. destruct (apply_annotated m OK sch gen ik ueq n prefix already FN ls st QA l None H O AL) as (l' & u & I & CO & U & MA).
  pose proof (ma_unsupported _ _ _ _ _ MA eq_refl S1 S2 S3) as N. destruct U as [(_ & S & _)|U]; [|congruence]. unfold supports in S. destruct CO as (E & _). congruence.
Qed.
Theorem C44_arguments : forall sch gen is_keras ueq n prefix already m,
  ((forall l c, ~ In (l, Some c) (am_layers m)) -> quantize_apply sch gen is_keras ueq n prefix already m = Some (Err ValueError)) /\
  (am_built m = false -> quantize_apply sch gen is_keras ueq n prefix already m = Some (Err ValueError)).
Proof.
  intros. split.
  - intros H. unfold quantize_apply. destruct (annotated_names m) as [|x r] eqn:E; auto. exfalso. assert (I : In x (annotated_names m)) by (rewrite E; now left). apply annotated_names_iff in I as (l & (c & I) & _). exact (H l c I).
  - intros B. unfold quantize_apply. rewrite B. now destruct (annotated_names m).
Qed.
(** quantize_apply returns. *)
Theorem C44_terminates : forall sch gen is_keras ueq prefix already m, exists n r, quantize_apply sch gen is_keras ueq n prefix already m = Some r.
Proof. exact apply_ends. Qed.

(** A model: Input -> Reshape (not annotated) -> Dense (annotated, with weights) -> Softmax (not annotated). *)
Definition ex_m := mkAM Functional [tin; plain (ly "Reshape" "r" [] ["in"]); ann (ly "Dense" "k" lin ["r"]); plain (ly "Softmax" "s" [] ["k"])] [cn "s"]
  [("k", [("kernel", mkT [1] [3%Q]); ("bias", mkT [1] [1%Q])])] true.
Example C44_ex_hyps : model_ok ex_m /\ fresh_naming genx (layer_names_of ex_m) /\ ordinary (ly "Dense" "k" lin ["r"]) /\ sole_producer ex_m "r".
Proof.
  split; [apply okb_ok; vm_compute; reflexivity|]. split; [apply genx_freshb; vm_compute; reflexivity|]. split; [repeat split; try discriminate; intros [?|?]; discriminate|].
  exists (ly "Dense" "k" lin ["r"]). split; [exists None; cbn; auto|]. split; [reflexivity|]. split; [reflexivity|]. intros (p & (c & P) & E). cbn in P. destruct P as [P|[P|[P|[P|[]]]]]; injection P as <-; discriminate.
Qed.
Example C44_ex : exists st, quantize_apply EightBit genx (fun _ => true) false 60 "quant_" (fun _ => false) ex_m =
    Some (Ok ([Unwrapped (ly "InputLayer" "in" [] []); Wrapped "quant_r" (ly "Reshape" "r" [] ["in"]) (OutputOnly (RegistryCfg "Reshape" false));
               Wrapped "quant_k" (ly "Dense" "k" lin ["r"]) (Use (RegistryCfg "Dense" false)); Unwrapped (ly "Softmax" "s" [] ["k"])], st)) /\
  final_weights st "k" [("kernel", mkT [1] [0%Q]); ("bias", mkT [1] [0%Q])] = Ok [("kernel", mkT [1] [3%Q]); ("bias", mkT [1] [1%Q])].
Proof. eexists. split; vm_compute; reflexivity. Qed.
Example C44_ex_unsupported : is_supported_class "Embedding" = false /\ match_pattern "Embedding" BN = false /\ relu_feeder "Embedding" = false.
Proof. vm_compute. auto. Qed.

(** ** C45 *)
Definition C45_claim (sch : scheme) : Prop := forall gen is_keras ueq n prefix already m ls st,
  model_ok m -> fresh_naming gen (layer_names_of m) -> quantize_apply sch gen is_keras ueq n prefix already m = Some (Ok (ls, st)) ->
  forall l i d, In (l, Some (Some (UserCfg i d))) (am_layers m) -> ordinary l -> already (lc_name l) = false ->
  exists l', In (Wrapped (prefix ++ lc_name l) l' (Use (UserCfg i d))) ls.
(** The ReLU transforms replace the config of the layer in front of an annotated ReLU. *)
Definition m_relu := mkAM Functional [tin; user (ly "Dense" "k" lin ["in"]) 7; ann (ly "ReLU" "relu" [] ["k"])] [cn "relu"] [] true.
Theorem C45_user_config_refuted : forall sch, ~ C45_claim sch.
Proof.
  intros sch H. assert (E : exists st, quantize_apply sch genx (fun _ => true) false 60 "quant_" (fun _ => false) m_relu = Some (Ok (out sch 60 "quant_" m_relu, st))) by (destruct sch; eexists; vm_compute; reflexivity).
  destruct E as (st & E). specialize (H _ _ _ _ _ _ _ _ _ (okb_ok m_relu eq_refl) (genx_freshb (layer_names_of m_relu) eq_refl) E (ly "Dense" "k" lin ["in"]) 7 false). clear E. destruct H as (l' & H).
  - repeat split; cbn; auto 8.
  - repeat split; try discriminate; intros [?|?]; discriminate.
  - reflexivity.
  - destruct sch; vm_compute in H; repeat destruct H as [H|H]; try discriminate; auto.
Qed.
(** Concatenate switches off output quantization in the user's config. *)
Definition m_concat := mkAM Functional [tin; user (ly "Dense" "a" lin ["in"]) 7; ann (ly "Dense" "b" lin ["in"]); ann (ly "Concatenate" "cat" [] ["a"; "b"])] [cn "cat"] [] true.
Theorem C45_output_refuted : forall sch, exists st l', quantize_apply sch genx (fun _ => true) false 60 "quant_" (fun _ => false) m_concat = Some (Ok (out sch 60 "quant_" m_concat, st)) /\
  In (Wrapped "quant_a" l' (Use (UserCfg 7 true))) (out sch 60 "quant_" m_concat) /\ model_ok m_concat /\ fresh_naming genx (layer_names_of m_concat).
Proof.
  intros sch. destruct sch; do 2 eexists; (split; [vm_compute; reflexivity|]); (split; [vm_compute; repeat (first [left; reflexivity|right])|]); (split; [apply okb_ok|apply genx_freshb]; vm_compute; reflexivity).
Qed.
(** What holds: the user's config is used unless the layer is an Add/Conv2D/Dense-like class and some ReLU or Activation is
    annotated; its output quantization is untouched unless some Concatenate is annotated. *)
Theorem C45_user_config_partial : forall sch gen is_keras ueq n prefix already m ls st,
  model_ok m -> fresh_naming gen (layer_names_of m) -> quantize_apply sch gen is_keras ueq n prefix already m = Some (Ok (ls, st)) ->
  forall l i d, In (l, Some (Some (UserCfg i d))) (am_layers m) -> ordinary l -> already (lc_name l) = false ->
  relu_feeder (lc_class l) = false \/ (forall r, annotated m r -> lc_class r <> "ReLU" /\ lc_class r <> "Activation") ->
  exists l' d', In (Wrapped (prefix ++ lc_name l) l' (Use (UserCfg i d'))) ls /\ carried_over m st l l' /\
    (d' = d \/ d' = true /\ exists r, annotated m r /\ lc_class r = "Concatenate").
Proof.
  intros sch gen ik ueq n prefix already m ls st OK FN QA l i d H O AL C. destruct (apply_annotated m OK sch gen ik ueq n prefix already FN ls st QA l _ H O AL) as (l' & u & I & CO & U & MA).
  destruct (ma_user _ _ _ _ _ MA i d eq_refl) as (d' & E & D).
  { destruct C as [C|C]; auto. right. exact (nr_annotated m OK C). }
  destruct U as [(_ & _ & U)|U]; [congruence|]. rewrite E in U. injection U as <-. exists l', d'. split; auto. split; auto. destruct D as [->|[-> D]]; auto. right. split; auto.
  destruct (existsb (fun p => match snd p with Some _ => String.eqb (lc_class (fst p)) "Concatenate" | None => false end) (am_layers m)) eqn:X.
  - apply existsb_exists in X as ([r [a|]] & X1 & X2); [|discriminate]. exists r. split; [now exists a|now apply String.eqb_eq].
  - exfalso. apply D. apply (nc_annotated m OK). intros r (a & R) E'. assert (T : existsb (fun p => match snd p with Some _ => String.eqb (lc_class (fst p)) "Concatenate" | None => false end) (am_layers m) = true); [|congruence].
    apply existsb_exists. exists (r, Some a). split; auto. cbn. now apply String.eqb_eq.
Qed.

(** ** C83: kernels of annotated Dense / Conv2D layers are quantized *)
Definition C83_claim (sch : scheme) : Prop := forall gen is_keras ueq n prefix already m ls st,
  model_ok m -> fresh_naming gen (layer_names_of m) -> quantize_apply sch gen is_keras ueq n prefix already m = Some (Ok (ls, st)) ->
  forall l, In (l, Some None) (am_layers m) -> In (lc_class l) ["Dense"; "Conv2D"] -> already (lc_name l) = false ->
  exists l' u, In (Wrapped (prefix ++ lc_name l) l' (Use u)) ls /\ quantized_weights (Use u) = Some ["kernel"].
Definition m_dense_relu := mkAM Functional [tin; ann (ly "Dense" "k" lin ["in"]); ann (ly "ReLU" "relu" [] ["k"])] [cn "relu"] [] true.
Theorem C83_kernel_quantized_refuted : forall sch, ~ C83_claim sch.
Proof.
  intros sch H. assert (E : exists st, quantize_apply sch genx (fun _ => true) false 60 "quant_" (fun _ => false) m_dense_relu = Some (Ok (out sch 60 "quant_" m_dense_relu, st))) by (destruct sch; eexists; vm_compute; reflexivity).
  destruct E as (st & E). specialize (H _ _ _ _ _ _ _ _ _ (okb_ok m_dense_relu eq_refl) (genx_freshb (layer_names_of m_dense_relu) eq_refl) E (ly "Dense" "k" lin ["in"])). clear E. destruct H as (l' & u & H & K).
  - repeat split; cbn; auto 8.
  - repeat split; cbn; auto 8.
  - reflexivity.
  - destruct sch; vm_compute in H; repeat destruct H as [H|H]; try discriminate; auto; injection H as <- <-; discriminate.
Qed.
(** It holds if no ReLU or Activation layer is annotated. *)
Theorem C83_kernel_quantized_partial : forall sch gen is_keras ueq n prefix already m ls st,
  model_ok m -> fresh_naming gen (layer_names_of m) -> quantize_apply sch gen is_keras ueq n prefix already m = Some (Ok (ls, st)) ->
  (forall r, annotated m r -> lc_class r <> "ReLU" /\ lc_class r <> "Activation") ->
  forall l, In (l, Some None) (am_layers m) -> already (lc_name l) = false ->
  (In (lc_class l) ["Dense"; "Conv2D"; "Conv2DTranspose"] -> exists l' u, In (Wrapped (prefix ++ lc_name l) l' (Use u)) ls /\ quantized_weights (Use u) = Some ["kernel"]) /\
  (lc_class l = "DepthwiseConv2D" -> exists l' u, In (Wrapped (prefix ++ lc_name l) l' (Use u)) ls /\ quantized_weights (Use u) = Some ["depthwise_kernel"]).
Proof.
  intros sch gen ik ueq n prefix already m ls st OK FN QA NR0 l H AL.
  assert (G : In (lc_class l) ["Dense"; "Conv2D"; "Conv2DTranspose"; "DepthwiseConv2D"] -> exists l' u, In (Wrapped (prefix ++ lc_name l) l' (Use u)) ls /\ quantized_weights (Use u) = Some (registry_weight_attrs (lc_class l))).
  { intros C. assert (O : ordinary l) by (repeat split; cbn in C; destruct C as [<-|[<-|[<-|[<-|[]]]]]; try discriminate; intros [?|?]; discriminate).
    assert (B : match_pattern (lc_class l) BN = false /\ lc_class l <> "Concatenate") by (cbn in C; destruct C as [<-|[<-|[<-|[<-|[]]]]]; split; try discriminate; reflexivity).
    destruct (apply_annotated m OK sch gen ik ueq n prefix already FN ls st QA l None H O AL) as (l' & u & I & CO & U & MA). exists l', u. split; auto.
    assert (OWN := ma_own _ _ _ _ _ MA (or_introl eq_refl) (proj1 B) (proj2 B) (or_intror (nr_annotated m OK NR0))).
    destruct U as [(-> & _ & _)|U]; [destruct CO as (E & _); unfold registry_config; rewrite E; reflexivity|]. rewrite U in OWN. destruct OWN as [Q|[Q|[_ Q]]]; [discriminate| |]; injection Q as ->; reflexivity. }
  split.
  - intros C. destruct G as (l' & u & I & E); [cbn in *; intuition|]. exists l', u. split; auto. rewrite E. cbn in C. destruct C as [<-|[<-|[<-|[]]]]; reflexivity.
  - intros C. destruct G as (l' & u & I & E); [rewrite C; cbn; auto|]. exists l', u. split; auto. rewrite E, C. reflexivity.
Qed.
Example C83_ex : exists st, quantize_apply EightBit genx (fun _ => true) false 60 "quant_" (fun _ => false) ex_m = Some (Ok (out EightBit 60 "quant_" ex_m, st)) /\
  (forall r, annotated ex_m r -> lc_class r <> "ReLU" /\ lc_class r <> "Activation").
Proof. eexists. split; [vm_compute; reflexivity|]. intros r (c & R). cbn in R. destruct R as [R|[R|[R|[R|[]]]]]; injection R as <-; try discriminate; cbn; split; discriminate. Qed.

(** ** C84: the order of a layer's inputs *)
Definition C84_claim (sch : scheme) : Prop := forall gen is_keras ueq n prefix already m ls st,
  model_ok m -> fresh_naming gen (layer_names_of m) -> quantize_apply sch gen is_keras ueq n prefix already m = Some (Ok (ls, st)) ->
  forall l a, In (l, a) (am_layers m) -> ordinary l -> (forall x, In x (inbound_layer_names l) -> exists p b, In (p, b) (am_layers m) /\ lc_name p = x /\ ordinary p) ->
  exists q, In q ls /\ lc_name (q_layer q) = lc_name l /\ inbound_layer_names (q_layer q) = inbound_layer_names l.
(** Concatenate([b, a]) becomes Concatenate([a, b]) when [a] is listed first. *)
Definition m_order := mkAM Functional [tin; ann (ly "Dense" "a" lin ["in"]); ann (ly "Dense" "b" lin ["in"]); ann (ly "Concatenate" "cat" [] ["b"; "a"])] [cn "cat"] [] true.
Theorem C84_input_order_refuted : forall sch, ~ C84_claim sch.
Proof.
  intros sch H. assert (E : exists st, quantize_apply sch genx (fun _ => true) false 60 "quant_" (fun _ => false) m_order = Some (Ok (out sch 60 "quant_" m_order, st))) by (destruct sch; eexists; vm_compute; reflexivity).
  destruct E as (st & E). specialize (H _ _ _ _ _ _ _ _ _ (okb_ok m_order eq_refl) (genx_freshb (layer_names_of m_order) eq_refl) E (ly "Concatenate" "cat" [] ["b"; "a"]) (Some None)). clear E. destruct H as (q & Q & N & R).
  - repeat split; cbn; auto 8.
  - repeat split; try discriminate; intros [?|?]; discriminate.
  - cbn. intros x [<-|[<-|[]]]; [exists (ly "Dense" "b" lin ["in"])|exists (ly "Dense" "a" lin ["in"])]; exists (Some None); (split; [cbn; auto|]); (split; [reflexivity|]); repeat split; try discriminate; intros [?|?]; discriminate.
  - destruct sch; vm_compute in Q; repeat destruct Q as [<-|Q]; try discriminate N; try discriminate R; auto.
Qed.
(** Layers that are not annotated keep theirs. *)
Theorem C84_input_order_partial : forall sch gen is_keras ueq n prefix already m ls st,
  model_ok m -> fresh_naming gen (layer_names_of m) -> quantize_apply sch gen is_keras ueq n prefix already m = Some (Ok (ls, st)) ->
  forall l, In (l, None) (am_layers m) -> ordinary l ->
  exists q f, In q ls /\ lc_name (q_layer q) = lc_name l /\ (forall p, In (p, None) (am_layers m) -> lc_class p <> "InputLayer" -> f (lc_name p) = lc_name p) /\ reads (q_layer q) = map (map (map f)) (reads l).
Proof.
  intros sch gen ik ueq n prefix already m ls st OK FN QA l H O. destruct (apply_others m OK sch gen ik ueq n prefix already FN ls st QA l H O) as (l' & CO & (f & F & (SL & R & _)) & [[_ B]|[_ B]]); eexists; exists f; (split; [exact B|]); cbn [q_layer]; (split; [apply CO|]); auto.
Qed.

(** ** C85: the default layout transforms (8-bit and n-bit) terminate on every model *)
Theorem C85_layout_terminates : forall sch gen is_keras ueq k st0, terminates (default_meq sch ueq) k (layout_transforms sch gen is_keras) st0.
Proof. exact default_terminates. Qed.

(** ** C86: layer patterns name exactly the listed classes *)
(** A pattern "A|B|...|Z" without wildcards also accepts every class that merely starts with A, B, ... (all but the last). *)
Theorem C86_patterns_refuted : match_pattern "Conv2DTranspose" "Conv2D|DepthwiseConv2D" = true /\ match_pattern "AdditiveAttention" "Add|Conv2D|DepthwiseConv2D|Dense" = true /\
  match_pattern "DenseFeatures" "Add|Conv2D|DepthwiseConv2D|Dense" = false.
Proof. vm_compute. auto. Qed.
Theorem C86_patterns_partial : forall pattern alts lst target, alternatives pattern = (alts ++ [lst])%list -> (forall p, In p (alts ++ [lst]) -> strip_any p = None) ->
  match_pattern target pattern = true <-> (exists p, In p alts /\ String.prefix p target = true) \/ target = lst.
Proof. intros pattern alts lst target E H. unfold match_pattern. rewrite E. now apply match_alts. Qed.
Example C86_ex : alternatives "Add|Conv2D|DepthwiseConv2D|Dense" = (["Add"; "Conv2D"; "DepthwiseConv2D"] ++ ["Dense"])%list /\ forall p, In p (["Add"; "Conv2D"; "DepthwiseConv2D"] ++ ["Dense"]) -> strip_any p = None.
Proof. split; [reflexivity|]. intros p P. cbn in P. destruct P as [<-|[<-|[<-|[<-|[]]]]]; reflexivity. Qed.

(** ** C87: nothing is quantized between Dense / Conv2D, BatchNormalization and ReLU *)
Definition C87_claim (sch : scheme) : Prop := forall gen is_keras ueq n prefix already m ls st kernel bn relu,
  model_ok m -> fresh_naming gen (layer_names_of m) -> quantize_apply sch gen is_keras ueq n prefix already m = Some (Ok (ls, st)) ->
  In (kernel, Some None) (am_layers m) -> In (bn, Some None) (am_layers m) -> In (relu, Some None) (am_layers m) ->
  In (lc_class kernel) ["Dense"; "Conv2D"] -> lc_class bn = "BatchNormalization" -> lc_class relu = "ReLU" -> config_get kernel "activation" = "linear" ->
  inbound_layer_names bn = [lc_name kernel] -> inbound_layer_names relu = [lc_name bn] -> consuming_layers (initial_state m) (lc_name kernel) = [bn] -> consuming_layers (initial_state m) (lc_name bn) = [relu] ->
  already (lc_name bn) = false -> exists l' u, In (Wrapped (prefix ++ lc_name bn) l' (Use u)) ls /\ quantizes_output (Use u) = Some false.
Definition m_dbr := mkAM Functional [tin; ann (ly "Dense" "k" lin ["in"]); ann (ly "BatchNormalization" "bn" [] ["k"]); ann (ly "ReLU" "relu" [] ["bn"])] [cn "relu"] [] true.
Definition m_cbr := mkAM Functional [tin; ann (ly "Conv2D" "k" lin ["in"]); ann (ly "BatchNormalization" "bn" [] ["k"]); ann (ly "ReLU" "relu" [] ["bn"])] [cn "relu"] [] true.
Theorem C87_no_quantization_inside_refuted : forall sch, ~ C87_claim sch.
Proof.
  intros sch H. assert (E : exists st, quantize_apply sch genx (fun _ => true) false 60 "quant_" (fun _ => false) m_dbr = Some (Ok (out sch 60 "quant_" m_dbr, st))) by (destruct sch; eexists; vm_compute; reflexivity).
  destruct E as (st & E). specialize (H _ _ _ _ _ _ _ _ _ (ly "Dense" "k" lin ["in"]) (ly "BatchNormalization" "bn" [] ["k"]) (ly "ReLU" "relu" [] ["bn"]) (okb_ok m_dbr eq_refl) (genx_freshb (layer_names_of m_dbr) eq_refl) E). clear E.
  destruct H as (l' & u & Q & K); [cbn; auto|cbn; auto|cbn; auto|cbn; auto|reflexivity|reflexivity|reflexivity|reflexivity|reflexivity|vm_compute; reflexivity|vm_compute; reflexivity|reflexivity|].
  destruct sch; vm_compute in Q; repeat destruct Q as [Q|Q]; try discriminate; auto; injection Q as <- <-; discriminate.
Qed.
(** With Conv2D in place of Dense the batch normalization's output is not quantized. *)
(** What does hold: a convolution whose batch normalization and ReLU are fused to it. *)
Theorem C87_conv_partial : forall sch gen is_keras ueq n prefix already m ls st conv bn relu,
  model_ok m -> fresh_naming gen (layer_names_of m) -> quantize_apply sch gen is_keras ueq n prefix already m = Some (Ok (ls, st)) ->
  conv_bn_relu m conv bn relu -> already (lc_name conv) = false -> already (lc_name bn) = false ->
  (exists l', In (Wrapped (prefix ++ lc_name bn) l' (Use NoOpCfg)) ls /\ carried_over m st bn l') /\
  (exists l' u, In (Wrapped (prefix ++ lc_name conv) l' (Use u)) ls /\ carried_over m st conv l' /\ assoc "activation" (lc_cfg l') = Some "NoOpActivation").
Proof. exact cbr_fused. Qed.
Example C87_ex_cbr : conv_bn_relu m_cbr (ly "Conv2D" "k" lin ["in"]) (ly "BatchNormalization" "bn" [] ["k"]) (ly "ReLU" "relu" [] ["bn"]).
Proof.
  constructor; [reflexivity| | | | ].
  - repeat split; cbn; auto 8.
  - unfold linear_conv, batch_norm, relu_layer; cbn. split; [|split; auto]. split; [auto|split; [reflexivity|apply le_n]].
  - split; eexists; split; reflexivity.
  - split; split.
    1, 3: intros l a H; apply (in_map fst) in H; cbn in H; repeat destruct H as [<-|H]; try destruct H; vm_compute; intros X; repeat destruct X as [X|X]; try discriminate X; try (now destruct X); reflexivity.
    all: intros c [<-|[]]; discriminate.
Qed.
Example C87_ex_conv : exists l', In (Wrapped "quant_bn" l' (Use NoOpCfg)) (out EightBit 60 "quant_" m_cbr).
Proof. eexists. vm_compute. repeat (first [left; reflexivity|right]). Qed.

(** ** C48 *)
Theorem C48_fix_range_refuted :
  (forall nb imin imax omin omax nr l, fix_input_output_range nb imin imax omin omax nr (RSequential [l]) = Err IndexError) /\
  (** an input that feeds an un-annotated layer *)
  (forall nb imin imax omin omax nr, fix_input_output_range nb imin imax omin omax nr
     (RFunctional [mkR "InputLayer" "in" None None None; mkR "Reshape" "r" (Some "in") None None; mkR "QuantizeWrapperV2" "quant_k" (Some "r") None (Some (RBase 0))] ["in"] ["quant_k"]) = Err TypeError).
Proof. split; intros; vm_compute; reflexivity. Qed.
(** On a quantized Sequential model exactly the second layer's quantizer and the last layer's config change. *)
Theorem C48_sequential_partial : forall nb imin imax omin omax nr a b rest, r_class b = "QuantizeLayer" ->
  (forall l, In l (a :: b :: rest) -> r_quantizer l <> None -> r_class l = "QuantizeLayer") ->
  let ls := a :: b :: rest in
  exists ls', fix_input_output_range nb imin imax omin omax nr (RSequential ls) = Ok (RSequential ls') /\ List.length ls' = List.length ls /\
    forall i l, nth_error ls i = Some l -> exists l', nth_error ls' i = Some l' /\ r_class l' = r_class l /\ r_name l' = r_name l /\ r_input l' = r_input l /\
      r_quantizer l' = (if Nat.eqb i 1 then Some (RQFixed nb imin imax nr) else r_quantizer l) /\
      r_config l' = (if Nat.eqb (S i) (List.length ls) then option_map (RFixed nb omin omax nr) (r_config l) else r_config l).
Proof.
  intros nb imin imax omin omax nr a b rest B H ls. eexists. split; [apply seq_fix; auto|]. fold ls. unfold set_last. rewrite !set_nth_length. split; auto. intros i l L. rewrite !nth_set_nth. rewrite L.
  assert (P : List.length ls = S (S (List.length rest))) by reflexivity. rewrite P. replace (S (S (List.length rest)) - 1) with (S (List.length rest)) by lia.
  destruct (Nat.eqb_spec 1 i) as [<-|N1].
  - cbn [option_map Nat.eqb]. destruct (Nat.eqb_spec (List.length rest) 0) as [Z|Z]; cbn [option_map]; eexists; (split; [reflexivity|]); cbn; rewrite ?Z; auto 10. destruct (List.length rest); [contradiction|]. auto 10.
  - destruct (Nat.eqb_spec i 1); [lia|]. destruct (Nat.eqb_spec (S (List.length rest)) i) as [<-|N2]; cbn [option_map]; eexists; (split; [reflexivity|]); cbn [wrap_config r_class r_name r_input r_quantizer r_config]; rewrite ?Nat.eqb_refl; auto 10.
    destruct (Nat.eqb_spec (S i) (S (S (List.length rest)))); [lia|]. auto 10.
Qed.
(** Functional models all of whose inputs feed QuantizeLayers. *)
Theorem C48_functional_partial : forall nb imin imax omin omax nr ins outs ls,
  (forall l, In l ls -> (r_quantizer l <> None \/ exists n, r_input l = Some n /\ In n ins) -> r_class l = "QuantizeLayer") ->
  exists ls', fix_input_output_range nb imin imax omin omax nr (RFunctional ls ins outs) = Ok (RFunctional ls' ins outs) /\
    Forall2 (fun l l' => r_class l' = r_class l /\ r_name l' = r_name l /\ r_input l' = r_input l /\
      ((exists n, r_input l = Some n /\ In n ins) -> r_quantizer l' = Some (RQFixed nb imin imax nr)) /\ (~ (exists n, r_input l = Some n /\ In n ins) -> r_quantizer l' = r_quantizer l) /\
      (In (r_name l) outs -> r_config l' = option_map (RFixed nb omin omax nr) (r_config l)) /\ (~ In (r_name l) outs -> r_config l' = r_config l)) ls ls'.
Proof.
  intros nb imin imax omin omax nr ins outs ls H. eexists. split; [now apply fun_fix|]. clear H. induction ls as [|l r IH]; cbn [map]; constructor; auto. clear IH.
  assert (Q : r_name (fix_inputs (RQFixed nb imin imax nr) ins l) = r_name l) by (unfold fix_inputs; destruct (r_input l) as [x|]; auto; destruct (inb x ins); auto).
  unfold fix_outputs. rewrite Q. unfold fix_inputs. destruct (r_input l) as [x|] eqn:EX.
  - destruct (inb x ins) eqn:I; [apply inb_In in I|apply inb_false in I]; (destruct (inb (r_name l) outs) eqn:J; [apply inb_In in J|apply inb_false in J]); cbn; rewrite ?EX; repeat split; auto; try tauto; try (intros (y & YE & Y); assert (y = x) by congruence; subst y; tauto); try (intros NX; exfalso; apply NX; exists x; auto).
  - (destruct (inb (r_name l) outs) eqn:J; [apply inb_In in J|apply inb_false in J]); cbn; rewrite ?EX; repeat split; auto; try tauto; try (intros (y & YE & _); discriminate YE).
Qed.
Theorem C48_remove_range_partial : forall a b rest, r_class b = "QuantizeLayer" -> (forall l, In l (a :: b :: rest) -> r_quantizer l <> None -> r_class l = "QuantizeLayer") ->
  remove_input_range (RSequential (a :: b :: rest)) = Ok (RSequential (a :: mkR (r_class b) (r_name b) (r_input b) (Some RQNone) (r_config b) :: rest)).
Proof. exact seq_remove. Qed.
Theorem C48_remove_functional_partial : forall ins outs ls,
  (forall l, In l ls -> (r_quantizer l <> None \/ exists n, r_input l = Some n /\ In n ins) -> r_class l = "QuantizeLayer") ->
  exists ls', remove_input_range (RFunctional ls ins outs) = Ok (RFunctional ls' ins outs) /\
    Forall2 (fun l l' => r_class l' = r_class l /\ r_name l' = r_name l /\ r_input l' = r_input l /\ r_config l' = r_config l /\
      ((exists n, r_input l = Some n /\ In n ins) -> r_quantizer l' = Some RQNone) /\ (~ (exists n, r_input l = Some n /\ In n ins) -> r_quantizer l' = r_quantizer l)) ls ls'.
Proof.
  intros ins outs ls H. eexists. split; [now apply fun_remove|]. clear H. induction ls as [|l r IH]; cbn [map]; constructor; auto. clear IH. unfold fix_inputs. destruct (r_input l) as [x|] eqn:EX.
  - destruct (inb x ins) eqn:I; [apply inb_In in I|apply inb_false in I]; cbn; rewrite ?EX; repeat split; auto; try tauto; try (intros (y & YE & Y); assert (y = x) by congruence; subst y; tauto); try (intros NX; exfalso; apply NX; exists x; auto).
  - rewrite ?EX; repeat split; auto; try (intros (y & YE & _); discriminate YE).
Qed.
Example C48_ex : fix_input_output_range 4 0 15 0 15 false (RSequential [mkR "InputLayer" "in" None None None; mkR "QuantizeLayer" "q" None (Some (RQOther 0)) None; mkR "QuantizeWrapperV2" "k" None None (Some (RBase 1))]) =
  Ok (RSequential [mkR "InputLayer" "in" None None None; mkR "QuantizeLayer" "q" None (Some (RQFixed 4 0 15 false)) None; mkR "QuantizeWrapperV2" "k" None None (Some (RFixed 4 0 15 false (RBase 1)))]).
Proof. vm_compute. reflexivity. Qed.

Print Assumptions C43_annotate.
Print Assumptions C43_idempotent.
Print Assumptions C43_nested.
Print Assumptions C43_errors.
Print Assumptions C44_annotated.
Print Assumptions C44_not_annotated.
Print Assumptions C44_names.
Print Assumptions C44_nothing_else.
Print Assumptions C44_unsupported.
Print Assumptions C44_arguments.
Print Assumptions C44_terminates.
Print Assumptions C45_user_config_refuted.
Print Assumptions C45_output_refuted.
Print Assumptions C45_user_config_partial.
Print Assumptions C83_kernel_quantized_refuted.
Print Assumptions C83_kernel_quantized_partial.
Print Assumptions C84_input_order_refuted.
Print Assumptions C84_input_order_partial.
Print Assumptions C85_layout_terminates.
Print Assumptions C86_patterns_refuted.
Print Assumptions C86_patterns_partial.
Print Assumptions C87_no_quantization_inside_refuted.
Print Assumptions C87_conv_partial.
Print Assumptions C48_fix_range_refuted.
Print Assumptions C48_sequential_partial.
Print Assumptions C48_functional_partial.
Print Assumptions C48_remove_range_partial.
Print Assumptions C48_remove_functional_partial.

(** An annotated layer of a class the library does not know and for which nothing was chosen: RuntimeError. *)
Theorem C44_unsupported_error : forall prefix already outbound md req l m, lc_class l <> "QuantizeLayer" -> assoc (lc_name l) md = Some m -> meta_config m = None ->
  already (lc_name l) = false -> ~ In (lc_name l) req -> is_supported_class (lc_class l) = false -> quantize prefix already outbound md req l = Err RuntimeError.
Proof.
  intros prefix already outbound md req l m C A M AL R S1. unfold quantize. apply String.eqb_neq in C. rewrite C, A, AL, M. apply inb_false in R. rewrite R. cbn [negb andb orb]. unfold supports. now rewrite S1.
Qed.
Print Assumptions C44_unsupported_error.
(** Sequential models whose second layer is not a QuantizeLayer (or that are empty) are refused. *)
Theorem C48_sequential_refused : forall nb imin imax omin omax nr ls, ls = [] \/ (exists a b r, ls = a :: b :: r /\ r_class b <> "QuantizeLayer") ->
  fix_input_output_range nb imin imax omin omax nr (RSequential ls) = Err ValueError /\ remove_input_range (RSequential ls) = Err ValueError.
Proof. intros nb imin imax omin omax nr ls [->|(a & b & r & -> & N)]; [split; reflexivity|]. apply String.eqb_neq in N. unfold fix_input_output_range, remove_input_range, check_sequential. now rewrite N. Qed.
Print Assumptions C48_sequential_refused.
