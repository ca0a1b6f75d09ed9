(** QuantizeConfig objects, registries and the n-bit scheme: C101-C105. *)
From Coq Require Import String.
From Verif Require Import Base M_Tensor M_Quant M_Transform M_Layout8 M_QWrapper M_QuantizeApply M_NBit S_Transform S_Layout8 S_QuantizeApply S_NBit
  L_Transform L_Layout8 L_Layout8b L_Layout8d L_QuantizeApply L_QuantizeApply2 L_NBit L_NBit2 P_QuantizeApply.
Open Scope string_scope.
Open Scope nat_scope.

(** ** C101 *)
(** Registries are made one after the other; each n-bit registry quantizes with the bits it was asked for. *)
Definition C101_claim : Prop := forall (h : list request) i p bw ba cls o, nth_error h i = Some (NBit, p, bw, ba) -> config_from h i cls = Some (Ok o) -> honours bw ba o.
(** It does not: the second registry changes the first one's bits. *)
Theorem C101_bits_refuted : ~ C101_claim.
Proof.
  intros H. specialize (H [(NBit, false, 4, 4); (NBit, false, 8, 8)] 0 false 4 4 "Dense" (OBase NBit KPlain ["kernel"] ["activation"] false 8 8 false) eq_refl eq_refl).
  destruct H as (A & _). specialize (A "kernel" _ (or_introl eq_refl)). discriminate.
Qed.
(** Dense layers: exactly when the last n-bit registry made was asked for the same bits. *)
Theorem C101_dense_partial : forall (h tail : list request) i p bw ba p' bw' ba' o,
  (forall q, In q tail -> exists p2 b2 a2, q = (EightBit, p2, b2, a2)) -> nth_error (h ++ (NBit, p', bw', ba') :: tail) i = Some (NBit, p, bw, ba) ->
  config_from (h ++ (NBit, p', bw', ba') :: tail) i "Dense" = Some (Ok o) -> honours bw ba o <-> bw' = bw /\ ba' = ba.
Proof.
  intros h tail i p bw ba p' bw' ba' o T E C. rewrite (dense_bits _ _ _ _ _ _ E C). rewrite fold_left_app. cbn [fold_left imprint].
  assert (F : fold_left imprint tail (mkWorld bw' ba') = mkWorld bw' ba').
  { clear -T. induction tail as [|q tail IH]; auto. destruct (T q (or_introl eq_refl)) as (p2 & b2 & a2 & ->). cbn [fold_left imprint]. apply IH. intros q' Q. apply T. now right. }
  rewrite F. split; [intros [= -> ->]; auto|intros [-> ->]; auto].
Qed.
(** It holds if every n-bit registry made later was asked for the same bits, ... *)
Theorem C101_later_partial : forall (h : list request) i p bw ba cls o, nth_error h i = Some (NBit, p, bw, ba) ->
  (forall j p' bw' ba', i < j -> nth_error h j = Some (NBit, p', bw', ba') -> bw' = bw /\ ba' = ba) -> config_from h i cls = Some (Ok o) -> honours bw ba o.
Proof. exact later_registries. Qed.
(** ... and always for the classes whose configs are made with the registry. *)
Theorem C101_conv_partial : forall (h : list request) i p bw ba cls o, nth_error h i = Some (NBit, p, bw, ba) -> In cls ["Activation"; "Conv2DTranspose"; "Conv2D"; "DepthwiseConv2D"] ->
  config_from h i cls = Some (Ok o) -> honours bw ba o.
Proof.
  intros h i p bw ba cls o E I. rewrite config_from_eq, E. cbn [option_map own]. intros [= C]. apply inb_In in I.
  unfold get_quantize_config in C. cbn [rg_scheme rg_per_axis_off rg_bw rg_ba] in C. apply (dedicated_iff NBit p bw ba) in I as (o1 & D). rewrite D in C. injection C as <-. eapply dedicated_honours; eauto.
Qed.
(** What quantize_apply puts on the layers has the bits asked for, whatever registries were made before. *)
Theorem C101_apply : forall s w p bw ba st q o, (s = EightBit -> bw = 8 /\ ba = 8) -> wrapper_config s w p bw ba st q = Some (Ok o) -> honours bw ba o.
Proof. exact wrapper_honours. Qed.
(** A registry has a config for exactly the supported classes. *)
Theorem C101_supported : forall w r cls, (exists o, get_quantize_config w r cls = Ok o) <-> is_supported_class cls = true.
Proof. exact config_iff. Qed.
Example C101_ex : exists o, config_from [(NBit, false, 4, 8); (EightBit, true, 0, 0); (NBit, true, 4, 8)] 0 "Dense" = Some (Ok o) /\ honours 4 8 o /\
  weight_quantizers o = [("kernel", LastValueQuantizer CLastValue 4 false true true)].
Proof. eexists. split; [reflexivity|]. split; [apply honours_base|reflexivity]. Qed.

(** ** C102 *)
(** A config keeps its quantizers through get_config / from_config: as constructed ... *)
Theorem C102_constructed : forall o, constructed o -> reload o = Ok o.
Proof. exact reload_constructed. Qed.
(** ... but not after a Concatenate transform has switched its output off. *)
Definition C102_claim : Prop := forall s o, constructed o -> survives_reload (switch_off s o).
Theorem C102_reload_refuted : ~ C102_claim.
Proof.
  intros H. specialize (H NBit (OBase NBit KPlain [] [] true 4 4 false) (con_base _ _ _ _ _ _)). apply survives_iff in H; [|constructor]. destruct H as [[? _]|H]; [discriminate|]. specialize (H None). discriminate.
Qed.
(** Exactly: the 8-bit transform on a config with a quantize_output attribute, or a config without output quantizers. *)
Theorem C102_switched_partial : forall s o, constructed o ->
  survives_reload (switch_off s o) <-> (s = EightBit /\ has_quantize_output o) \/ (forall act, output_quantizers o act = Ok []).
Proof. exact survives_iff. Qed.
(** Switching off is only about outputs. *)
Theorem C102_switch_off : forall s o, weight_quantizers (switch_off s o) = weight_quantizers o /\ activation_quantizers (switch_off s o) = activation_quantizers o /\
  forall act, output_quantizers (switch_off s o) act = Ok [].
Proof. intros s o. split; [apply switch_weights|]. split; [apply switch_activations|]. intros act. apply switch_outputs. Qed.
Example C102_ex : let o := OBase EightBit KConv ["kernel"] ["activation"] true 8 8 false in
  survives_reload (switch_off EightBit o) /\ reload (switch_off NBit (OBase NBit KPlain [] [] true 4 4 false)) = Ok (OBase NBit KPlain [] [] true 4 4 false).
Proof. split; [|reflexivity]. apply survives_iff; [constructor|]. left. cbn. auto. Qed.

(** ** C103 *)
(** Layer by layer, the n-bit scheme at 8/8 bits attaches the 8-bit scheme's quantizers, whatever the activation function, except
    that only the 8-bit scheme knows Activation('gelu'). *)
Theorem C103_registry_partial : forall w p cls o8 on, from_registry EightBit w p 8 8 cls = Ok o8 -> from_registry NBit w p 8 8 cls = Ok on ->
  weight_quantizers on = weight_quantizers o8 /\ activation_quantizers on = activation_quantizers o8 /\
  forall act, act <> Some "gelu" -> output_quantizers on act = output_quantizers o8 act.
Proof.
  intros w p cls o8 on. unfold from_registry, get_quantize_config, dedicated. cbn [new_registry rg_scheme rg_per_axis_off rg_bw rg_ba wd_bw wd_ba].
  destruct (String.eqb cls "Activation").
  { intros [= <-] [= <-]. split; auto. split; auto. intros [a|] NG; auto. cbn [output_quantizers activation_outputs quantized_activations]. unfold in_set.
    destruct (in_dec string_dec a ["relu"; "relu6"; "swish"]) as [I|I], (in_dec string_dec a ["relu"; "swish"; "gelu"; "relu6"]) as [J|J]; auto; exfalso.
    - apply J. cbn in *. tauto.
    - apply I. cbn in *. destruct J as [<-|[<-|[<-|[<-|[]]]]]; auto; congruence. }
  destruct (String.eqb cls "Conv2DTranspose"); [intros [= <-] [= <-]; auto|]. destruct (String.eqb cls "Conv2D"); [intros [= <-] [= <-]; auto|].
  destruct (String.eqb cls "DepthwiseConv2D"); [intros [= <-] [= <-]; auto|]. destruct (entry cls) as [[[wa aa] qo]|]; [|discriminate]. intros [= <-] [= <-]; auto.
Qed.
Theorem C103_gelu_refuted : exists o8 on, from_registry EightBit world0 false 8 8 "Activation" = Ok o8 /\ from_registry NBit world0 false 8 8 "Activation" = Ok on /\
  output_quantizers o8 (Some "gelu") = Ok [act_q 8] /\ output_quantizers on (Some "gelu") = Err ValueError.
Proof. do 2 eexists. repeat split; vm_compute; reflexivity. Qed.
(** Whole models: the same layers are wrapped with the same configs. *)
Definition C103_claim : Prop := forall gen is_keras ueq prefix already m n n' ls ls' st st', model_ok m -> fresh_naming gen (layer_names_of m) ->
  quantize_apply EightBit gen is_keras ueq n prefix already m = Some (Ok (ls, st)) -> quantize_apply NBit gen is_keras ueq n' prefix already m = Some (Ok (ls', st')) -> ls' = ls.
(** A Concatenate fed by a model input: the 8-bit scheme removes the input's quantizer and quantizes behind the Concatenate, the
    n-bit scheme leaves the input quantized. *)
Definition m_cat_in := mkAM Functional [tin; plain (ly "InputLayer" "in2" [] []); ann (ly "Dense" "a" lin ["in2"]); ann (ly "Concatenate" "cat" [] ["in"; "a"])] [cn "cat"] [] true.
Theorem C103_layout_refuted : ~ C103_claim.
Proof.
  intros H. assert (E : forall sch, exists st, quantize_apply sch genx (fun _ => true) false 60 "quant_" (fun _ => false) m_cat_in = Some (Ok (out sch 60 "quant_" m_cat_in, st))) by (intros sch; destruct sch; eexists; vm_compute; reflexivity).
  destruct (E EightBit) as (st & E1). destruct (E NBit) as (st' & E2). specialize (H _ _ _ _ _ _ _ _ _ _ _ _ (okb_ok m_cat_in eq_refl) (genx_freshb (layer_names_of m_cat_in) eq_refl) E1 E2). clear E E1 E2. vm_compute in H. discriminate.
Qed.

(** ** C104 *)
(** A serialized config can be loaded any number of times. *)
Definition C104_claim : Prop := forall o n, constructed o -> loads n (serialize o) = repeat (Ok o) n.
(** Not so for FixedQuantizeConfig: loading changes the dict, and the second attempt fails. *)
Theorem C104_fixed_partial : forall o b lo hi na n, constructed o ->
  loads (S n) (serialize (OFixed o b lo hi na false)) = Ok (OFixed o b lo hi na false) :: repeat (Err ValueError) n.
Proof. intros; now apply loads_fixed. Qed.
Theorem C104_again_refuted : ~ C104_claim.
Proof. intros H. specialize (H (OFixed (ONoOp false) 8 0%Q 1%Q false false) 2 (con_fixed _ _ _ _ _ con_noop)). discriminate. Qed.
Theorem C104_others_partial : forall o n, constructed o -> (forall i b lo hi na p, o <> OFixed i b lo hi na p) -> loads n (serialize o) = repeat (Ok o) n.
Proof. intros o n C NF. apply loads_not_fixed; auto. destruct o; cbn; auto. eapply NF; reflexivity. Qed.
Example C104_ex : loads 3 (serialize (OOutputOnly (OBase EightBit KConv ["kernel"] ["activation"] false 8 8 false) false)) =
  repeat (Ok (OOutputOnly (OBase EightBit KConv ["kernel"] ["activation"] false 8 8 false) false)) 3.
Proof. reflexivity. Qed.

(** ** C105 *)
(** With disable_per_axis no weight is quantized per channel. *)
Definition C105_claim (sch : scheme) : Prop := forall gen is_keras ueq n prefix already m ls st, model_ok m -> fresh_naming gen (layer_names_of m) ->
  quantize_apply sch gen is_keras ueq n prefix already m = Some (Ok (ls, st)) ->
  forall w bw ba q o, In q ls -> wrapper_config sch w true bw ba st q = Some (Ok o) -> forall a r, In (a, r) (weight_quantizers o) -> ~ per_channel r.
(** A Conv2D feeding a Concatenate gets its config from a registry of the transform's own. *)
Definition m_conv_cat := mkAM Functional [tin; ann (ly "Conv2D" "a" lin ["in"]); ann (ly "Conv2D" "b" lin ["in"]); ann (ly "Concatenate" "cat" [] ["a"; "b"])] [cn "cat"] [] true.
Definition final_state (sch : scheme) (m : amodel) : state :=
  match quantize_apply sch genx (fun _ => true) false 60 "quant_" (fun _ => false) m with Some (Ok (_, st)) => st | _ => initial_state m end.
Theorem C105_per_axis_refuted : forall sch, ~ C105_claim sch.
Proof.
  intros sch H.
  assert (E : quantize_apply sch genx (fun _ => true) false 60 "quant_" (fun _ => false) m_conv_cat = Some (Ok (out sch 60 "quant_" m_conv_cat, final_state sch m_conv_cat))) by (destruct sch; vm_compute; reflexivity).
  specialize (H _ _ _ _ _ _ _ _ _ (okb_ok m_conv_cat eq_refl) (genx_freshb (layer_names_of m_conv_cat) eq_refl) E world0 8 8). clear E.
  destruct (nth_error (out sch 60 "quant_" m_conv_cat) 3) as [q|] eqn:Q; [|destruct sch; vm_compute in Q; discriminate].
  destruct (wrapper_config sch world0 true 8 8 (final_state sch m_conv_cat) q) as [[o|]|] eqn:W; [|destruct sch; vm_compute in Q; injection Q as <-; vm_compute in W; discriminate..].
  specialize (H q o (nth_error_In _ _ Q) W). destruct sch; vm_compute in Q; injection Q as <-; vm_compute in W; injection W as <-; (eapply H; [cbn; left; reflexivity|reflexivity]).
Qed.
(** It holds for every annotated layer if no Concatenate is annotated. *)
Theorem C105_per_axis_partial : forall m sch gen is_keras ueq n prefix already ls st, model_ok m -> fresh_naming gen (layer_names_of m) ->
  quantize_apply sch gen is_keras ueq n prefix already m = Some (Ok (ls, st)) -> (forall r, annotated m r -> lc_class r <> "Concatenate") ->
  forall l c, In (l, Some c) (am_layers m) -> ordinary l -> already (lc_name l) = false -> (forall s d, c <> Some (RegistryCfg s d)) ->
  exists l' u, In (Wrapped (prefix ++ lc_name l) l' (Use u)) ls /\ carried_over m st l l' /\
    forall w bw ba o, wrapper_config sch w true bw ba st (Wrapped (prefix ++ lc_name l) l' (Use u)) = Some (Ok o) ->
    forall a q, In (a, q) (weight_quantizers o) -> ~ per_channel q.
Proof. exact apply_per_axis. Qed.
Definition m_conv := mkAM Functional [tin; ann (ly "Conv2D" "a" lin ["in"])] [cn "a"] [] true.
Example C105_ex : forall sch, model_ok m_conv /\ fresh_naming genx (layer_names_of m_conv) /\ ordinary (ly "Conv2D" "a" lin ["in"]) /\ (forall r, annotated m_conv r -> lc_class r <> "Concatenate") /\
  exists ls st, quantize_apply sch genx (fun _ => true) false 60 "quant_" (fun _ => false) m_conv = Some (Ok (ls, st)) /\
  exists o, option_map (wrapper_config sch world0 true 8 8 st) (nth_error ls 0) = Some (Some (Ok o)) /\ weight_quantizers o = [("kernel", LastValueQuantizer CLastValue 8 false true true)].
Proof.
  intros sch. split; [apply okb_ok; vm_compute; reflexivity|]. split; [apply genx_freshb; vm_compute; reflexivity|]. split; [repeat split; try discriminate; intros [?|?]; discriminate|].
  split; [intros r (c & [E|[E|[]]]); injection E as <-; try discriminate; intros; discriminate|]. destruct sch; do 2 eexists; (split; [vm_compute; reflexivity|]); eexists; split; vm_compute; reflexivity.
Qed.

Print Assumptions C101_dense_partial.
Print Assumptions C101_later_partial.
Print Assumptions C102_switched_partial.
Print Assumptions C103_registry_partial.
Print Assumptions C104_others_partial.
Print Assumptions C105_per_axis_partial.
Print Assumptions C101_bits_refuted.
Print Assumptions C101_conv_partial.
Print Assumptions C101_apply.
Print Assumptions C101_supported.
Print Assumptions C102_constructed.
Print Assumptions C102_reload_refuted.
Print Assumptions C102_switch_off.
Print Assumptions C103_gelu_refuted.
Print Assumptions C103_layout_refuted.
Print Assumptions C104_fixed_partial.
Print Assumptions C104_again_refuted.
Print Assumptions C105_per_axis_refuted.

(** ** C138 *)
(** What the registry's config for a supported class attaches: the weights of the class with [bw] bits, symmetric, narrow range,
    per channel exactly for Conv2D and DepthwiseConv2D unless per-axis is disabled; the activation attribute and the output with
    [ba] bits, asymmetric moving-average ranges. *)
Theorem C138_registry : forall s w p bw ba cls o, (s = EightBit -> bw = 8 /\ ba = 8) -> from_registry s w p bw ba cls = Ok o ->
  map fst (weight_quantizers o) = registry_weight_attrs cls /\
  (forall a q, In (a, q) (weight_quantizers o) -> exists c, q = LastValueQuantizer c bw (match p with true => false | false => inb cls ["Conv2D"; "DepthwiseConv2D"] end) true true) /\
  activation_quantizers o = (if inb cls ["Dense"; "Conv2D"; "DepthwiseConv2D"; "Conv2DTranspose"] then [("activation", MovingAverageQuantizer ba false false false)] else []) /\
  (cls <> "Activation" -> forall act, output_quantizers o act = Ok (if registry_quantizes_output cls then [MovingAverageQuantizer ba false false false] else [])).
Proof. exact registry_all. Qed.
Print Assumptions C138_registry.
(** Activation layers: quantized for the listed functions, left alone for four others, refused for the rest. *)
Theorem C138_activation : forall s w p bw ba o, (s = EightBit -> bw = 8 /\ ba = 8) -> from_registry s w p bw ba "Activation" = Ok o ->
  weight_quantizers o = [] /\ activation_quantizers o = [] /\ output_quantizers o None = Err ValueError /\
  forall a, output_quantizers o (Some a) =
    if in_dec string_dec a (["relu"; "relu6"; "swish"] ++ match s with EightBit => ["gelu"] | NBit => [] end)%list then Ok [MovingAverageQuantizer ba false false false]
    else if in_dec string_dec a ["linear"; "softmax"; "sigmoid"; "tanh"] then Ok [] else Err ValueError.
Proof.
  intros s w p bw ba o B H. unfold from_registry, get_quantize_config, dedicated in H.
  assert (R : new_registry w s p bw ba = (match s with EightBit => w | NBit => mkWorld bw ba end, mkReg s p bw ba)) by (destruct s; cbn; auto; destruct (B eq_refl) as [-> ->]; reflexivity).
  rewrite R in H. cbn in H. injection H as <-. repeat split. intros a. cbn [output_quantizers activation_outputs]. unfold in_set, act_q, quantized_activations.
  destruct s; cbn [app].
  - destruct (in_dec string_dec a ["relu"; "swish"; "gelu"; "relu6"]) as [I|I], (in_dec string_dec a ["relu"; "relu6"; "swish"; "gelu"]) as [J|J]; try (exfalso; cbn in I, J; tauto); auto.
    destruct (in_dec string_dec a ["linear"; "softmax"; "sigmoid"; "tanh"]); reflexivity.
  - destruct (in_dec string_dec a ["relu"; "relu6"; "swish"]); auto. destruct (in_dec string_dec a ["linear"; "softmax"; "sigmoid"; "tanh"]); reflexivity.
Qed.
Print Assumptions C138_activation.
(** Whole models: each wrapper's config attaches the output quantizer and quantizes the weights that C44, C45, C83 and C87 speak of. *)
Theorem C138_wrappers : forall sch gen ik ueq n prefix already m ls st, quantize_apply sch gen ik ueq n prefix already m = Some (Ok (ls, st)) ->
  forall w p bw ba nm l u o, (sch = EightBit -> bw = 8 /\ ba = 8) -> In (Wrapped nm l u) ls -> (forall d, u <> Use (RegistryCfg "Activation" d) /\ u <> OutputOnly (RegistryCfg "Activation" d)) ->
  wrapper_config sch w p bw ba st (Wrapped nm l u) = Some (Ok o) ->
  (forall act b, quantizes_output u = Some b -> output_quantizers o act = Ok (if b then [MovingAverageQuantizer ba false false false] else [])) /\
  (forall ws, quantized_weights u = Some ws -> map fst (weight_quantizers o) = ws).
Proof. exact wrapped_means. Qed.
Print Assumptions C138_wrappers.
Example C138_ex : exists o, from_registry NBit world0 false 4 6 "Conv2D" = Ok o /\ weight_quantizers o = [("kernel", LastValueQuantizer CConvWeights 4 true true true)] /\
  exists o', wrapper_config NBit world0 false 4 6 (final_state NBit m_conv_cat) (nth 3 (out NBit 60 "quant_" m_conv_cat) (Unwrapped (ly "" "" [] []))) = Some (Ok o') /\
  output_quantizers o' None = Ok [] /\ map fst (weight_quantizers o') = ["kernel"].
Proof. eexists. split; [reflexivity|]. split; [reflexivity|]. eexists. split; [vm_compute; reflexivity|]. split; reflexivity. Qed.
