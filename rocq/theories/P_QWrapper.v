(** Properties C41 (forward passes do not modify weights), C42 (activation quantization), C76 (freezing).  Statements only. *)
From Coq Require Import String Permutation.
From Verif Require Import Base M_Num M_Tensor M_Quant S_Quant M_QWrapper S_QWrapper L_QWrapper L_QWrapper3.

(** ** C41 *)
(** For any history of forward passes, weight updates and (un)freezing: the stored weights are exactly what the updates
    made them; in every forward pass each quantized attribute holds its quantizer applied to the stored weight, every
    other attribute is as at construction, and the output is the layer's computation on these values followed by the
    activation and the output quantizer. *)
Theorem C41_effective_weights : forall cls c l0 vs st0 evs st1 w0 w1 training x o w2 st2,
  fresh c l0 vs -> build_wrapper cls c st0 l0 = Ok w0 ->
  run_wrapper st0 w0 evs = Ok (st1, w1) -> call_wrapper st1 w1 training x = Ok (o, w2, st2) ->
  st1 = last_store st0 evs /\ st2 = st1 /\
  (forall i a v, nth_error (qc_weight_attrs c) i = Some a -> nth_error vs i = Some v ->
     exists r y r', nth_error (w_vars w1) i = Some (v, weight_quantizer c, r) /\ call (weight_quantizer c) training r (st1 v) = Ok (y, r') /\
       getattr (w_layer w2) a = Ok (ATensor y) /\ nth_error (w_vars w2) i = Some (v, weight_quantizer c, r')) /\
  (forall a, ~ In a (qc_weight_attrs c) -> getattr (w_layer w2) a = getattr l0 a) /\
  exists h acts', run_acts (w_acts w1) training (match qc_activation_attrs c, l_act l0 with [], Some (_, f) => f (l_fwd l0 (values st1 (w_layer w2)) x) | _, _ => l_fwd l0 (values st1 (w_layer w2)) x end) = Ok (h, acts') /\
    match w_out w1 with None => o = h | Some (q, r) => exists r', call q training r h = Ok (o, r') end.
Proof. exact wrapper_effective. Qed.
Print Assumptions C41_effective_weights.
(** No history of forward passes raises, for the weight shapes the default configs are used with. *)
Theorem C41_never_fails : forall cls c st0 l vs evs, fresh c l vs ->
  (forall v, In v vs -> well_used (weight_quantizer c) (shape (st0 v))) -> supported_activation c l ->
  (forall st, In (Update st) evs -> same_shapes vs st0 st) ->
  exists w0 st w, build_wrapper cls c st0 l = Ok w0 /\ run_wrapper st0 w0 evs = Ok (st, w).
Proof. exact wrapper_never_fails. Qed.
Print Assumptions C41_never_fails.
(** QuantizeWrapperV2 (what quantize_apply uses): always the layer's own list, in its own order. *)
Theorem C41_trainable_v2 : forall c l0 vs st0 evs st1 w0 w1, fresh c l0 vs -> l_trainable l0 = true -> build_wrapper V2 c st0 l0 = Ok w0 ->
  run_wrapper st0 w0 evs = Ok (st1, w1) -> trainable_weights w1 = l_tracked l0.
Proof. exact v2_trainable. Qed.
Print Assumptions C41_trainable_v2.
(** The older QuantizeWrapper: each weight exactly once, after the first forward pass. *)
Theorem C41_trainable_v1_partial : forall c l0 vs st0 evs st1 w0 w1, fresh c l0 vs -> build_wrapper V1 c st0 l0 = Ok w0 ->
  run_wrapper st0 w0 evs = Ok (st1, w1) -> l_trainable (w_layer w1) = true -> has_forward evs -> Permutation (trainable_weights w1) (l_tracked l0).
Proof. exact v1_trainable. Qed.
Print Assumptions C41_trainable_v1_partial.
(** Before the first forward pass it lists every quantized weight twice. *)
Theorem C41_trainable_v1_refuted : forall c l0 vs st0 w0, fresh c l0 vs -> vs <> [] -> l_trainable l0 = true -> build_wrapper V1 c st0 l0 = Ok w0 ->
  trainable_weights w0 = (l_tracked l0 ++ vs)%list /\ ~ NoDup (trainable_weights w0).
Proof.
  intros c l0 vs st0 w0 F N T B. pose proof (v1_before_first_call c l0 vs st0 w0 F T B) as E. split; [exact E|]. rewrite E. destruct F as (_ & _ & _ & _ & I).
  destruct vs as [|v vs]; [congruence|]. intros Nd. apply NoDup_remove_2 in Nd. apply Nd. apply in_or_app. left. apply I. now left.
Qed.
Print Assumptions C41_trainable_v1_refuted.
(** A Dense-like layer: attribute 0 = kernel (variable 10), 1 = bias (variable 11), relu activation. *)
Definition dense : layer := mkLayer [(0, AVar 10); (1, AVar 11)] [10; 11] true (Some ("relu"%string, fun t => t))
  (fun vals x => match vals with (_, k) :: _ => k | [] => x end).
Definition dense_cfg : qat_config := mkQC CfgDense [0] [0] false.
Definition st_ex : store := fun v => if Nat.eqb v 10 then mkT [1; 2] [1%Q; (-2)%Q] else mkT [2] [0%Q; 0%Q].
Example C41_ex : fresh dense_cfg dense [10] /\ supported_activation dense_cfg dense /\ well_used (weight_quantizer dense_cfg) (shape (st_ex 10)) /\
  exists w0 w o, build_wrapper V2 dense_cfg st_ex dense = Ok w0 /\ call_wrapper st_ex w0 true (mkT [1] [0%Q]) = Ok (o, w, st_ex) /\ trainable_weights w = [10; 11] /\ l_tracked (w_layer w) = [11].
Proof.
  split; [repeat split|split; [|split; [split; cbn; [auto|lia]|]]].
  - constructor; [reflexivity|constructor].
  - repeat constructor; cbn; tauto.
  - repeat constructor; cbn; intuition discriminate.
  - repeat constructor; cbn; tauto.
  - intros a [<-|[]]. now left.
  - right. do 2 eexists. split; [reflexivity|]. discriminate.
  - do 3 eexists. split; [reflexivity|]. split; [reflexivity|]. split; reflexivity.
Qed.

(** ** C42 *)
Theorem C42_rejected : forall name f q, declared name = None -> QuantizeAwareActivation name f q = Err ValueError.
Proof. exact activation_rejected. Qed.
Print Assumptions C42_rejected.
(** Over any history of calls in any modes the activation behaves as declared, each quantization point with its own range. *)
Theorem C42_as_declared : forall name f q pre post r, declared name = Some (pre, post) -> build q None = Ok r ->
  exists a, QuantizeAwareActivation name f q = Ok a /\
  forall calls, match act_run a calls with Ok (ys, _) => declared_run pre post f q r r calls = Ok ys | Err e => declared_run pre post f q r r calls = Err e end.
Proof. exact activation_history. Qed.
Print Assumptions C42_as_declared.
(** keras.layers.Activation layers: the output is quantized iff the function is relu, swish, gelu or relu6. *)
Theorem C42_activation_layer : forall quantize_output name qs, activation_layer_output_quantizers quantize_output name = Ok qs ->
  qs = (if (quantize_output && match name with Some m => in_set m ["relu"; "swish"; "gelu"; "relu6"]%string | None => false end)%bool then [MovingAverageQuantizer 8 false false false] else []).
Proof. exact activation_layer_output. Qed.
Print Assumptions C42_activation_layer.
Example C42_ex : declared "gelu" = Some (true, true) /\ declared "relu6" = None /\
  exists a ys a', QuantizeAwareActivation "gelu" (fun t => t) (MovingAverageQuantizer 8 false false false) = Ok a /\ act_run a [(true, mkT [2] [1%Q; 2%Q]); (false, mkT [2] [1%Q; 2%Q])] = Ok (ys, a').
Proof. split; [reflexivity|]. split; [reflexivity|]. do 3 eexists. split; reflexivity. Qed.

(** ** C76 *)
(** Whatever happened before, freezing a wrapper leaves quantized weights (V2: all weights) in its trainable list. *)
Theorem C76_freezing_refuted : forall cls c l0 vs st0 evs st1 w0 w1, fresh c l0 vs -> l_trainable l0 = true -> build_wrapper cls c st0 l0 = Ok w0 ->
  run_wrapper st0 w0 evs = Ok (st1, w1) -> trainable_weights (set_trainable w1 false) = match cls with V1 => vs | V2 => l_tracked l0 end.
Proof. exact frozen_trainable. Qed.
Print Assumptions C76_freezing_refuted.

(** ** C134 *)
(** Tensors that fit the declared weight attributes one by one are accepted, and then each attribute holds its own tensor and
    every other attribute, the forward function, the activation and the trainable flag are unchanged. *)
Theorem C134_accepted : forall c st l ws, NoDup (qc_weight_attrs c) -> List.length ws = List.length (qc_weight_attrs c) ->
  (forall i a w, nth_error (qc_weight_attrs c) i = Some a -> nth_error ws i = Some w -> exists cur, getattr l a = Ok cur /\ shape (value st cur) = shape w) ->
  exists l', set_quantize_weights c st l ws = Ok l' /\
    (forall i a w, nth_error (qc_weight_attrs c) i = Some a -> nth_error ws i = Some w -> getattr l' a = Ok (ATensor w)) /\
    (forall a, ~ In a (qc_weight_attrs c) -> getattr l' a = getattr l a) /\ l_fwd l' = l_fwd l /\ l_act l' = l_act l /\ l_trainable l' = l_trainable l.
Proof.
  intros c st l ws N L H. unfold set_quantize_weights. rewrite L, Nat.eqb_refl. cbn [negb].
  destruct (set_weights_ok st _ l ws N (eq_sym L) H) as [l' E]. exists l'. split; [exact E|].
  destruct (set_weights_spec st _ l ws l' N (eq_sym L) E) as (A & B & C & D & F & _). auto.
Qed.
Print Assumptions C134_accepted.
(** Anything else is refused: a wrong number of tensors and a tensor of another shape with a ValueError, a missing attribute
    with an AttributeError. *)
Theorem C134_refused : forall c st l ws, NoDup (qc_weight_attrs c) ->
  (List.length ws <> List.length (qc_weight_attrs c) -> set_quantize_weights c st l ws = Err ValueError) /\
  (List.length ws = List.length (qc_weight_attrs c) ->
   (exists i a w cur, nth_error (qc_weight_attrs c) i = Some a /\ nth_error ws i = Some w /\ getattr l a = Ok cur /\ shape (value st cur) <> shape w) ->
   (forall a, In a (qc_weight_attrs c) -> getattr l a <> Err AttributeError) -> set_quantize_weights c st l ws = Err ValueError) /\
  (List.length ws = List.length (qc_weight_attrs c) -> (exists a, In a (qc_weight_attrs c) /\ getattr l a = Err AttributeError) ->
   (forall i a w cur, nth_error (qc_weight_attrs c) i = Some a -> nth_error ws i = Some w -> getattr l a = Ok cur -> shape (value st cur) = shape w) ->
   set_quantize_weights c st l ws = Err AttributeError).
Proof.
  intros c st l ws N. unfold set_quantize_weights. split; [|split].
  - intros L. destruct (Nat.eqb_spec (List.length (qc_weight_attrs c)) (List.length ws)); [congruence|reflexivity].
  - intros L (i & a & w & cur & Ha & Hw & G & D) M. rewrite L, Nat.eqb_refl. cbn [negb].
    destruct (set_weights st l (qc_weight_attrs c) ws) as [l'|e] eqn:E.
    + exfalso. exact (D (accepted_shapes st _ l ws l' N (eq_sym L) E i a w cur Ha Hw G)).
    + destruct (set_weights_errors st _ l ws e N (eq_sym L) E) as (j & b & u & Hb & Hu & [[-> K] | [-> _]]); [|reflexivity].
      exfalso. exact (M b (nth_error_In _ _ Hb) K).
  - intros L (a & Ia & G) M. rewrite L, Nat.eqb_refl. cbn [negb].
    destruct (set_weights st l (qc_weight_attrs c) ws) as [l'|e] eqn:E.
    + exfalso. destruct (In_nth_error _ _ Ia) as [i Hi]. exact (accepted_present st _ l ws l' N (eq_sym L) E i a Hi G).
    + destruct (set_weights_errors st _ l ws e N (eq_sym L) E) as (j & b & u & Hb & Hu & [[-> K] | [-> (cur & K & D)]]); [reflexivity|].
      exfalso. exact (D (M j b u cur Hb Hu K)).
Qed.
Print Assumptions C134_refused.
Example C134_ex : is_ok (set_quantize_weights dense_cfg st_ex dense [mkT (shape (st_ex 10)) (data (st_ex 10))]) = true /\
  set_quantize_weights dense_cfg st_ex dense [mkT [7] (repeat 0%Q 7)] = Err ValueError /\
  set_quantize_weights dense_cfg st_ex dense [] = Err ValueError /\ set_quantize_weights (mkQC CfgDense [99] [] false) st_ex dense [mkT [7] (repeat 0%Q 7)] = Err AttributeError.
Proof. repeat split; reflexivity. Qed.
