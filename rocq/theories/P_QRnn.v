(** Property C132: quantizing RNN layers.  Statements only. *)
From Coq Require Import String.
From Verif Require Import Base M_Num M_Tensor M_Quant M_QWrapper M_QRnn S_QWrapper S_QRnn L_QRnn.
Open Scope string_scope.
Open Scope list_scope.
Open Scope nat_scope.

(** With one list of attributes per cell, building and every forward pass succeed, after any history; then each declared
    weight attribute of each cell holds the quantized current value of the variable it held originally, each declared
    activation attribute holds a quantize-aware version of the original activation (never a nested one), and nothing
    else changed. *)
Theorem C132_forward_partial : forall c st0 h l evs tr, 2 <= rq_weight_bits c <= 16 -> one_list_per_cell (rq_weight_attrs c) l -> one_list_per_cell (rq_activation_attrs c) l ->
  suits c st0 h l -> keeps_shapes st0 evs ->
  exists w0 w1 w2, build_rq c st0 h l = Ok w0 /\ run_rq st0 w0 evs = Ok (final_store st0 evs, w1) /\ call_rq (final_store st0 evs) w1 tr = Ok w2 /\
    (forall d a v, declared_for (rq_weight_attrs c) l d a -> holds_weight h d a (AVar v) ->
       exists r y r', In (v, rnn_weight_quantizer (rq_weight_bits c), r) (rw_vars w1) /\ call (rnn_weight_quantizer (rq_weight_bits c)) tr r (final_store st0 evs v) = Ok (y, r') /\ holds_weight (rw_heap w2) d a (ATensor y)) /\
    (forall d a n f, declared_for (rq_activation_attrs c) l d a -> holds_act h d a (Raw n f) ->
       exists k qa, holds_act (rw_heap w2) d a (Aware k) /\ nth_error (rw_acts w2) k = Some qa /\ a_name qa = n /\ a_fun qa = f /\ a_quantizer qa = rnn_activation_quantizer (rq_act_bits c)) /\
    (forall d a, ~ declared_for (rq_weight_attrs c) l d a -> get_weight (rw_heap w2) d a = get_weight h d a) /\
    (forall d a, ~ declared_for (rq_activation_attrs c) l d a -> get_act (rw_heap w2) d a = get_act h d a).
Proof. exact rq_forward. Qed.
Print Assumptions C132_forward_partial.

(** Two LSTM-like cells (1, 2) in a stack. *)
Definition lstm_cell (k : nat) : rcell := mkRC [("kernel", AVar k); ("recurrent_kernel", AVar (k + 1)); ("bias", AVar (k + 2))] [("activation", Raw "tanh" (fun t => t)); ("recurrent_activation", Raw "sigmoid" (fun t => t))].
Definition rnn_heap : rheap := fun c => lstm_cell (10 * c).
Definition two_cells : rqcfg := mkRQ [["kernel"; "recurrent_kernel"]; ["kernel"]] [["activation"]; ["activation"; "recurrent_activation"]] 8 8.
Definition rnn_store : store := fun v => mkT [1; 2] [inject_Z (Z.of_nat v); (-2)%Q].
Example C132_ex : one_list_per_cell (rq_weight_attrs two_cells) (Stacked [1; 2]) /\ one_list_per_cell (rq_activation_attrs two_cells) (Stacked [1; 2]) /\ suits two_cells rnn_store rnn_heap (Stacked [1; 2]) /\
  (do w0 <- build_rq two_cells rnn_store rnn_heap (Stacked [1; 2]) ;; do w <- call_rq rnn_store w0 true ;;
   Ok (map (fun c => map (fun p => match snd p with AVar v => inl v | ATensor t => inr (map Qred (data t)) end) (rc_weights (rw_heap w c))) [1; 2],
       map (fun c => map (fun p => match snd p with Aware k => Some k | Raw _ _ => None end) (rc_acts (rw_heap w c))) [1; 2]))
  = Ok ([[inr [10%Q; (-250 # 127)%Q]; inr [11%Q; (-253 # 127)%Q]; inl 12]; [inr [20%Q; (-260 # 127)%Q]; inl 21; inl 22]], [[Some 0; None]; [Some 1; Some 2]]).
Proof.
  assert (O : forall x y : list string, one_list_per_cell [x; y] (Stacked [1; 2])).
  { intros x y. split; [discriminate|]. intros i. split.
    - intros (c & H). inversion H as [|? ? ? E]. destruct i as [|[|[|i]]]; cbn in *; try lia; discriminate.
    - cbn. intros L. destruct i as [|[|i]]; [exists 1; now constructor|exists 2; now constructor|lia]. }
  split; [apply O|]. split; [apply O|]. split; [split|].
  - intros d a (i & l & Hc & Hl & Hin). inversion Hc as [|? ? ? E]; subst. destruct i as [|[|[|i]]]; try discriminate; injection E as <-; injection Hl as <-; cbn in Hin; repeat (destruct Hin as [<-|Hin]; [eexists; split; reflexivity|]); destruct Hin.
  - intros d a (i & l & Hc & Hl & Hin). inversion Hc as [|? ? ? E]; subst. destruct i as [|[|[|i]]]; try discriminate; injection E as <-; injection Hl as <-; cbn in Hin; repeat (destruct Hin as [<-|Hin]; [do 2 eexists; split; [reflexivity|discriminate]|]); destruct Hin.
  - vm_compute. reflexivity.
Qed.

(** A config with more lists than the layer has cells builds, and then every forward pass raises. *)
Theorem C132_extra_list_refuted : exists c st h l w0, build_rq c st h l = Ok w0 /\ suits c st h l /\ forall tr, call_rq st w0 tr = Err ValueError.
Proof.
  set (c := mkRQ [["kernel"]; ["kernel"]] [[]; []] 8 8).
  assert (X : match build_rq c rnn_store rnn_heap (OneCell 1) with Ok w0 => match call_rq rnn_store w0 true, call_rq rnn_store w0 false with Err ValueError, Err ValueError => true | _, _ => false end | Err _ => false end = true) by (vm_compute; reflexivity).
  exists c, rnn_store, rnn_heap, (OneCell 1). destruct (build_rq c rnn_store rnn_heap (OneCell 1)) as [w0|]; [|discriminate X]. exists w0. split; [reflexivity|]. split.
  - split.
    + intros d a (i & l & Hc & Hl & Hin). inversion Hc; subst. injection Hl as <-. destruct Hin as [<-|[]]. eexists; split; reflexivity.
    + intros d a (i & l & Hc & Hl & Hin). inversion Hc; subst. injection Hl as <-. destruct Hin.
  - intros tr. destruct (call_rq rnn_store w0 true) as [|[]] eqn:E1; try discriminate X; destruct (call_rq rnn_store w0 false) as [|[]] eqn:E; try discriminate X; destruct tr; [exact E1|exact E].
Qed.
Print Assumptions C132_extra_list_refuted.
(** A config with fewer lists is accepted too: the last cells are silently left alone. *)
Theorem C132_missing_list_refuted : exists c st h w0 w1, suits c st h (Stacked [1; 2]) /\ rq_weight_attrs c = [["kernel"]] /\
  build_rq c st h (Stacked [1; 2]) = Ok w0 /\ call_rq st w0 true = Ok w1 /\ exists v, get_weight h 2 "kernel" = Ok (AVar v) /\ get_weight (rw_heap w1) 2 "kernel" = Ok (AVar v).
Proof.
  set (c := mkRQ [["kernel"]] [[]] 8 8).
  assert (X : match build_rq c rnn_store rnn_heap (Stacked [1; 2]) with Ok w0 => match call_rq rnn_store w0 true with Ok w1 => match get_weight (rw_heap w1) 2 "kernel" with Ok (AVar 20) => true | _ => false end | _ => false end | Err _ => false end = true) by (vm_compute; reflexivity).
  exists c, rnn_store, rnn_heap. destruct (build_rq c rnn_store rnn_heap (Stacked [1; 2])) as [w0|]; [|discriminate X]. destruct (call_rq rnn_store w0 true) as [w1|] eqn:E1; [|discriminate X]. exists w0, w1. split.
  - split.
    + intros d a (i & l & Hc & Hl & Hin). inversion Hc; subst. destruct i as [|[|i]]; try discriminate. injection Hl as <-. destruct Hin as [<-|[]]. eexists; split; reflexivity.
    + intros d a (i & l & Hc & Hl & Hin). inversion Hc; subst. destruct i as [|[|i]]; try discriminate. injection Hl as <-. destruct Hin.
  - split; [reflexivity|]. split; [reflexivity|]. split; [exact E1|]. exists 20. split; [reflexivity|].
    destruct (get_weight (rw_heap w1) 2 "kernel") as [[v|]|]; try discriminate X. do 20 (destruct v as [|v]; [discriminate X|]). destruct v; [reflexivity|discriminate X].
Qed.
Print Assumptions C132_missing_list_refuted.
(** set_quantize_weights is not atomic: when a later weight has the wrong shape it raises with the earlier ones replaced. *)
Theorem C132_atomic_refuted : exists c st h l ws h', set_quantize_weights c st h l ws = (h', Err ValueError) /\ get_weight h' 1 "kernel" <> get_weight h 1 "kernel".
Proof.
  exists two_cells, rnn_store, rnn_heap, (Stacked [1; 2]), [rnn_store 5; mkT [2] [0%Q; 0%Q]; rnn_store 6]. eexists. split; [reflexivity|]. discriminate.
Qed.
Print Assumptions C132_atomic_refuted.
(** Bidirectional layers, which have no [cell] attribute, cannot be quantized with this config. *)
Theorem C132_bidirectional_refuted : forall c st h, build_rq c st h NoCell = Err AttributeError.
Proof. reflexivity. Qed.
Print Assumptions C132_bidirectional_refuted.
