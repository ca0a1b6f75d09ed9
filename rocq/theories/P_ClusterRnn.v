(** Properties C128-C131: clustering RNN layers.  Statements only. *)
From Coq Require Import String.
From Verif Require Import Base M_Tensor M_Num M_Stages M_Cluster M_ClusterWrapper M_Compat M_ClusterRnn S_Cluster S_ClusterWrapper S_ClusterRnn L_Cluster L_ClusterRnn L_ClusterRnn4.
Open Scope string_scope.
Open Scope list_scope.
Open Scope nat_scope.

(** ** C128: names *)
(** The wrapper finds under every registered name the weight that was registered with it (even if a cell occurs twice). *)
Theorem C128_names_resolve : forall h l ws n a, library_layer l -> get_clusterable_weights h l = Ok ws -> In (n, a) ws -> get_weight_from_layer h l n = Ok a.
Proof. exact names_resolve. Qed.
Print Assumptions C128_names_resolve.
(** Only kernels and recurrent kernels of cells the layer runs are registered, under the position of the cell ... *)
Theorem C128_only_cell_matrices : forall h l ws n a, library_layer l -> get_clusterable_weights h l = Ok ws -> In (n, a) ws ->
  exists attr i c, clusterable_attr attr /\ n = indexed attr i /\ has_cell h l i c /\ get_attr (c_attrs (h c)) attr = Ok a.
Proof. exact names_are. Qed.
Print Assumptions C128_only_cell_matrices.
(** ... and no cell is left out. *)
Theorem C128_every_cell : forall h l ws i c attr, get_clusterable_weights h l = Ok ws -> has_cell h l i c -> clusterable_attr attr ->
  exists a j, get_attr (c_attrs (h c)) attr = Ok a /\ has_cell h l j c /\ In (indexed attr j, a) ws.
Proof. exact every_weight. Qed.
Print Assumptions C128_every_cell.
Theorem C128_names_distinct : forall h l ws, library_layer l -> distinct_cells h l -> get_clusterable_weights h l = Ok ws -> NoDup (map fst ws).
Proof. exact names_distinct. Qed.
Print Assumptions C128_names_distinct.

(** Two built LSTM cells in a stack (object 0), a stack that runs the same cell twice (9) and a custom cell (8). *)
Definition lstm (k : nat) : cell := mkCell LSTMCell [("kernel", Var k); ("recurrent_kernel", Var (k + 1)); ("bias", Var (k + 2))].
Definition some_heap : heap := fun c =>
  match c with
  | 0 => mkCell (StackedRNNCells [1; 2]) []
  | 1 => lstm 10 | 2 => lstm 20
  | 8 => mkCell (CustomCell false) [("kernel", Var 30)]
  | 9 => mkCell (StackedRNNCells [1; 1]) []
  | _ => mkCell GRUCell [("kernel", Var (100 * c)); ("recurrent_kernel", Var (100 * c + 1))]
  end.
Definition some_values (v : nat) : tensor Q := mkT [3] [inject_Z (Z.of_nat v); 1; -2 # 1]%Q.
Definition rnn_cfg : ccfg := mkCfg 2 Linear false false SUM ChannelsLast.
Example C128_ex : map fst (match get_clusterable_weights some_heap (RnnLayer true 0) with Ok ws => ws | Err _ => [] end) = ["kernel/0"; "recurrent_kernel/0"; "kernel/1"; "recurrent_kernel/1"] /\
  get_weight_from_layer some_heap (RnnLayer true 0) "recurrent_kernel/1" = Ok (Var 21) /\ distinct_cells some_heap (RnnLayer true 0).
Proof.
  split; [reflexivity|]. split; [reflexivity|]. intros i j c Hi Hj. inversion Hi as [? ? N|? ? cs ? ? E Ei| |]; subst; [exfalso; eapply N; reflexivity|]. inversion Hj as [? ? N|? ? cs' ? ? E' Ej| |]; subst; [exfalso; eapply N; reflexivity|].
  injection E as <-. injection E' as <-. destruct i as [|[|i]]; destruct j as [|[|j]]; cbn in *; try congruence; try (destruct i; discriminate); destruct j; discriminate.
Qed.
(** Names of cells the layer does not have are refused. *)
Theorem C128_other_names : forall h attr i, clusterable_attr attr ->
  (forall f b, 1 < i -> get_weight_from_layer h (Bidirectional f b) (indexed attr i) = Err ValueError) /\
  (forall k c cs, c_class (h c) = StackedRNNCells cs -> List.length cs <= i -> get_weight_from_layer h (RnnLayer k c) (indexed attr i) = Err IndexError) /\
  (forall c, get_weight_from_layer h (CellLayer c) (indexed attr i) = Err ValueError).
Proof. exact other_names. Qed.
Print Assumptions C128_other_names.
(** A cell that occurs twice is registered twice under one name. *)
Theorem C128_shared_cell_refuted : exists h l ws, library_layer l /\ (forall i c, has_cell h l i c -> exists k r bias, keras_cell h c k r bias) /\ get_clusterable_weights h l = Ok ws /\ ~ NoDup (map fst ws).
Proof.
  exists some_heap, (RnnLayer true 9). eexists. split; [discriminate|]. split.
  - intros i c H. inversion H as [? ? N|? ? cs ? ? E Ei| |]; subst; [exfalso; eapply N; reflexivity|]. injection E as <-. exists 10, 11, [12]. destruct i as [|[|[|i]]]; try discriminate; injection Ei as <-; (split; [now left|split; [cbn; lia|reflexivity]]).
  - split; [reflexivity|]. intros Nd. inversion Nd as [|? ? N1 N2]. apply N1. cbn. tauto.
Qed.
Print Assumptions C128_shared_cell_refuted.

(** ** C129: a forward pass *)
(** After any history of training steps and forward passes, every cell of the layer computes with the clustering of its
    own kernel and its own recurrent kernel and with its own bias variable; other cells are untouched. *)
Theorem C129_forward : forall cfg st h l s0 evs, accepted cfg -> cluster_per_channel cfg = false -> (forall v, wf (st v)) -> keras_layer h l ->
  rnn_build cfg st h l = Ok s0 -> Forall (fits (r_w s0)) evs ->
  exists s1 s2, rnn_run s0 evs = Ok s1 /\ rnn_step s1 Forward = Ok s2 /\
    (forall i c k r bias, has_cell h l i c -> keras_cell h c k r bias ->
       exists tk tr, c_attrs (r_heap s2 c) = ("kernel", Tens tk) :: ("recurrent_kernel", Tens tr) :: map (fun b => ("bias", Var b)) bias /\
         clusters_of cfg s2 k tk /\ clusters_of cfg s2 r tr) /\
    (forall c, (forall i, ~ has_cell h l i c) -> r_heap s2 c = h c).
Proof. exact rnn_forward. Qed.
Print Assumptions C129_forward.
Lemma some_keras l : l = RnnLayer true 0 \/ l = Bidirectional 1 2 -> keras_layer some_heap l.
Proof.
  intros L. assert (HC : forall i c, has_cell some_heap l i c -> (i = 0 /\ c = 1) \/ (i = 1 /\ c = 2)).
  { intros i c H. destruct L as [-> | ->]; inversion H as [? ? N|? ? cs ? ? E Ei| |]; subst; auto; [exfalso; eapply N; reflexivity|]. injection E as <-. destruct i as [|[|[|i]]]; try discriminate; injection Ei as <-; auto. }
  split; [destruct L as [-> | ->]; [left|right]; eauto|]. split.
  - intros i c H. destruct (HC i c H) as [[-> ->]|[-> ->]]; [exists 10, 11, [12]|exists 20, 21, [22]]; (split; [now left|split; [cbn; lia|reflexivity]]).
  - intros i j c d p q a b v Hi Hj Hp Hq. destruct (HC i c Hi) as [[-> ->]|[-> ->]], (HC j d Hj) as [[-> ->]|[-> ->]];
      destruct p as [|[|[|[|p]]]]; cbn in Hp; try discriminate; destruct q as [|[|[|[|q]]]]; cbn in Hq; try discriminate; injection Hp as <- <-; try discriminate; auto.
Qed.
Lemma some_wf v : wf (some_values v). Proof. reflexivity. Qed.
Example C129_ex : accepted rnn_cfg /\ keras_layer some_heap (RnnLayer true 0) /\ keras_layer some_heap (Bidirectional 1 2) /\
  (do s0 <- rnn_build rnn_cfg some_values some_heap (RnnLayer true 0) ;; do s2 <- rnn_step s0 Forward ;;
   Ok (map (fun p => match snd p with Tens t => map Qred (data t) | Var v => [] end) (c_attrs (r_heap s2 2)))) = Ok [[20; -2 # 1; -2 # 1]; [21; -2 # 1; -2 # 1]; []]%Q.
Proof.
  split; [split; [exact Logic.I|cbn; lia]|]. split; [apply some_keras; auto|]. split; [apply some_keras; auto|]. vm_compute. reflexivity.
Qed.

(** ** C130: strip_clustering *)
(** The stripped layer has one cell for every cell of the wrapped one, with the same weight names, and each of its weights
    is exactly what the wrapped layer's cell computes with after its last forward pass. *)
Theorem C130_stripped_partial : forall cfg st h l s0 evs, accepted cfg -> cluster_per_channel cfg = false -> (forall v, wf (st v)) -> keras_layer h l ->
  rnn_build cfg st h l = Ok s0 -> Forall (fits (r_w s0)) evs ->
  exists s1 s2 clean, rnn_run s0 evs = Ok s1 /\ rnn_step s1 Forward = Ok s2 /\ rnn_strip s1 = Ok clean /\
    (forall i, (exists c, has_cell h l i c) <-> i < List.length clean) /\
    forall i c row, has_cell h l i c -> nth_error clean i = Some row ->
      map fst row = map fst (c_attrs (h c)) /\ forall a t, In (a, t) row -> cell_uses s2 c a t.
Proof. exact rnn_stripped. Qed.
Print Assumptions C130_stripped_partial.
Example C130_ex : (do s0 <- rnn_build rnn_cfg some_values some_heap (Bidirectional 1 2) ;; do clean <- rnn_strip s0 ;;
  Ok (map (map (fun p => (fst p, map Qred (data (snd p))))) clean)) =
    Ok [[("kernel", [10; -2 # 1; -2 # 1]); ("recurrent_kernel", [11; -2 # 1; -2 # 1]); ("bias", [12; 1; -2 # 1])];
     [("kernel", [20; -2 # 1; -2 # 1]); ("recurrent_kernel", [21; -2 # 1; -2 # 1]); ("bias", [22; 1; -2 # 1])]]%Q.
Proof. vm_compute. reflexivity. Qed.
(** A stack that runs one cell object twice is wrapped, built and trained, but cannot be stripped: Keras lists its
    variables once while the clean layer expects the weights of two cells. *)
Theorem C130_shared_cell_refuted : exists cfg st h l s0 s1, accepted cfg /\ (forall v, wf (st v)) /\ (forall i c, has_cell h l i c -> exists k r bias, keras_cell h c k r bias) /\
  rnn_build cfg st h l = Ok s0 /\ rnn_step s0 Forward = Ok s1 /\ rnn_strip s1 = Err ValueError.
Proof.
  assert (X : match rnn_build rnn_cfg some_values some_heap (RnnLayer true 9) with
              | Ok s0 => match rnn_step s0 Forward with Ok s1 => match rnn_strip s1 with Err ValueError => true | _ => false end | Err _ => false end
              | Err _ => false end = true) by (vm_compute; reflexivity).
  destruct (rnn_build rnn_cfg some_values some_heap (RnnLayer true 9)) as [s0|] eqn:E0; [|discriminate X]. destruct (rnn_step s0 Forward) as [s1|] eqn:E1; [|discriminate X].
  exists rnn_cfg, some_values, some_heap, (RnnLayer true 9), s0, s1. split; [split; [exact Logic.I|cbn; lia]|]. split; [exact some_wf|]. split.
  - intros i c H. inversion H as [? ? N|? ? cs ? ? E Ei| |]; subst; [exfalso; eapply N; reflexivity|]. injection E as <-. exists 10, 11, [12]. destruct i as [|[|[|i]]]; try discriminate; injection Ei as <-; (split; [now left|split; [cbn; lia|reflexivity]]).
  - split; [exact E0|]. split; [exact E1|]. destruct (rnn_strip s1) as [|[]]; try discriminate X. reflexivity.
Qed.
Print Assumptions C130_shared_cell_refuted.

(** ** C131: a layer that cluster_weights accepts can be built *)
Theorem C131_keras_layers_build_partial : forall cfg st h l, keras_layer h l -> cluster_centroids_init cfg = Linear -> cluster_per_channel cfg = false -> preserve_sparsity cfg = false ->
  (2 <= number_of_clusters cfg)%Z -> (forall v, wf (st v)) -> (forall v, data (st v) <> []) ->
  accepts h l = true /\ exists s0, rnn_build cfg st h l = Ok s0.
Proof. intros cfg st h l KL E1 E2 E3 Hn W D. split; [now apply (build_keras h l)|]. now apply builds_linear. Qed.
Print Assumptions C131_keras_layers_build_partial.
(** A Keras RNN layer is refused at once exactly when its class is not one of the built-in ones (ConvLSTM2D) or one of the
    cells it runs is of a user's class. *)
Theorem C131_refused : forall h b c, accepts h (RnnLayer b c) = false <-> b = false \/ exists i d k, has_cell h (RnnLayer b c) i d /\ c_class (h d) = CustomCell k.
Proof. exact rnn_refused. Qed.
Print Assumptions C131_refused.
(** Bidirectional is accepted whatever its cells are: with stacked cells building fails (a stack has no kernel) ... *)
Theorem C131_bidirectional_stack_refuted : forall cfg st h f b cs, c_class (h f) = StackedRNNCells cs -> c_attrs (h f) = [] ->
  accepts h (Bidirectional f b) = true /\ rnn_build cfg st h (Bidirectional f b) = Err AttributeError.
Proof. intros cfg st h f b cs E A. split; [reflexivity|]. unfold rnn_build. cbn. unfold cell_weights. rewrite E, A. reflexivity. Qed.
Print Assumptions C131_bidirectional_stack_refuted.
(** ... and with a custom cell, which an RNN layer refuses right away, too. *)
Theorem C131_bidirectional_custom_refuted : forall cfg st h f b k, c_class (h f) = CustomCell k ->
  accepts h (Bidirectional f b) = true /\ rnn_build cfg st h (Bidirectional f b) = Err ValueError /\ accepts h (RnnLayer true f) = false.
Proof. intros cfg st h f b k E. split; [reflexivity|]. unfold rnn_build. cbn. unfold cell_weights. rewrite E. cbn. rewrite E. split; reflexivity. Qed.
Print Assumptions C131_bidirectional_custom_refuted.
(** A stack inside a stack is accepted and fails. *)
Theorem C131_nested_stack_refuted : forall cfg st h c d cs ds, c_class (h c) = StackedRNNCells (d :: cs) -> c_class (h d) = StackedRNNCells ds -> c_attrs (h d) = [] ->
  (forall e, In e cs -> supported_cell (c_class (h e)) = true) ->
  accepts h (RnnLayer true c) = true /\ rnn_build cfg st h (RnnLayer true c) = Err AttributeError.
Proof.
  intros cfg st h c d cs ds Ec Ed Ad Hs. assert (A : accepts h (RnnLayer true c) = true).
  { cbn. rewrite Ec. cbn. rewrite Ed. cbn. apply forallb_forall. intros e He. now apply Hs. }
  split; [exact A|]. unfold rnn_build. rewrite A. cbn [negb]. unfold get_clusterable_weights. cbn [get_rnn_cells]. rewrite Ec. destruct (1 <? _); cbn [mapM]; unfold cell_weights; rewrite Ed, Ad; reflexivity.
Qed.
Print Assumptions C131_nested_stack_refuted.
(** A cell object itself is accepted and fails when it has weights. *)
Theorem C131_cell_layer_refuted : forall cfg st h c k v, c_class (h c) = LSTMCell -> In (k, Var v) (c_attrs (h c)) ->
  accepts h (CellLayer c) = true /\ rnn_build cfg st h (CellLayer c) = Err KeyError.
Proof.
  intros cfg st h c k v E Hin. assert (X : existsb (fun p => is_var (snd p)) (c_attrs (h c)) = true) by (apply existsb_exists; exists (k, Var v); auto).
  split; [cbn; now rewrite X, E|]. unfold rnn_build. cbn. rewrite X, E. reflexivity.
Qed.
Print Assumptions C131_cell_layer_refuted.
(** A user's own clusterable RNN class that lists a weight under its attribute name, as ClusterableLayer asks for, fails. *)
Theorem C131_user_rnn_refuted : forall cfg st h c attr a rest, clusterable_attr attr ->
  accepts h (UserRnn c ((attr, a) :: rest)) = true /\ rnn_build cfg st h (UserRnn c ((attr, a) :: rest)) = Err IndexError.
Proof.
  intros cfg st h c attr a rest Ha. split; [reflexivity|]. unfold rnn_build. cbn [accepts negb get_clusterable_weights bind mapM]. unfold build_rvar at 1. cbn [fst]. unfold get_weight_from_layer, resolve, name_without_index.
  rewrite split_none by now apply no_slash_attr. reflexivity.
Qed.
Print Assumptions C131_user_rnn_refuted.
Example C131_ex : c_class (some_heap 0) = StackedRNNCells [1; 2] /\ c_class (some_heap 8) = CustomCell false /\ c_class (some_heap 1) = LSTMCell /\
  is_ok (rnn_build rnn_cfg some_values some_heap (Bidirectional 1 2)) = true /\ accepts some_heap (RnnLayer true 8) = false /\ accepts some_heap (RnnLayer false 1) = false.
Proof. repeat split. Qed.
