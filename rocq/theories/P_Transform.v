(** Theorems about the model transformer (C46, C47). *)
From Coq Require Import String.
From Verif Require Import Base M_Tensor M_Transform S_Transform L_Transform L_Transform2 L_Transform3 L_Transform4 L_Transform5 L_Transform6 L_Transform7 L_Transform8 L_Transform9 L_Transform10.
Open Scope string_scope.
Open Scope nat_scope.

(** C46.  What a match is: an instance of the pattern, made of layers of the model that are all allowed (candidates, or the
    candidate set is empty) with the weights and metadata on record; its head was not matched before. *)
Theorem C46_match_sound : forall k st p matched m, find_pattern k st p matched = Ok (Some m) ->
  satisfies p m /\ ~ In (n_name m) matched /\
  forall x, node_in x m -> In (n_layer x) (s_layers st) /\ (s_cand st = [] \/ In (n_name x) (s_cand st)) /\
    n_weights x = get_weights st (n_name x) /\ n_nw x = get_nw st (n_name x) /\ n_meta x = get_meta st (n_name x).
Proof.
  intros k st p matched m F. split; [eapply find_satisfies; eauto|]. apply find_pattern_tree in F as [M N]. split; auto. intros x X.
  destruct (mtree_good _ _ _ _ x M X) as (h & A & B & C & D & E & _). repeat split; auto. unfold candidate in B. destruct (s_cand st); auto. right. now apply inb_In.
Qed.
(** C46.  One replacement: layers outside the match stay, with class, name, configuration and weights; in a functional model
    they read what they read before, with the replacement's head in place of the matched head, as do the model's outputs; the
    replacement's layers are there with the weights the transform gave them; there are no other layers. *)
Theorem C46_replace_effect : forall k st m r st', maps_ok st -> names_ok st m r -> replace k st m r = Ok st' ->
  (forall l, In l (s_layers st) -> ~ In (lc_name l) (layer_names m) -> exists l', In l' (s_layers st') /\ same_layer l l' /\
     (match k with Functional => redirected (n_name m) (n_name r) l l' | Sequential => l' = l end) /\
     get_weights st' (lc_name l) = get_weights st (lc_name l) /\ get_nw st' (lc_name l) = get_nw st (lc_name l) /\ get_meta st' (lc_name l) = get_meta st (lc_name l)) /\
  (forall x, node_in x r -> exists l', In l' (s_layers st') /\ same_layer (n_layer x) l' /\ get_weights st' (n_name x) = n_weights x /\ get_nw st' (n_name x) = n_nw x) /\
  (forall n, In n (names st') <-> (In n (names st) /\ ~ In n (layer_names m)) \/ In n (layer_names r)) /\
  map c_name (s_outputs st') = map (fun n => match k with Functional => if String.eqb n (n_name m) then n_name r else n | Sequential => n end) (map c_name (s_outputs st)).
Proof. exact replace_effect. Qed.
(** C46.  A whole run leaves every layer that is not a candidate alone, in the same order, with the same recorded weights and
    metadata; connections to such layers are not redirected ([f] is the identity on them).  [F]: the names invented. *)
Theorem C46_untouched : forall meq k ts st0 (F : string -> Prop) n st, s_cand st0 <> [] ->
  (forall t i m r n, In t ts -> t_repl t i m = Ok r -> In n (layer_names r) -> In n (layer_names m) \/ F n) ->
  (forall n, F n -> ~ In n (names st0)) ->
  iterate meq k ts n (start ts st0) = Done st ->
  exists f, (forall n, In n (names st0) -> ~ In n (s_cand st0) -> f n = n) /\
    (let other := fun l => (inb (lc_name l) (names st0) && negb (inb (lc_name l) (s_cand st0)))%bool in
     Forall2 (kept f) (filter other (s_layers st0)) (filter other (s_layers st))) /\
    map c_name (s_outputs st) = map f (map c_name (s_outputs st0)) /\
    (forall n, In n (names st0) -> ~ In n (s_cand st0) -> get_weights st n = get_weights st0 n /\ get_nw st n = get_nw st0 n /\ get_meta st n = get_meta st0 n).
Proof.
  intros meq k ts st0 F n st C TS FR R. destruct (run_untouched meq k ts st0 F C TS FR n st R) as (_ & _ & f & A & B & D & E). exists f. split; auto. split; auto. split; auto.
  intros x X Y. destruct (E x X Y) as (E1 & E2 & E3). unfold get_weights, get_nw, get_meta. now rewrite E1, E2, E3.
Qed.
(** C46.  Hence such a layer's weights in the new model are the ones it had, provided Keras creates its variables under the
    same (shortened) names. *)
Theorem C46_weights : forall meq k ts ls outs ws md cand (F : string -> Prop) n st l v fresh, cand <> [] ->
  (forall t i m r n, In t ts -> t_repl t i m = Ok r -> In n (layer_names r) -> In n (layer_names m) \/ F n) ->
  (forall n, F n -> ~ In n (map lc_name ls)) ->
  iterate meq k ts n (start ts (init_state ls outs ws md cand)) = Done st ->
  In l ls -> ~ In (lc_name l) cand -> assoc (lc_name l) ws = Some v -> map fst fresh = map fst v ->
  final_weights st (lc_name l) fresh = Ok v.
Proof.
  intros meq k ts ls outs ws md cand F n st l v fresh C TS FR R L NC A EF.
  destruct (run_untouched meq k ts (init_state ls outs ws md cand) F C TS FR n st R) as (_ & _ & f & _ & _ & _ & E). destruct (E (lc_name l)) as (E1 & E2 & _); auto.
  { unfold names; cbn. now apply in_map. }
  eapply final_original; eauto.
Qed.
(** C46.  The graph stays well formed: unique names, no dangling connection or output, no cycle - whatever the patterns and
    replacements, as long as invented names are new. *)
Theorem C46_no_dangling : forall meq ts st0 n st, wf_graph st0 -> run_names_ok meq Functional ts st0 ->
  iterate meq Functional ts n (start ts st0) = Done st -> wf_graph st.
Proof. exact run_wf. Qed.
Theorem C46_replace_no_dangling : forall st p matched m r st', wf_graph st -> find_pattern Functional st p matched = Ok (Some m) -> names_ok st m r ->
  replace Functional st m r = Ok st' -> wf_graph st'.
Proof. intros st p matched m r st' W F. apply find_pattern_tree in F as [M _]. now apply replace_wf. Qed.
(** C46.  Termination when only finitely many names can be invented. *)
Theorem C46_terminates : forall meq k ts st0 (N : list string),
  (forall t i m r n, In t ts -> t_repl t i m = Ok r -> In n (layer_names r) -> In n (layer_names m) \/ In n N) -> terminates meq k ts st0.
Proof. exact terminate_finite_names. Qed.
(** C47 as stated fails: a transform that gives its match a new name each time never stops. *)
Theorem C47_terminates_refuted : ~ (forall meq k ts st0, terminates meq k ts st0).
Proof.
  intros H. destruct (H (fun _ _ => true) Sequential [rename_t] (dstate 0)) as (n & N). destruct (rename_forever (fun _ _ => true) n) as (s & E). exact (N s E).
Qed.
Theorem C47_terminates_partial : forall meq k ts st0 (N : list string),
  (forall t i m r n, In t ts -> t_repl t i m = Ok r -> In n (layer_names r) -> In n (layer_names m) \/ In n N) -> terminates meq k ts st0.
Proof. exact terminate_finite_names. Qed.
(** C46.  The transformer does not stop early: whatever a pattern still matches at the end was matched (and handled) before. *)
Theorem C46_complete : forall meq k ts st0 n st, iterate meq k ts n (start ts st0) = Done st ->
  forall t l m, In t ts -> In l (s_layers st) -> match_with_inputs k st l (t_pattern t) true = Ok (Some m) -> matched_in_run meq k ts st0 (t_name t) (lc_name l).
Proof. exact complete. Qed.
Print Assumptions C46_complete.
Print Assumptions C46_match_sound.
Print Assumptions C46_replace_effect.
Print Assumptions C46_untouched.
Print Assumptions C46_weights.
Print Assumptions C46_no_dangling.
Print Assumptions C46_replace_no_dangling.
Print Assumptions C46_terminates.
Print Assumptions C47_terminates_refuted.
Print Assumptions C47_terminates_partial.

(** A concrete run: Conv2D -> ReLU is fused into one layer with a new name; the Dense layer and the Add that reads two
    layers are left alone. *)
Section Ex.
  Let c n := mkConn n 0 0 [].
  Let ly cls n ins := mkLc cls n [] (match ins with [] => [] | _ => [map c ins] end).
  Let ws : list (string * wts) := [("conv", [("kernel", mkT [2] [1%Q; 2%Q])]); ("dense", [("kernel", mkT [1] [3%Q])])].
  Let st0 := init_state [ly "InputLayer" "in" []; ly "Conv2D" "conv" ["in"]; ly "ReLU" "relu" ["conv"]; ly "Dense" "dense" ["relu"]; ly "Add" "add" ["relu"; "dense"]]
      [c "add"; c "relu"] ws [] ["conv"; "relu"].
  Let fuse := mkTr "Fuse" (Pat "ReLU" [] [Pat "Conv2D" [] []]) (fun _ n =>
      match n with Node _ _ _ _ [Node l w _ _ _] => Ok (Node (mkLc "Fused" "fused" [] []) w None meta_empty []) | _ => Err IndexError end).
  Let res_ := iterate (fun _ _ => true) Functional [fuse] 5 (start [fuse] st0).
  Example C46_ex : exists st, res_ = Done st /\
    s_layers st = [ly "InputLayer" "in" []; ly "Dense" "dense" ["fused"]; ly "Add" "add" ["fused"; "dense"]; ly "Fused" "fused" ["in"]] /\
    s_outputs st = [c "add"; c "fused"] /\ get_weights st "fused" = [("kernel", mkT [2] [1%Q; 2%Q])] /\
    final_weights st "dense" [("kernel", mkT [1] [0%Q])] = Ok [("kernel", mkT [1] [3%Q])].
  Proof. eexists. split; [vm_compute; reflexivity|]. vm_compute. auto. Qed.
  Example C46_ex_hyps : (forall i m r n, t_repl fuse i m = Ok r -> In n (layer_names r) -> In n (layer_names m) \/ n = "fused") /\ ~ In "fused" (names st0) /\ s_cand st0 <> [] /\
    wf_graph st0 /\ maps_ok st0.
  Proof.
    split; [|split; [|split; [|split]]].
    - intros i [l w nw m0 [|[l1 w1 nw1 m1 i1] [|? ?]]] r x; cbn; try discriminate. intros [= <-]. cbn. intros [<-|[]]; auto.
    - apply inb_false. vm_compute. reflexivity.
    - discriminate.
    - constructor.
      + apply nodupb_iff. vm_compute. reflexivity.
      + intros l n L N. change (s_layers st0) with [ly "InputLayer" "in" []; ly "Conv2D" "conv" ["in"]; ly "ReLU" "relu" ["conv"]; ly "Dense" "dense" ["relu"]; ly "Add" "add" ["relu"; "dense"]] in L.
        apply inb_In. destruct L as [<-|[<-|[<-|[<-|[<-|[]]]]]]; cbn in N; repeat destruct N as [<-|N]; try destruct N; vm_compute; reflexivity.
      + intros o O. apply inb_In. cbn in O. destruct O as [<-|[<-|[]]]; vm_compute; reflexivity.
      + exists (fun n => if String.eqb n "in" then 0 else if String.eqb n "conv" then 1 else if String.eqb n "relu" then 2 else if String.eqb n "dense" then 3 else 4).
        intros l n L N. change (s_layers st0) with [ly "InputLayer" "in" []; ly "Conv2D" "conv" ["in"]; ly "ReLU" "relu" ["conv"]; ly "Dense" "dense" ["relu"]; ly "Add" "add" ["relu"; "dense"]] in L.
        apply Nat.ltb_lt. destruct L as [<-|[<-|[<-|[<-|[<-|[]]]]]]; cbn in N; repeat destruct N as [<-|N]; try destruct N; vm_compute; reflexivity.
    - apply init_maps_ok; intros x X; apply inb_In; cbn in X; repeat destruct X as [<-|X]; try destruct X; vm_compute; reflexivity.
  Qed.
End Ex.

(** C135.  A replacement that says the same as its match leaves the model as it is and does not prolong the run; any other
    replacement is carried out (or its failure reported).  Either way the match is recorded. *)
Theorem C135_takes_effect_partial : forall meq k ts st0 s t m r, about_to_replace meq k ts st0 s t m r ->
  (same_node meq m r -> exists s', step meq k ts s = Running s' /\ ls_state s' = ls_state s /\ ls_found s' = ls_found s /\ ls_matched s' = (t_name t, n_name m) :: ls_matched s) /\
  (~ same_node meq m r -> forall st', replace k (ls_state s) m r = Ok st' ->
     exists s', step meq k ts s = Running s' /\ ls_state s' = st' /\ ls_found s' = true /\ ls_matched s' = (t_name t, n_name m) :: ls_matched s) /\
  (~ same_node meq m r -> forall e, replace k (ls_state s) m r = Err e -> step meq k ts s = Failed e).
Proof. exact step_replacement. Qed.
Print Assumptions C135_takes_effect_partial.
(** Transforms that never change anything return the model they were given. *)
Theorem C135_no_change : forall meq k ts st0, (forall s t m r, about_to_replace meq k ts st0 s t m r -> same_node meq m r) ->
  forall n st, iterate meq k ts n (start ts st0) = Done st -> st = st0.
Proof. exact identity_done. Qed.
Print Assumptions C135_no_change.
(** Missing: a replacement that changes only weights of a layer two of whose weights share a name counts as no change, and is
    dropped. *)
Definition twins (v : Q) : wts := [("kernel", mkT [1] [v]); ("kernel", mkT [1] [v])].
Definition set_twins : transform := mkTr "SetTwins" (Pat "Custom" [] []) (fun _ n => match n with Node l w nw m ins => Ok (Node l w (Some (twins 7)) m ins) end).
Theorem C135_shared_names_refuted : exists st0 m r st, find_pattern Functional st0 (t_pattern set_twins) [] = Ok (Some m) /\
  t_repl set_twins 0 m = Ok r /\ n_nw m = Some (twins 1) /\ n_nw r = Some (twins 7) /\
  iterate (fun _ _ => true) Functional [set_twins] 3 (start [set_twins] st0) = Done st /\ get_nw st "c" = Some (twins 1).
Proof.
  exists (init_state [mkLc "InputLayer" "in" [] []; mkLc "Custom" "c" [] [[mkConn "in" 0 0 []]]] [mkConn "c" 0 0 []] [("c", twins 1)] [] ["c"]).
  do 3 eexists. repeat split; vm_compute; reflexivity.
Qed.
Print Assumptions C135_shared_names_refuted.

(** C136.  The layers of a match are connected as the pattern says: in a functional model the inputs of a matched layer are
    exactly the layers its call takes its inputs from - but listed in the order in which the model lists its layers, not in
    the order of the operands; in a Sequential model the input is the layer just before it. *)
Theorem C136_match_connected_partial : forall k st p matched m x, NoDup (names st) -> find_pattern k st p matched = Ok (Some m) -> node_in x m -> n_inputs x <> [] ->
  match k with
  | Functional => exists cs rest, lc_inbound (n_layer x) = cs :: rest /\
      in_model_order st (map n_layer (n_inputs x)) /\ forall l, In l (map n_layer (n_inputs x)) <-> In l (s_layers st) /\ In (lc_name l) (map c_name cs)
  | Sequential => exists a pre post, n_inputs x = [a] /\ s_layers st = (pre ++ n_layer a :: n_layer x :: post)%list
  end.
Proof. exact connected. Qed.
Print Assumptions C136_match_connected_partial.
(** Missing: the order of the operands.  The pattern "Subtract of a Conv2D and a Dense layer" also matches the model that
    computes dense - conv when the Conv2D layer is listed first, and a replacement that keeps the layers it was given and
    only changes an entry of the head's configuration leaves a model that computes conv - dense. *)
Section Ex136.
  Let c n := mkConn n 0 0 [].
  Let ly cls n cfg ins := mkLc cls n cfg (match ins with [] => [] | _ => [map c ins] end).
  Let tag_head cls ps := mkTr "Tag" (Pat cls [] ps) (fun _ n => match n with Node l w nw m ins =>
      Ok (Node (mkLc (lc_class l) (lc_name l) [("tag", "yes")] (lc_inbound l)) w nw m ins) end).
  Let sub := tag_head "Subtract" [Pat "Conv2D" [] []; Pat "Dense" [] []].
  Theorem C136_operand_order_refuted : exists st0 st, wf_graph st0 /\
    In (ly "Subtract" "sub" [] ["dense"; "conv"]) (s_layers st0) /\
    iterate (fun _ _ => true) Functional [sub] 6 (start [sub] st0) = Done st /\
    In (ly "Subtract" "sub" [("tag", "yes")] ["conv"; "dense"]) (s_layers st).
  Proof.
    exists (init_state [ly "InputLayer" "in" [] []; ly "Conv2D" "conv" [] ["in"]; ly "Dense" "dense" [] ["in"]; ly "Subtract" "sub" [] ["dense"; "conv"]] [c "sub"] [] [] []).
    eexists. split; [|split; [cbn; tauto|split; [vm_compute; reflexivity|cbn; tauto]]].
    constructor.
    - apply nodupb_iff. vm_compute. reflexivity.
    - intros l n L N. apply inb_In. cbn in L. repeat destruct L as [<-|L]; try destruct L; cbn in N; repeat destruct N as [<-|N]; try destruct N; vm_compute; reflexivity.
    - intros o O. apply inb_In. cbn in O. destruct O as [<-|[]]; vm_compute; reflexivity.
    - exists (fun n => if String.eqb n "in" then 0 else if String.eqb n "conv" then 1 else if String.eqb n "dense" then 2 else 3).
      intros l n L N. apply Nat.ltb_lt. cbn in L. repeat destruct L as [<-|L]; try destruct L; cbn in N; repeat destruct N as [<-|N]; try destruct N; vm_compute; reflexivity.
  Qed.
  Print Assumptions C136_operand_order_refuted.
  (** An operand used twice is dropped: x + x becomes the Add of a single tensor. *)
  Let add := tag_head "Add" [Pat "Conv2D" [] []].
  Theorem C136_repeated_operand_refuted : exists st0 st,
    In (ly "Add" "add" [] ["conv"; "conv"]) (s_layers st0) /\
    iterate (fun _ _ => true) Functional [add] 6 (start [add] st0) = Done st /\
    In (ly "Add" "add" [("tag", "yes")] ["conv"]) (s_layers st).
  Proof.
    exists (init_state [ly "InputLayer" "in" [] []; ly "Conv2D" "conv" [] ["in"]; ly "Add" "add" [] ["conv"; "conv"]] [c "add"] [] [] []).
    eexists. split; [cbn; tauto|split; [vm_compute; reflexivity|cbn; tauto]].
  Qed.
  Print Assumptions C136_repeated_operand_refuted.
End Ex136.
(** The hypotheses of C136 are met by the match that C135_shared_names and C46_ex use; here with a two-layer pattern. *)
Example C136_ex : exists st m, NoDup (names st) /\ find_pattern Sequential st (Pat "ReLU" [] [Pat "Conv2D" [] []]) [] = Ok (Some m) /\ n_inputs m <> [].
Proof.
  exists (init_state [mkLc "InputLayer" "in" [] []; mkLc "Conv2D" "conv" [] []; mkLc "ReLU" "relu" [] []] [] [] [] []). eexists.
  split; [apply nodupb_iff; vm_compute; reflexivity|]. split; [vm_compute; reflexivity|discriminate].
Qed.
(** In a functional model a replacement must take as many inputs as its match: otherwise the transformation fails with
    RuntimeError, whatever the point of the run. *)
Theorem C136_inputs_refused : forall meq ts st0 s t m r, about_to_replace meq Functional ts st0 s t m r -> ~ same_node meq m r ->
  List.length (leaf_layers m) <> List.length (leaf_layers r) -> step meq Functional ts s = Failed RuntimeError.
Proof. exact leaf_mismatch. Qed.
Print Assumptions C136_inputs_refused.
