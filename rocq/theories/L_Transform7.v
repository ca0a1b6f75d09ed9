From Coq Require Import String Ascii.
From Verif Require Import Base M_Tensor M_Transform S_Transform L_Transform L_Transform2 L_Transform3 L_Transform4 L_Transform5 L_Transform6.
Open Scope string_scope.
Open Scope nat_scope.

(** A transform that renames the layer it matches. *)
Fixpoint primes (k : nat) : string := match k with O => "" | S k' => String "'"%char (primes k') end.
Definition nm (k : nat) : string := "d" ++ primes k.
Definition dense (k : nat) : layerc := mkLc "Dense" (nm k) [] [].
Definition rename_t : transform := mkTr "Rename" (Pat "Dense" [] []) (fun k n => match n with Node _ w nw m i => Ok (Node (dense (S k)) w nw m i) end).
Definition dstate (k : nat) : state := mkS [dense k] [] [] [] [] [].
Fixpoint past (k : nat) : list (string * string) := match k with O => [] | S k' => ("Rename", nm k') :: past k' end.
Lemma nm_inj i j : nm i = nm j -> i = j.
Proof. unfold nm. intros H. injection H as H. revert j H. induction i as [|i IH]; intros [|j]; cbn; try discriminate; auto. intros [= H]. f_equal; auto. Qed.
Lemma past_names k : matched_names rename_t (past k) = map nm (rev (seq 0 k)).
Proof.
  induction k as [|k IH]; auto. rewrite seq_S, rev_app_distr. cbn [rev app map past Nat.add]. rewrite <- IH. reflexivity.
Qed.
Lemma past_len k : List.length (past k) = k.
Proof. induction k; cbn; auto. Qed.
Lemma rename_step meq k b : step meq Sequential [rename_t] (mkLoop (dstate k) (past k) [rename_t] b) = Running (mkLoop (dstate (S k)) (past (S k)) [rename_t] true).
Proof.
  unfold step. cbn [ls_todo ls_state ls_matched ls_found]. unfold find_pattern. cbn [s_layers dstate find_pattern_in].
  assert (E : inb (lc_name (dense k)) (matched_names rename_t (past k)) = false).
  { apply inb_false. rewrite past_names. intros H. apply in_map_iff in H as (j & H & J). apply in_rev, in_seq in J. cbn in H. apply nm_inj in H. lia. }
  rewrite E. change (t_pattern rename_t) with (Pat "Dense" [] []). change (match_with_inputs Sequential (dstate k) (dense k) (Pat "Dense" [] []) true) with (Ok (Some (mk_node (dstate k) (dense k) []))).
  cbn [bind]. cbn [t_repl rename_t]. rewrite past_len. change (mk_node (dstate k) (dense k) []) with (Node (dense k) [] None meta_empty []). cbn [t_repl rename_t].
  assert (NE : String.eqb (nm k) (nm (S k)) = false) by (apply String.eqb_neq; intros H; apply nm_inj in H; lia).
  assert (E2 : node_eqb meq (Node (dense k) [] None meta_empty []) (Node (dense (S k)) [] None meta_empty []) = false).
  { cbn [node_eqb]. unfold layer_eqb. cbn [dense lc_class lc_name]. rewrite NE. cbn. reflexivity. }
  rewrite E2. unfold replace, replace_sequential.
  assert (E3 : index_first (layer_names (Node (dense k) [] None meta_empty [])) (s_layers (dstate k)) = 0) by (cbn [layer_names flat_map dense lc_name s_layers dstate index_first inb existsb]; rewrite String.eqb_refl; reflexivity).
  rewrite E3. assert (E4 : remove_layers (dstate k) (layer_names (Node (dense k) [] None meta_empty [])) = mkS [] [] [] [] [] []).
  { unfold remove_layers, dstate. cbn [layer_names flat_map dense lc_name s_layers filter inb existsb]. rewrite String.eqb_refl. reflexivity. }
  rewrite E4. reflexivity.
Qed.
Theorem rename_forever meq n : exists s, iterate meq Sequential [rename_t] n (start [rename_t] (dstate 0)) = Running s.
Proof.
  unfold start. change (@nil (string * string)) with (past 0). generalize 0 as k, false as b. induction n as [|n IH]; intros k b; [cbn; eauto|]. cbn [iterate]. rewrite rename_step. apply IH.
Qed.

(** One replacement. *)
Theorem replace_effect k st m r st' : maps_ok st -> names_ok st m r -> replace k st m r = Ok st' ->
  (forall l, In l (s_layers st) -> ~ In (lc_name l) (layer_names m) -> exists l', In l' (s_layers st') /\ same_layer l l' /\
     (match k with Functional => redirected (n_name m) (n_name r) l l' | Sequential => l' = l end) /\
     get_weights st' (lc_name l) = get_weights st (lc_name l) /\ get_nw st' (lc_name l) = get_nw st (lc_name l) /\ get_meta st' (lc_name l) = get_meta st (lc_name l)) /\
  (forall x, node_in x r -> exists l', In l' (s_layers st') /\ same_layer (n_layer x) l' /\ get_weights st' (n_name x) = n_weights x /\ get_nw st' (n_name x) = n_nw x) /\
  (forall n, In n (names st') <-> (In n (names st) /\ ~ In n (layer_names m)) \/ In n (layer_names r)) /\
  map c_name (s_outputs st') = map (fun n => match k with Functional => if String.eqb n (n_name m) then n_name r else n | Sequential => n end) (map c_name (s_outputs st)).
Proof.
  intros MO NO R. split; [|split; [|split]].
  - intros l L NL. exists (match k with Functional => rename_layer (n_name m) (n_name r) l | Sequential => l end).
    assert (NR : ~ In (lc_name l) (layer_names r)).
    { intros J. destruct NO as [_ NO]. destruct (NO _ J) as [?|Q]; auto. apply Q. unfold names. now apply in_map. }
    split; [apply (replace_in _ _ _ _ _ R); left; eauto|]. split; [destruct k; [apply rename_same|repeat split]|]. split; [destruct k; [apply rename_redirected|auto]|].
    destruct (replace_outside _ _ _ _ _ (lc_name l) R NL NR) as (A & B & C). unfold get_weights, get_nw, get_meta. rewrite A, B, C. auto.
  - intros x X. destruct (new_nodes_payload_l k m r x X) as (y & Y & P & _). exists (n_layer y). split; [apply (replace_in _ _ _ _ _ R); right; now apply in_map|]. split; auto.
    destruct (replace_inside _ _ _ _ _ x MO NO R X) as (A & B & _). auto.
  - apply (replace_names _ _ _ _ _ R).
  - rewrite (replace_outputs _ _ _ _ _ R). destruct k; [|rewrite map_map; auto]. rewrite !map_map. apply map_ext. intros c. unfold rename_output. destruct (String.eqb (c_name c) (n_name m)); auto.
Qed.
Lemma init_maps_ok ls outs ws md cand : (forall n, In n (map fst ws) -> In n (map lc_name ls)) -> (forall n, In n (map fst md) -> In n (map lc_name ls)) -> maps_ok (init_state ls outs ws md cand).
Proof.
  intros H1 H2 n N. unfold init_state, names in *; cbn in *.
  assert (G : forall A (l : list (string * A)), ~ In n (map fst l) -> assoc n l = None).
  { intros A l. induction l as [|[s a] r IH]; auto. cbn. intros K. destruct (String.eqb_spec s n); [tauto|apply IH; tauto]. }
  repeat split; apply G; auto. unfold init_w. rewrite map_map. cbn. auto.
Qed.
