From Coq Require Import String Ascii.
From Verif Require Import Base M_Tensor M_Transform M_Layout8 M_QuantizeApply S_Transform S_Layout8 S_QuantizeApply L_Transform L_Transform2 L_Transform5 L_Transform6 L_Layout8 L_Layout8b L_Layout8c L_Layout8d L_QuantizeApply.
Open Scope string_scope.
Open Scope nat_scope.

Lemma wrapped_once m sch gen ik ueq n prefix already ls st q q' : model_ok m -> fresh_naming gen (layer_names_of m) -> quantize_apply sch gen ik ueq n prefix already m = Some (Ok (ls, st)) ->
  In q ls -> In q' ls -> lc_name (q_layer q) = lc_name (q_layer q') -> q = q'.
Proof.
  intros OK FN QA. destruct (q_names m OK sch gen ik ueq n prefix already FN ls st QA) as [E ND]. rewrite <- E in ND. clear -ND. induction ls as [|a r IH]; [easy|]. cbn in ND. inversion ND; subst.
  intros [<-|A] [<-|B] EQ; auto; exfalso; apply H1; [rewrite EQ|rewrite <- EQ]; apply in_map_iff; eauto.
Qed.
Lemma apply_ends sch gen ik ueq prefix already m : exists n r, quantize_apply sch gen ik ueq n prefix already m = Some r.
Proof.
  destruct (default_terminates sch gen ik ueq (am_kind m) (initial_state m)) as (n & N). exists n. unfold quantize_apply, layout. destruct (annotated_names m); [eauto|]. destruct (negb (am_built m)); [eauto|].
  destruct (iterate _ _ _ n _) as [s9|st|e] eqn:E; [exfalso; exact (N s9 eq_refl)|eauto|eauto].
Qed.

(** Pattern alternatives without wildcards. *)
Lemma match_alts ps last t : (forall p, In p (ps ++ [last]) -> strip_any p = None) -> match_alternatives (ps ++ [last]) t = true <-> (exists p, In p ps /\ String.prefix p t = true) \/ t = last.
Proof.
  induction ps as [|p ps IH]; intros H.
  - cbn. unfold match_alternative. rewrite (H last (or_introl eq_refl)). rewrite String.eqb_eq. split; [intros ->; auto|intros [(p & [] & _)| -> ]; auto].
  - assert (EX : exists a b, (ps ++ [last] = a :: b)%list) by (destruct ps; cbn; eauto). destruct EX as (a & b & EX).
    assert (E : match_alternatives ((p :: ps) ++ [last]) t = (match_alternative false p t || match_alternatives (ps ++ [last]) t)%bool) by (cbn [app]; rewrite EX; reflexivity).
    rewrite E, orb_true_iff, IH by (intros q Q; apply H; now right). unfold match_alternative, prefixb. rewrite (H p (or_introl eq_refl)). split.
    + intros [A|[(q & Q1 & Q2)|A]]; auto; left; [exists p|exists q]; split; auto; [now left|now right].
    + intros [(q & [<-|Q1] & Q2)|A]; auto. right; left; eauto.
Qed.

(** A naming service. *)
Fixpoint hashes (n : nat) : string := match n with O => "" | S k => String "#"%char (hashes k) end.
Definition genx (p : string) (i : nat) : string := hashes i ++ "!" ++ p ++ "!".
Lemma genx_inj i : forall p j q, genx p i = genx q j -> p = q /\ i = j.
Proof.
  induction i as [|i IH]; intros p [|j] q; unfold genx in *; cbn; intros E; try discriminate.
  - injection E as E. apply append_cancel in E. auto.
  - injection E as E. destruct (IH p j q E). auto.
Qed.
Fixpoint last_char (d : Ascii.ascii) (s : string) : Ascii.ascii := match s with EmptyString => d | String c r => last_char c r end.
Lemma last_char_app s : forall d c, last_char d (s ++ String c "") = c.
Proof. induction s; cbn; auto. Qed.
Lemma last_char_app2 s d c r : last_char d (s ++ String c r) = last_char c r.
Proof. revert d. induction s; cbn; auto. Qed.
Lemma genx_fresh names0 : (forall x, In x names0 -> last_char "0"%char x <> "!"%char /\ last_char "0"%char x <> "D"%char) -> fresh_naming genx names0.
Proof.
  intros H. assert (L1 : forall p i, last_char "0"%char (genx p i) = "!"%char).
  { intros p i. unfold genx. change ("!" ++ p ++ "!") with (String "!"%char (p ++ String "!"%char "")). rewrite last_char_app2. apply last_char_app. }
  assert (L2 : forall x, last_char "0"%char (x ++ "_QAT_SepConv2D") = "D"%char) by (intros x; now rewrite last_char_app2).
  constructor.
  - intros p i q j. apply genx_inj.
  - intros p i I. destruct (H _ I) as [A _]. now rewrite L1 in A.
  - intros x I. destruct (H _ I) as [_ A]. now rewrite L2 in A.
  - intros p i x E. pose proof (L1 p i) as A. rewrite E, L2 in A. discriminate.
Qed.

(** ** fix_input_output_range *)
Lemma nth_set_nth {A} (f : A -> A) l : forall i j, nth_error (set_nth i f l) j = if Nat.eqb i j then option_map f (nth_error l j) else nth_error l j.
Proof.
  induction l as [|a r IH]; intros i j.
  - destruct i, j; cbn; auto; now destruct (Nat.eqb i j).
  - destruct i, j; cbn; auto.
Qed.
Lemma set_nth_length {A} (f : A -> A) l : forall i, List.length (set_nth i f l) = List.length l.
Proof. induction l; intros [|i]; cbn; auto. Qed.
Lemma from_config_ok ls : (forall l, In l ls -> r_quantizer l <> None -> r_class l = "QuantizeLayer") -> from_config_layers ls = Ok ls.
Proof.
  unfold from_config_layers. induction ls as [|a r IH]; intros H; auto. cbn [mapM].
  assert (E : match r_quantizer a with Some _ => if String.eqb (r_class a) "QuantizeLayer" then Ok a else Err TypeError | None => Ok a end = Ok a).
  { destruct (r_quantizer a) eqn:E; auto. rewrite (H a); [reflexivity|now left|congruence]. }
  rewrite E. cbn [bind]. rewrite IH; [reflexivity|]. intros; apply H; auto; now right.
Qed.
Lemma In_nth_error' {A} (l : list A) x : In x l -> exists i, nth_error l i = Some x.
Proof. apply In_nth_error. Qed.
Section Seq.
  Variables (q : rquantizer) (a b : rlayer) (rest : list rlayer).
  Hypothesis B : r_class b = "QuantizeLayer".
  Hypothesis H : forall l, In l (a :: b :: rest) -> r_quantizer l <> None -> r_class l = "QuantizeLayer".
  Lemma check_ok : check_sequential (a :: b :: rest) = Ok tt.
  Proof. cbn [check_sequential]. now rewrite B. Qed.
  Lemma seq_quant l : In l (set_nth 1 (set_quantizer q) (a :: b :: rest)) -> r_quantizer l <> None -> r_class l = "QuantizeLayer".
  Proof. cbn [set_nth]. intros [<-|[<-|L]] NQ; [apply H; auto; now left|exact B|apply H; auto; now right; right]. Qed.
End Seq.
Lemma seq_fix nb imin imax omin omax nr a b rest : r_class b = "QuantizeLayer" -> (forall l, In l (a :: b :: rest) -> r_quantizer l <> None -> r_class l = "QuantizeLayer") ->
  fix_input_output_range nb imin imax omin omax nr (RSequential (a :: b :: rest)) =
    Ok (RSequential (set_last (wrap_config (RFixed nb omin omax nr)) (set_nth 1 (set_quantizer (RQFixed nb imin imax nr)) (a :: b :: rest)))).
Proof.
  intros B H. unfold fix_input_output_range. rewrite (check_ok a b rest B). cbn [bind]. rewrite from_config_ok; [reflexivity|].
  intros l L. apply In_nth_error' in L as (i & L). unfold set_last in L. rewrite nth_set_nth in L.
  destruct (Nat.eqb _ i).
  - destruct (nth_error (set_nth 1 _ _) i) as [l0|] eqn:E; [|discriminate]. cbn in L. injection L as <-. apply nth_error_In in E. apply (seq_quant (RQFixed nb imin imax nr) a b rest B H l0 E).
  - apply nth_error_In in L. apply (seq_quant (RQFixed nb imin imax nr) a b rest B H l L).
Qed.
Lemma seq_remove a b rest : r_class b = "QuantizeLayer" -> (forall l, In l (a :: b :: rest) -> r_quantizer l <> None -> r_class l = "QuantizeLayer") ->
  remove_input_range (RSequential (a :: b :: rest)) = Ok (RSequential (set_nth 1 (set_quantizer RQNone) (a :: b :: rest))).
Proof.
  intros B H. unfold remove_input_range. rewrite (check_ok a b rest B). cbn [bind]. rewrite from_config_ok; [reflexivity|]. intros l L. apply (seq_quant RQNone a b rest B H l L).
Qed.
Lemma fun_quant q ins ls : (forall l, In l ls -> (r_quantizer l <> None \/ exists n, r_input l = Some n /\ In n ins) -> r_class l = "QuantizeLayer") ->
  forall l, In l (map (fix_inputs q ins) ls) -> r_quantizer l <> None -> r_class l = "QuantizeLayer".
Proof.
  intros H l L NQ. apply in_map_iff in L as (l0 & <- & L). unfold fix_inputs in *. destruct (r_input l0) as [n|] eqn:E; [|apply H; auto].
  destruct (inb n ins) eqn:I; [|apply H; auto]. cbn. apply H; auto. right. exists n. split; auto. now apply inb_In.
Qed.
Lemma fun_fix nb imin imax omin omax nr ins outs ls : (forall l, In l ls -> (r_quantizer l <> None \/ exists n, r_input l = Some n /\ In n ins) -> r_class l = "QuantizeLayer") ->
  fix_input_output_range nb imin imax omin omax nr (RFunctional ls ins outs) =
    Ok (RFunctional (map (fix_outputs (RFixed nb omin omax nr) outs) (map (fix_inputs (RQFixed nb imin imax nr) ins) ls)) ins outs).
Proof.
  intros H. unfold fix_input_output_range. rewrite from_config_ok; [reflexivity|]. intros l L. apply in_map_iff in L as (l0 & <- & L).
  pose proof (fun_quant (RQFixed nb imin imax nr) ins ls H l0 L) as F. unfold fix_outputs. destruct (inb (r_name l0) outs); auto.
Qed.
Lemma fun_remove ins outs ls : (forall l, In l ls -> (r_quantizer l <> None \/ exists n, r_input l = Some n /\ In n ins) -> r_class l = "QuantizeLayer") ->
  remove_input_range (RFunctional ls ins outs) = Ok (RFunctional (map (fix_inputs RQNone ins) ls) ins outs).
Proof. intros H. unfold remove_input_range. rewrite from_config_ok; [reflexivity|]. now apply fun_quant. Qed.

(** ** annotate *)
Lemma annotate_F2 kd ls ls' : quantize_annotate_model (TModel kd ls) = Ok ls' -> Forall2 (fun k k' => (if is_input k then Ok k else add_quant_wrapper k) = Ok k') ls ls'.
Proof. unfold quantize_annotate_model. apply mapM_F2. Qed.
Lemma F2_nth {A B} (R : A -> B -> Prop) l l' : Forall2 R l l' -> List.length l' = List.length l /\ forall i a, nth_error l i = Some a -> exists b, nth_error l' i = Some b /\ R a b.
Proof.
  induction 1 as [|a b l l' H F [L N]]; [split; auto; intros [|i] ?; discriminate|]. split; [cbn; auto|]. intros [|i] x; cbn; [intros [= <-]; eauto|apply N].
Qed.
Lemma annotate_idem kd ls ls' : quantize_annotate_model (TModel kd ls) = Ok ls' -> quantize_annotate_model (TModel kd ls') = Ok ls'.
Proof.
  intros H. apply annotate_F2 in H. unfold quantize_annotate_model. induction H as [|k k' l l' H F IH]; auto. cbn [mapM].
  assert (E : (if is_input k' then Ok k' else add_quant_wrapper k') = Ok k').
  { destruct (is_input k) eqn:I; [injection H as <-; now rewrite I|]. destruct k; cbn in H; try discriminate; injection H as <-; unfold is_input in *; cbn in *; rewrite ?I; auto. }
  rewrite E. cbn [bind]. now rewrite IH.
Qed.
Lemma annotate_err kd ls : (exists e, quantize_annotate_model (TModel kd ls) = Err e) <-> exists l, In (KModel l) ls /\ lc_class l <> "InputLayer".
Proof.
  unfold quantize_annotate_model. induction ls as [|k r IH]; cbn [mapM].
  - split; [intros (e & H); discriminate|intros (l & [] & _)].
  - destruct (is_input k) eqn:I; cbn [bind].
    + destruct (mapM _ r) eqn:E; cbn [bind].
      * split; [intros (e & H); discriminate|]. intros (l & [->|L] & NI); [unfold is_input in I; cbn in I; apply String.eqb_eq in I; contradiction|]. destruct IH as [_ IH]. destruct IH as (e & H); [eauto|discriminate].
      * split; [intros _; destruct IH as [IH _]; destruct IH as (l & L & NI); [eauto|]; exists l; split; auto; now right|eauto].
    + destruct k as [l c|l|l|l]; cbn [add_quant_wrapper bind].
      3: { split; [|eauto]. intros _. exists l. split; [now left|]. unfold is_input in I; cbn in I. now apply String.eqb_neq. }
      all: destruct (mapM _ r) eqn:E; cbn [bind]; (split; [|eauto]); try (intros (e' & H'); discriminate);
        try (intros (l0 & [D|L] & NI); [discriminate|]; destruct IH as [_ IH]; destruct IH as (e' & H'); [eauto|discriminate]);
        intros _; destruct IH as [IH _]; destruct IH as (l0 & L & NI); [eauto|]; exists l0; split; auto; now right.
Qed.
Lemma annotate_err_value t e : quantize_annotate_model t = Err e -> e = ValueError.
Proof.
  destruct t; cbn; try congruence. unfold quantize_annotate_model. induction layers as [|k r IH]; cbn [mapM]; [discriminate|].
  destruct (is_input k); cbn [bind]; [|destruct k; cbn [add_quant_wrapper bind]; try congruence]; (destruct (mapM _ r); cbn [bind]; [discriminate|intros [= <-]; auto]).
Qed.

(** Checking that a literal model is well formed: layers listed in topological order. *)
Fixpoint topob (seen : list string) (ls : list layerc) : bool :=
  match ls with [] => true | l :: r => (forallb (fun n => inb n seen) (inbound_layer_names l) && topob (seen ++ [lc_name l]) r)%bool end.
Fixpoint index (n : string) (l : list string) : nat := match l with [] => 0 | a :: r => if String.eqb a n then 0 else S (index n r) end.
Lemma index_in n : forall l r, In n l -> index n (l ++ r) = index n l /\ index n l < List.length l.
Proof. induction l as [|a l IH]; intros r H; [easy|]. cbn. destruct (String.eqb_spec a n); [lia|]. destruct H as [?|H]; [contradiction|]. destruct (IH r H). lia. Qed.
Lemma index_notin n l r : ~ In n l -> index n (l ++ n :: r) = List.length l.
Proof. induction l as [|a l IH]; cbn; [now rewrite String.eqb_refl|]. intros H. destruct (String.eqb_spec a n); [tauto|]. rewrite IH; auto. Qed.
Lemma topo_lt ls : forall seen, topob seen ls = true -> NoDup (seen ++ map lc_name ls) -> forall l n, In l ls -> In n (inbound_layer_names l) ->
  In n (seen ++ map lc_name ls) /\ index n (seen ++ map lc_name ls) < index (lc_name l) (seen ++ map lc_name ls).
Proof.
  induction ls as [|a r IH]; intros seen T ND l n L N; [easy|]. cbn in T. apply andb_true_iff in T as [T1 T2]. destruct L as [<-|L].
  - rewrite forallb_forall in T1. specialize (T1 n N). apply inb_In in T1. cbn [map]. split; [apply in_app_iff; auto|].
    destruct (index_in n seen (lc_name a :: map lc_name r) T1) as [E1 E2]. rewrite E1. rewrite index_notin; [auto|]. intros Q. apply NoDup_remove_2 in ND. apply ND. apply in_app_iff; auto.
  - cbn [map]. replace (seen ++ lc_name a :: map lc_name r)%list with ((seen ++ [lc_name a]) ++ map lc_name r)%list by (rewrite <- app_assoc; reflexivity). apply IH; auto. cbn [map] in ND. rewrite <- app_assoc. exact ND.
Qed.
Definition okb (m : amodel) : bool :=
  (nodupb (layer_names_of m) && match am_kind m with Functional => topob [] (map fst (am_layers m)) && forallb (fun c => inb (c_name c) (layer_names_of m)) (am_outputs m) | Sequential => true end &&
   forallb (fun n => inb n (layer_names_of m)) (map fst (am_weights m)))%bool.
Lemma okb_ok m : okb m = true -> model_ok m.
Proof.
  unfold okb. rewrite !andb_true_iff. intros [[ND K] W]. apply nodupb_iff in ND. rewrite forallb_forall in W. constructor; [|intros n N; apply inb_In; apply W; auto].
  assert (NN : names (initial_state m) = layer_names_of m) by (unfold names, layer_names_of; cbn; now rewrite map_map).
  destruct (am_kind m) eqn:EK; cbn [wf_model]; [|rewrite NN; exact ND]. apply andb_true_iff in K as [K1 K2]. rewrite forallb_forall in K2.
  assert (NM : layer_names_of m = ([] ++ map lc_name (map fst (am_layers m)))%list) by (unfold layer_names_of; cbn; now rewrite map_map).
  pose proof (topo_lt _ [] K1) as T. rewrite <- NM in T. specialize (T ND). constructor.
  - now rewrite NN.
  - intros l n L N. rewrite NN. exact (proj1 (T l n L N)).
  - intros c C. rewrite NN. apply inb_In. auto.
  - exists (fun n => index n (layer_names_of m)). intros l n L N. exact (proj2 (T l n L N)).
Qed.
Lemma genx_freshb names0 : forallb (fun x => negb (Ascii.eqb (last_char "0"%char x) "!"%char) && negb (Ascii.eqb (last_char "0"%char x) "D"%char))%bool names0 = true -> fresh_naming genx names0.
Proof.
  intros H. apply genx_fresh. intros x X. rewrite forallb_forall in H. specialize (H x X). apply andb_true_iff in H as [H1 H2]. rewrite !negb_true_iff in *. split; apply Ascii.eqb_neq; auto.
Qed.
Definition out (sch : scheme) (n : nat) (prefix : string) (m : amodel) : list qlayer :=
  match quantize_apply sch genx (fun _ => true) false n prefix (fun _ => false) m with Some (Ok (ls, _)) => ls | _ => [] end.
