From Coq Require Import String.
From Verif Require Import Base M_Tensor M_Transform M_Layout8 M_QuantizeApply S_Transform S_Layout8 S_QuantizeApply L_Transform L_Transform2 L_Transform3 L_Transform4 L_Transform5 L_Transform6 L_Transform7 L_Layout8 L_Layout8b L_Layout8c L_Layout8d.
Open Scope string_scope.
Open Scope nat_scope.

Lemma mapM_F2 {A B} (f : A -> res B) l : forall l', mapM f l = Ok l' -> Forall2 (fun a b => f a = Ok b) l l'.
Proof.
  induction l as [|a r IH]; intros l'; cbn; [intros [= <-]; constructor|]. destruct (f a) eqn:E; cbn; [|discriminate]. destruct (mapM f r); cbn; [|discriminate]. intros [= <-]. constructor; auto.
Qed.
Lemma F2_in_l {A B} (R : A -> B -> Prop) l l' a : Forall2 R l l' -> In a l -> exists b, In b l' /\ R a b.
Proof. induction 1; intros []; subst; [eexists; split; [left|]; eauto|]. destruct IHForall2 as (b & ? & ?); auto. exists b; split; auto; now right. Qed.
Lemma final_weights_ext st st0 n fresh : get_weights st n = get_weights st0 n -> get_nw st n = get_nw st0 n -> final_weights st n fresh = final_weights st0 n fresh.
Proof. unfold final_weights. now intros -> ->. Qed.

Section Apply.
  Variable m : amodel.
  Hypothesis OK : model_ok m.
  Notation st0 := (initial_state m).
  Lemma names_init : names st0 = layer_names_of m.
  Proof. unfold names, layer_names_of; cbn. now rewrite map_map. Qed.
  Lemma in_layers l : In l (s_layers st0) <-> exists a, In (l, a) (am_layers m).
  Proof. cbn. rewrite in_map_iff. split; [intros ([l0 a] & <- & H); eauto|intros (a & H); exists (l, a); auto]. Qed.
  Lemma annotated_names_iff n : In n (annotated_names m) <-> exists l, annotated m l /\ lc_name l = n.
  Proof.
    unfold annotated_names, annotated. rewrite in_map_iff. split.
    - intros ([l a] & <- & H). apply filter_In in H as [H E]. cbn in *. destruct a as [c|]; [|discriminate]. exists l; eauto.
    - intros (l & (c & H) & <-). exists (l, Some c). split; auto. apply filter_In; auto.
  Qed.
  Lemma map_keys n : In n (map fst (full_map m)) <-> In n (input_layers m) \/ In n (annotated_names m).
  Proof.
    unfold full_map. rewrite map_app, in_app_iff, map_map. cbn. rewrite map_id. apply or_iff_compat_l.
    unfold layer_quantize_map, annotated_names. induction (am_layers m) as [|[l [c|]] r IH]; cbn; [tauto| |]; rewrite IH; tauto.
  Qed.
  Lemma input_layers_in n : In n (input_layers m) -> exists l, In l (s_layers st0) /\ lc_name l = n /\ lc_class l = "InputLayer".
  Proof. unfold input_layers. intros H. apply in_map_iff in H as (l & <- & H). apply filter_In in H as [H E]. apply andb_true_iff in E as [E _]. apply String.eqb_eq in E. exists l. auto. Qed.
  Lemma init_ok : maps_ok st0.
  Proof.
    apply init_maps_ok.
    - intros n N. rewrite map_map. now apply (mo_weights m OK).
    - intros n N. apply map_keys in N as [N|N].
      + apply input_layers_in in N as (l & L & <- & _). exact (in_map lc_name _ _ L).
      + apply annotated_names_iff in N as (l & (c & L) & <-). rewrite map_map. apply in_map_iff. exists (l, Some c). auto.
  Qed.
  Lemma init_nodup : NoDup (layer_names_of m).
  Proof. rewrite <- names_init. eapply wf_model_names. apply OK. Qed.
  Lemma by_name_a l l' : In l (s_layers st0) -> In l' (s_layers st0) -> lc_name l = lc_name l' -> l = l'.
  Proof. apply by_name. eapply wf_model_names. apply OK. Qed.
  Lemma annotated_in l : annotated m l -> In l (s_layers st0).
  Proof. intros (c & H). apply in_layers. eauto. Qed.
  Lemma entry_unique l a b : In (l, a) (am_layers m) -> In (l, b) (am_layers m) -> a = b.
  Proof.
    pose proof init_nodup as ND. unfold layer_names_of in ND. induction (am_layers m) as [|[u x] r IH]; [easy|]. cbn in ND. inversion ND; subst.
    intros [A|A] [B|B]; [congruence| | |auto]; exfalso; apply H1; apply in_map_iff; [exists (l, b)|exists (l, a)]; split; auto; cbn; congruence.
  Qed.
  (** Initial metadata. *)
  Lemma meta_init l c : In (l, Some c) (am_layers m) -> lc_class l <> "InputLayer" -> assoc (lc_name l) (full_map m) = Some (mkMeta (Some c) false).
  Proof.
    intros H NI. unfold full_map. assert (G1 : ~ In (lc_name l) (input_layers m)).
    { intros J. apply input_layers_in in J as (l' & L' & E & C). apply NI. rewrite <- (by_name_a l' l); auto. apply annotated_in. now exists c. }
    assert (AP : forall (a b : list (string * meta)) n, ~ In n (map fst a) -> assoc n (a ++ b)%list = assoc n b).
    { induction a as [|[s x] a IH]; intros b n N; auto. cbn. cbn in N. destruct (String.eqb_spec s n); [tauto|]. apply IH; tauto. }
    rewrite AP by (rewrite map_map; cbn; now rewrite map_id). clear AP G1. pose proof init_nodup as ND. unfold layer_names_of in ND. unfold layer_quantize_map.
    induction (am_layers m) as [|[u x] r IH]; [easy|]. cbn [flat_map snd fst]. cbn in ND. inversion ND; subst. destruct H as [[= -> ->]|H].
    - cbn. now rewrite String.eqb_refl.
    - specialize (IH H H3). destruct x as [c'|]; cbn [app assoc]; auto. destruct (String.eqb_spec (lc_name u) (lc_name l)) as [E|E]; auto. exfalso; apply H2. rewrite E. apply in_map_iff. exists (l, Some c); auto.
  Qed.
  Lemma not_candidate l a : In (l, a) (am_layers m) -> a = None -> lc_class l <> "InputLayer" -> ~ In (lc_name l) (map fst (full_map m)).
  Proof.
    intros H -> NI J. apply map_keys in J as [J|J].
    - apply input_layers_in in J as (l' & L' & E & C). apply NI. rewrite <- (by_name_a l' l); auto. apply in_layers; eauto.
    - apply annotated_names_iff in J as (l' & A & E). assert (l' = l) by (apply by_name_a; auto; [now apply annotated_in|apply in_layers; eauto]). subst l'. destruct A as (c & A). pose proof (entry_unique l _ _ H A). discriminate.
  Qed.
  Lemma requires_iff n : In n (requires_output_quantize m) <-> sole_producer m n.
  Proof.
    unfold requires_output_quantize, sole_producer. rewrite in_flat_map. split.
    - intros ([l a] & H & J). cbn in J. destruct a as [c|]; [|easy].
      destruct (match am_kind m with Functional => Nat.eqb (List.length (lc_inbound l)) 1 | Sequential => true end) eqn:K; [|easy].
      destruct (inbound_of m l) as [|x [|? ?]] eqn:I; try easy. destruct (inb x (annotated_names m)) eqn:IA; [easy|]. destruct J as [<-|[]]. exists l. split; [now exists c|]. split; auto. split.
      + intros E. rewrite E in K. now apply Nat.eqb_eq.
      + apply inb_false in IA. intros (p & P & E). apply IA. apply annotated_names_iff. eauto.
    - intros (l & (c & H) & I & K & NA). exists (l, Some c). split; auto. cbn.
      replace (match am_kind m with Functional => Nat.eqb (List.length (lc_inbound l)) 1 | Sequential => true end) with true by (destruct (am_kind m); auto; rewrite K; auto).
      rewrite I. destruct (inb n (annotated_names m)) eqn:IA; [|now left]. exfalso. apply inb_In, annotated_names_iff in IA. apply NA. auto.
  Qed.
  Lemma cand_annotated l : In l (s_layers st0) -> In (lc_name l) (s_cand st0) -> lc_class l <> "InputLayer" -> annotated m l.
  Proof.
    intros L C NI. apply map_keys in C as [C|C].
    - apply input_layers_in in C as (l' & L' & E & CL). exfalso. apply NI. rewrite <- (by_name_a l' l); auto.
    - apply annotated_names_iff in C as (l' & A & E). rewrite <- (by_name_a l' l); auto. now apply annotated_in.
  Qed.
  Lemma nr_annotated : (forall r, annotated m r -> lc_class r <> "ReLU" /\ lc_class r <> "Activation") -> NR st0.
  Proof. intros H l L C. destruct (string_dec (lc_class l) "InputLayer") as [E|E]; [rewrite E; split; discriminate|]. apply H. now apply cand_annotated. Qed.
  Lemma nc_annotated : (forall r, annotated m r -> lc_class r <> "Concatenate") -> NC st0.
  Proof. intros H l L C. destruct (string_dec (lc_class l) "InputLayer") as [E|E]; [rewrite E; discriminate|]. apply H. now apply cand_annotated. Qed.
  Variables (sch : scheme) (gen : string -> nat -> string) (is_keras : string -> bool) (ueq : bool) (n : nat) (prefix : string) (already : string -> bool).
  Hypothesis FN : fresh_naming gen (layer_names_of m).
  Variables (ls : list qlayer) (st : state).
  Hypothesis Q : quantize_apply sch gen is_keras ueq n prefix already m = Some (Ok (ls, st)).
  Notation quant := (quantize prefix already (fun n => List.length (consuming_layers st n)) (s_meta st) (requires_output_quantize m)).
  Lemma apply_inv : annotated_names m <> [] /\ am_built m = true /\ layout sch gen is_keras ueq n m = Done st /\
    Forall2 (fun l q => (if String.eqb (lc_class l) "InputLayer" then Ok (Unwrapped l) else quant l) = Ok q) (s_layers st) ls.
  Proof.
    unfold quantize_apply in Q. destruct (annotated_names m); [discriminate|]. split; [discriminate|]. destruct (am_built m); [|discriminate]. split; auto. cbn [negb] in Q.
    destruct (layout sch gen is_keras ueq n m) as [| st1 |]; try discriminate. destruct (quantize_all prefix already st1 (requires_output_quantize m)) as [ls1|] eqn:E; cbn [bind] in Q; [|discriminate].
    injection Q as -> ->. split; auto. now apply mapM_F2.
  Qed.
  Lemma cand_init : s_cand st0 <> [].
  Proof.
    destruct apply_inv as (A & _). cbn. destruct (annotated_names m) as [|x r] eqn:E; [congruence|]. intros J. assert (I : In x (map fst (full_map m))) by (apply map_keys; right; rewrite E; now left). rewrite J in I. easy.
  Qed.
  Lemma apply_run : exists c, Iv gen (am_kind m) st0 st c.
  Proof.
    destruct apply_inv as (_ & _ & L & _). unfold layout in L. eapply default_run; [apply OK|apply init_ok|rewrite names_init; exact FN|apply cand_init|exact L].
  Qed.
  Lemma carried l l' : still_there st0 st l l' -> carried_over m st l l'.
  Proof.
    intros (A & B & C & D & E & F). split; auto. split; auto. split; auto. intros v fresh V FR. rewrite (final_weights_ext st st0) by auto. unfold initial_state. eapply final_original; eauto.
  Qed.
  Lemma q_names : map (fun q => lc_name (q_layer q)) ls = names st /\ NoDup (names st).
  Proof.
    destruct apply_inv as (_ & _ & _ & F). destruct apply_run as (c & IV). split; [|eapply wf_model_names; eapply i_wf; eauto].
    unfold names. clear Q. induction F as [|l q x y H F IH]; auto. cbn. rewrite IH. f_equal. destruct (String.eqb (lc_class l) "InputLayer"); [injection H as <-; auto|].
    unfold quantize in H. destruct (String.eqb (lc_class l) "QuantizeLayer").
    - destruct (1 <? _); [injection H as <-; auto|]. destruct (assoc (lc_name l) (s_meta st)) as [mm|]; [destruct (m_cfg mm)|]; try discriminate; injection H as <-; auto.
    - destruct ((negb match assoc (lc_name l) (s_meta st) with Some _ => true | None => false end && negb (inb (lc_name l) (requires_output_quantize m))) || already (lc_name l))%bool; [injection H as <-; auto|].
      destruct (inb (lc_name l) (requires_output_quantize m)); [destruct (supports l); injection H as <-; auto|].
      destruct (match assoc (lc_name l) (s_meta st) with Some m0 => meta_config m0 | None => None end); [injection H as <-; auto|]. destruct (supports l); [injection H as <-; auto|discriminate].
  Qed.
  Lemma apply_layers q : In q ls -> In (q_layer q) (s_layers st).
  Proof.
    destruct apply_inv as (_ & _ & _ & F). intros I. clear Q. induction F as [|l q0 x y H F IH]; [easy|]. destruct I as [<-|I]; [|right; auto]. left. clear IH.
    destruct (String.eqb (lc_class l) "InputLayer"); [injection H as <-; auto|].
    unfold quantize in H. destruct (String.eqb (lc_class l) "QuantizeLayer").
    - destruct (1 <? _); [injection H as <-; auto|]. destruct (assoc (lc_name l) (s_meta st)) as [mm|]; [destruct (m_cfg mm)|]; try discriminate; injection H as <-; auto.
    - destruct ((negb match assoc (lc_name l) (s_meta st) with Some _ => true | None => false end && negb (inb (lc_name l) (requires_output_quantize m))) || already (lc_name l))%bool; [injection H as <-; auto|].
      destruct (inb (lc_name l) (requires_output_quantize m)); [destruct (supports l); injection H as <-; auto|].
      destruct (match assoc (lc_name l) (s_meta st) with Some m0 => meta_config m0 | None => None end); [injection H as <-; auto|]. destruct (supports l); [injection H as <-; auto|discriminate].
  Qed.
  (** Annotated layers. *)
  Lemma apply_annotated l c : In (l, Some c) (am_layers m) -> ordinary l -> already (lc_name l) = false ->
    exists l' u, In (Wrapped (prefix ++ lc_name l) l' (Use u)) ls /\ carried_over m st l l' /\
      (u = registry_config l' /\ supports l' = true /\ meta_config (get_meta st (lc_name l)) = None \/ meta_config (get_meta st (lc_name l)) = Some u) /\
      meta_after (NC st0) (NR st0) l (mkMeta (Some c) false) (get_meta st (lc_name l)).
  Proof.
    intros H (O1 & O2 & O3) AL. destruct apply_run as (cc & IV). destruct apply_inv as (_ & _ & _ & F).
    destruct (i_layers _ _ _ _ _ IV l) as (l' & ST & MA); auto; [apply annotated_in; now exists c|].
    pose proof ST as (A & B & C & D & E & G). assert (M0 : get_meta st0 (lc_name l) = mkMeta (Some c) false) by (unfold get_meta; cbn; now rewrite (meta_init l c)). rewrite M0 in MA.
    destruct (F2_in_l _ _ _ _ F A) as (q & QI & QE). cbv beta in QE. rewrite B in QE. destruct (String.eqb_spec (lc_class l) "InputLayer") as [?|_]; [contradiction|].
    unfold quantize in QE. rewrite B, ?C in QE. destruct (String.eqb_spec (lc_class l) "QuantizeLayer") as [?|_]; [contradiction|].
    assert (NRQ : inb (lc_name l) (requires_output_quantize m) = false).
    { apply inb_false. rewrite requires_iff. intros (l0 & _ & _ & _ & NA). apply NA. exists l. split; auto. now exists c. }
    rewrite NRQ, AL in QE. pose proof MA as [MA1 _ _ _ _ _ _]. unfold get_meta in MA1 at 1. destruct (assoc (lc_name l) (s_meta st)) as [mm|] eqn:EM; [|exfalso; apply MA1; [discriminate|reflexivity]].
    cbn [negb andb orb] in QE. assert (GM : get_meta st (lc_name l) = mm) by (unfold get_meta; now rewrite EM). rewrite GM in *.
    destruct (meta_config mm) as [u|] eqn:EU.
    - injection QE as <-. exists l', u. split; auto. split; [now apply carried|]. split; auto.
    - destruct (supports l') eqn:SU; [|discriminate]. injection QE as <-. exists l', (registry_config l'). split; auto. split; [now apply carried|]. split; auto.
  Qed.
  (** The others. *)
  Lemma apply_others l : In (l, None) (am_layers m) -> ordinary l ->
    exists l', carried_over m st l l' /\ (exists f, (forall p, In (p, None) (am_layers m) -> lc_class p <> "InputLayer" -> f (lc_name p) = lc_name p) /\ kept f l l') /\
      ((~ sole_producer m (lc_name l) \/ already (lc_name l) = true \/ supports l = false) /\ In (Unwrapped l') ls \/
       (sole_producer m (lc_name l) /\ already (lc_name l) = false /\ supports l = true) /\ In (Wrapped (prefix ++ lc_name l) l' (OutputOnly (registry_config l))) ls).
  Proof.
    intros H (O1 & O2 & O3). destruct apply_run as (cc & IV). destruct apply_inv as (_ & _ & L & F).
    pose proof (not_candidate l None H eq_refl O1) as NC0. assert (LI : In l (s_layers st0)) by (apply in_layers; eauto).
    assert (FRN : forall x, ((exists p i, x = gen p i) \/ exists y, x = y ++ "_QAT_SepConv2D") -> ~ In x (names st0)).
    { rewrite names_init. intros x [(p & i & ->)|(y & ->)]; [apply (fn_new _ _ FN)|apply (fn_qat _ _ FN)]. }
    assert (TSN : forall t i mm r x, In t (layout_transforms sch gen is_keras) -> t_repl t i mm = Ok r -> satisfies (t_pattern t) mm -> In x (layer_names r) -> In x (layer_names mm) \/ ((exists p i, x = gen p i) \/ exists y, x = y ++ "_QAT_SepConv2D")).
    { intros t i mm r x T TR SAT X. destruct (default_cases Rtop sch gen is_keras t i mm r) as [SM|SM]; try (unfold Rtop; auto; fail); auto.
      - left. now rewrite (sim_names _ _ _ SM) in X.
      - apply structural_names in SM as [(_ & -> & _)|[(_ & _ & _ & E)|(_ & _ & _ & E)]].
        + cbn [layer_names flat_map lc_name] in X. rewrite app_nil_r in X. destruct X as [<-|X]; auto. right; left; eauto.
        + rewrite E in X. right. destruct X as [<-|[<-|[<-|[]]]]; eauto.
        + rewrite E in X. right. destruct X as [<-|[<-|[]]]; eauto. }
    pose (F0 := fun x => (exists p i, x = gen p i) \/ exists y, x = y ++ "_QAT_SepConv2D").
    pose proof (run_done (default_meq sch ueq) (am_kind m) (layout_transforms sch gen is_keras) st0 (Inv st0 F0) n st) as RD.
    destruct RD as (_ & _ & f & If & K & _ & MP).
    { apply inv_init. apply cand_init. }
    { intros s t mm r st' I AR R. pose proof AR as (_ & T & _ & FP & TR). pose proof (find_satisfies _ _ _ _ _ FP) as SAT.
      eapply inv_step' with (t := t); eauto. }
    { exact L. }
    assert (KL : In l (filter (keep st0) (s_layers st0))).
    { apply filter_In. split; auto. unfold keep. apply andb_true_iff. split; [apply inb_In; now apply in_map|apply negb_true_iff, inb_false; exact NC0]. }
    destruct (F2_in_l _ _ _ _ K KL) as (l' & L' & KK). pose proof KK as ((K1 & K2 & K3) & _). apply filter_In in L' as [L' _].
    assert (NI : In (lc_name l) (names st0)) by now apply in_map.
    destruct (MP (lc_name l) NI NC0) as (W1 & W2 & W3).
    assert (M1 : assoc (lc_name l) (s_meta st) = None).
    { rewrite W3. change (s_meta st0) with (full_map m). destruct (assoc (lc_name l) (full_map m)) eqn:EA; auto. exfalso. apply NC0. clear -EA. induction (full_map m) as [|[a b] r IH]; [discriminate|]. cbn in *. destruct (String.eqb_spec a (lc_name l)); auto. }
    destruct (F2_in_l _ _ _ _ F L') as (q & QI & QE). cbv beta in QE. rewrite K1 in QE. destruct (String.eqb_spec (lc_class l) "InputLayer") as [?|_]; [contradiction|].
    unfold quantize in QE. rewrite K1, ?K2 in QE. destruct (String.eqb_spec (lc_class l) "QuantizeLayer") as [?|_]; [contradiction|]. rewrite M1 in QE. cbn [negb andb] in QE.
    assert (SU : supports l' = supports l) by (unfold supports; now rewrite K1). assert (RG : registry_config l' = registry_config l) by (unfold registry_config; now rewrite K1).
    exists l'. split.
    { apply carried. split; auto. split; auto. split; auto. split; [rewrite K3; split; auto|]. unfold get_weights, get_nw. now rewrite W1, W2. }
    split.
    { exists f. split; auto. intros p P PI. apply If; [apply in_map; apply in_layers; eauto|]. exact (not_candidate p None P eq_refl PI). }
    destruct (inb (lc_name l) (requires_output_quantize m)) eqn:RQ; cbn [negb orb] in QE.
    - apply inb_In, requires_iff in RQ. destruct (already (lc_name l)) eqn:AL; [left; injection QE as <-; auto|]. rewrite SU, RG in QE. destruct (supports l); injection QE as <-; [right|left]; auto.
    - apply inb_false in RQ. rewrite requires_iff in RQ. injection QE as <-. left; auto.
  Qed.
End Apply.
