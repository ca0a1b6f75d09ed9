From Verif Require Import Base M_Tensor M_Schedule L_Schedule M_PruneModel S_PruneModel.
From Coq Require Import String.
Open Scope string_scope.
Open Scope nat_scope.

Section KInd.
  Variable P : kobj -> Prop.
  Hypothesis HL : forall l, P (OLayer l).
  Hypothesis HW : forall w, P (OWrap w).
  Hypothesis HI : forall i, P (OInput i).
  Hypothesis HM : forall k g ch, Forall P ch -> P (OModel k g ch).
  Fixpoint kobj_ind' (o : kobj) : P o :=
    match o with
    | OLayer l => HL l | OWrap w => HW w | OInput i => HI i
    | OModel k g ch => HM k g ch ((fix go l : Forall P l := match l with
        | [] => Forall_nil _ | a :: r => Forall_cons a (kobj_ind' a) (go r) end) ch)
    end.
End KInd.

Lemma all_Forall (P : kobj -> Prop) l :
  (fix all l := match l with [] => True | a :: r => P a /\ all r end) l <-> Forall P l.
Proof.
  induction l as [|a l IH]; split; intros H; auto; [destruct H; constructor; tauto|inversion H; subst; tauto].
Qed.

(** clone_layers is mapM of f with inputs kept *)
Lemma clone_mapM f l : (forall i, f (OInput i) = Ok (OInput i)) -> clone_layers f l = mapM f l.
Proof.
  intros H. induction l as [|o l IH]; auto. cbn [clone_layers mapM]. rewrite IH.
  destruct o; auto. rewrite H. auto.
Qed.
Lemma add_model a p k g ch : k <> Subclassed ->
  add_pruning_wrapper a p (OModel k g ch) = (do c <- mapM (add_pruning_wrapper a p) ch ;; Ok (OModel k g c)).
Proof. intros H. cbn [add_pruning_wrapper]. rewrite clone_mapM by auto. destruct k; auto. congruence. Qed.
Lemma strip_model k g ch : k <> Subclassed ->
  strip_wrapper (OModel k g ch) = (do c <- mapM strip_wrapper ch ;; Ok (OModel k g c)).
Proof. intros H. cbn [strip_wrapper]. rewrite clone_mapM by auto. destruct k; auto. congruence. Qed.

Lemma mapM_F2 {A B} (f : A -> res B) l l' : mapM f l = Ok l' <-> Forall2 (fun a b => f a = Ok b) l l'.
Proof.
  revert l'. induction l as [|a l IH]; intros l'; cbn.
  - split; intros H; [injection H as <-; constructor|inversion H; auto].
  - destruct (f a) eqn:E; cbn [bind].
    + destruct (mapM f l) eqn:F; cbn [bind].
      * split; intros H.
        -- injection H as <-. constructor; auto. apply IH. auto.
        -- inversion H as [|? ? ? ? X Y]; subst. rewrite E in X. injection X as <-. apply IH in Y. injection Y as <-. auto.
      * split; intros H; [discriminate|]. inversion H as [|? ? ? ? X Y]; subst. apply IH in Y. discriminate.
    + split; intros H; [discriminate|]. inversion H; subst. congruence.
Qed.

(** ** strip (prune m) = strip m; strip of a wrapper-free model is itself *)
Lemma strip_no_wrapper o : no_wrapper o -> no_subclassed o -> strip_wrapper o = Ok o.
Proof.
  induction o as [l|w|i|k g ch IH] using kobj_ind'; cbn [no_wrapper no_subclassed]; try tauto; auto.
  intros N S. destruct k; [| |tauto]; rewrite strip_model by discriminate.
  all: apply all_Forall in N; apply all_Forall in S.
  all: assert (mapM strip_wrapper ch = Ok ch) as ->; auto; apply mapM_F2.
  all: clear -IH N S; induction ch; constructor; inversion IH; inversion N; inversion S; subst; auto.
Qed.

Lemma truthy_iff v : truthy v = false <-> falsy v.
Proof.
  unfold falsy. destruct v as [|z| |[|x r]]; cbn; split; auto; try discriminate; try (intros [H|[H|H]]; discriminate).
  - destruct (Z.eqb_spec z 0) as [-> | N]; [auto|discriminate].
  - intros [H|[H|H]]; try discriminate. injection H as ->. reflexivity.
Qed.
Lemma mk_wrapper_layer a l w : mk_wrapper a l = Ok w -> w_layer w = l /\ c_sched (w_conf w) = a_sched a /\
  c_block (w_conf w) = a_block a /\ c_pool (w_conf w) = a_pool a /\ requested_m_by_n (a_mbyn a) (c_mbyn (w_conf w)).
Proof.
  unfold mk_wrapper, requested_m_by_n. destruct (truthy (a_mbyn a)) eqn:T.
  - destruct (convert_to_tuple_of_two_int (a_mbyn a)) as [[x y]|] eqn:C; cbn [bind]; [|discriminate].
    assert (V : a_mbyn a = PySeq [PyInt x; PyInt y]).
    { unfold convert_to_tuple_of_two_int in C. destruct (a_mbyn a) as [| | |[|[|z| |] [|[|z'| |] [|? ?]]]]; try discriminate. now injection C as -> ->. }
    destruct (negb _); [discriminate|]. destruct (_ || _)%bool; [|discriminate]. intros H. injection H as <-. cbn. repeat split; auto. right. exists x, y. auto.
  - cbn [bind]. destruct (negb _); [discriminate|]. destruct (_ || _)%bool; [|discriminate]. intros H. injection H as <-. cbn. repeat split; auto. left. split; [now apply truthy_iff|reflexivity].
Qed.

Lemma strip_prune a p o o' : add_pruning_wrapper a p o = Ok o' -> strip_wrapper o' = strip_wrapper o.
Proof.
  revert o'. induction o as [l|w|i|k g ch IH] using kobj_ind'; intros o' H.
  - cbn [add_pruning_wrapper] in H.
    assert ((do w <- mk_wrapper a l ;; Ok (OWrap w)) = Ok o' \/ o' = OLayer l) as [K| ->].
    { destruct p as [p|]; auto. destruct (p (OLayer l)); auto. right. congruence. }
    + destruct (mk_wrapper a l) eqn:E; cbn [bind] in K; [|discriminate]. injection K as <-.
      cbn. destruct (mk_wrapper_layer _ _ _ E) as (-> & _). auto.
    + auto.
  - cbn in H. injection H as <-. auto.
  - cbn in H. injection H as <-. auto.
  - destruct (match k with Subclassed => true | _ => false end) eqn:K; [destruct k; discriminate|].
    assert (k <> Subclassed) as NK by (destruct k; congruence). rewrite add_model in H by auto.
    destruct (mapM (add_pruning_wrapper a p) ch) as [c|] eqn:E; cbn [bind] in H; [|discriminate]. injection H as <-.
    rewrite !strip_model by auto. f_equal. apply mapM_F2 in E. clear -IH E. induction E; auto.
    inversion IH; subst. cbn [mapM]. rewrite IHE by auto. erewrite H2 by eauto. auto.
Qed.

Lemma strip_prune_id a policy ensure k g ch r :
  no_wrapper (OModel k g ch) ->
  prune_low_magnitude a policy ensure (TPObj (OModel k g ch)) = Ok r ->
  exists o', r = PObj o' /\ (no_subclassed (OModel k g ch) -> strip_pruning o' = Ok (OModel k g ch)).
Proof.
  intros N H. cbn [prune_low_magnitude] in H.
  assert (k <> Subclassed) as NK by (intros ->; discriminate).
  assert ((do _ <- (match policy with Some _ => ensure (OModel k g ch) | None => Ok tt end) ;;
      do o <- add_pruning_wrapper a policy (OModel k g ch) ;; Ok (PObj o)) = Ok r) as H' by (destruct k; auto; congruence).
  clear H. destruct (match policy with Some _ => _ | None => _ end); cbn [bind] in H'; [|discriminate].
  destruct (add_pruning_wrapper a policy (OModel k g ch)) as [o'|] eqn:E; cbn [bind] in H'; [|discriminate].
  injection H' as <-. exists o'. split; auto. intros S.
  assert (exists c, o' = OModel k g c) as (c & ->).
  { rewrite add_model in E by auto. destruct (mapM _ ch); cbn [bind] in E; [|discriminate]. injection E as <-. eauto. }
  cbn [strip_pruning]. rewrite (strip_prune _ _ _ _ E). apply strip_no_wrapper; auto.
Qed.

(** prune succeeds only without subclassed models at any depth *)
Lemma prune_no_subclassed a p o o' : add_pruning_wrapper a p o = Ok o' -> no_subclassed o.
Proof.
  revert o'. induction o as [l|w|i|k g ch IH] using kobj_ind'; intros o' H; cbn [no_subclassed]; auto.
  assert (k <> Subclassed) as NK by (intros ->; discriminate). rewrite add_model in H by auto.
  destruct (mapM (add_pruning_wrapper a p) ch) as [c|] eqn:E; cbn [bind] in H; [|discriminate].
  apply mapM_F2 in E. assert (Forall no_subclassed ch) as F.
  { clear -IH E. induction E; constructor; inversion IH; subst; eauto. }
  destruct k; try (apply all_Forall; auto). congruence.
Qed.
Lemma strip_prune_id' a policy ensure k g ch r :
  no_wrapper (OModel k g ch) ->
  prune_low_magnitude a policy ensure (TPObj (OModel k g ch)) = Ok r ->
  exists o', r = PObj o' /\ strip_pruning o' = Ok (OModel k g ch).
Proof.
  intros N H. destruct (strip_prune_id _ _ _ _ _ _ _ N H) as (o' & -> & K). exists o'. split; auto. apply K.
  cbn [prune_low_magnitude] in H. assert (k <> Subclassed) as NK by (intros ->; discriminate).
  destruct (match policy with Some _ => _ | None => _ end) eqn:E1; [|destruct k; cbn in H; congruence].
  destruct (add_pruning_wrapper a policy (OModel k g ch)) eqn:E; [|destruct k; cbn [bind] in H; congruence].
  eapply prune_no_subclassed; eauto.
Qed.

(** stripping leaves no wrapper at any depth *)
Lemma strip_clean o o' : strip_wrapper o = Ok o' -> no_wrapper o'.
Proof.
  revert o'. induction o as [l|w|i|k g ch IH] using kobj_ind'; intros o' H.
  1-3: cbn in H; injection H as <-; exact I.
  assert (k <> Subclassed) as NK by (intros ->; discriminate). rewrite strip_model in H by auto.
  destruct (mapM strip_wrapper ch) as [c|] eqn:E; cbn [bind] in H; [|discriminate]. injection H as <-.
  apply mapM_F2 in E. cbn [no_wrapper]. apply all_Forall. clear -IH E. induction E; constructor; inversion IH; subst; eauto.
Qed.
Lemma strip_total o : no_subclassed o -> exists o', strip_wrapper o = Ok o'.
Proof.
  induction o as [l|w|i|k g ch IH] using kobj_ind'; cbn [no_subclassed]; eauto; try (cbn; eauto; fail).
  intros S. assert (k <> Subclassed) as NK by (intros ->; auto). rewrite strip_model by auto.
  assert (exists c, mapM strip_wrapper ch = Ok c) as (c & ->); [|cbn; eauto].
  assert (Forall no_subclassed ch) as F by (destruct k; try tauto; apply all_Forall in S; auto).
  clear -IH F. induction ch as [|x ch IHc]; [eexists; reflexivity|]. inversion IH; inversion F; subst. cbn [mapM].
  destruct H1 as (y & ->); auto. cbn [bind]. destruct IHc as (ys & ->); auto. cbn; eauto.
Qed.

(** ** exactly the right layers are wrapped *)
Lemma prune_corresponds a p o o' : add_pruning_wrapper a p o = Ok o' -> corresponds (leaf_pruned a p) o o'.
Proof.
  revert o'. induction o as [l|w|i|k g ch IH] using kobj_ind'; intros o' H.
  - apply corr_leaf. cbn in H. destruct p as [p|].
    + destruct (p (OLayer l)) eqn:EP.
      * destruct (mk_wrapper a l) eqn:E; cbn in H; [|discriminate]. injection H as <-.
        destruct (mk_wrapper_layer _ _ _ E) as (A & B & C & D & D'). apply lp_layer; auto.
      * injection H as <-. eapply lp_skip; eauto.
    + destruct (mk_wrapper a l) eqn:E; cbn in H; [|discriminate]. injection H as <-.
      destruct (mk_wrapper_layer _ _ _ E) as (A & B & C & D & D'). apply lp_layer; auto.
  - cbn in H. injection H as <-. apply corr_leaf. constructor.
  - cbn in H. injection H as <-. apply corr_leaf. constructor.
  - assert (k <> Subclassed) as NK by (intros ->; discriminate). rewrite add_model in H by auto.
    destruct (mapM (add_pruning_wrapper a p) ch) as [c|] eqn:E; cbn [bind] in H; [|discriminate]. injection H as <-.
    apply corr_model. apply mapM_F2 in E. clear -IH E. induction E; constructor; inversion IH; subst; auto.
Qed.

(** ** idempotence *)
Lemma prune_idem a p a2 o o' : add_pruning_wrapper a p o = Ok o' ->
  add_pruning_wrapper a2 p o' = Ok o'.
Proof.
  revert o'. induction o as [l|w|i|k g ch IH] using kobj_ind'; intros o' H.
  - cbn in H. destruct p as [p|].
    + destruct (p (OLayer l)) eqn:EP.
      * destruct (mk_wrapper a l); cbn in H; [|discriminate]. injection H as <-. auto.
      * injection H as <-. cbn. rewrite EP. auto.
    + destruct (mk_wrapper a l); cbn in H; [|discriminate]. injection H as <-. auto.
  - cbn in H. injection H as <-. auto.
  - cbn in H. injection H as <-. auto.
  - assert (k <> Subclassed) as NK by (intros ->; discriminate). rewrite add_model in H by auto.
    destruct (mapM (add_pruning_wrapper a p) ch) as [c|] eqn:E; cbn [bind] in H; [|discriminate]. injection H as <-.
    rewrite add_model by auto.
    assert (mapM (add_pruning_wrapper a2 p) c = Ok c) as ->; auto. apply mapM_F2. apply mapM_F2 in E.
    clear -IH E. induction E; constructor; inversion IH; subst; auto.
Qed.

(** ** failure exactly when some layer to be wrapped is not supported *)
Definition wrappable (a : pargs) (l : klayer) : Prop := exists w, mk_wrapper a l = Ok w.
Lemma wrappable_iff a l : wrappable a l <->
  (a_pool a = "AVG" \/ a_pool a = "MAX") /\ (k_prunable l = true \/ registry_supports l = true) /\
  (falsy (a_mbyn a) \/ exists x y, a_mbyn a = PySeq [PyInt x; PyInt y]).
Proof.
  rewrite <- truthy_iff. unfold wrappable, mk_wrapper.
  assert (HM : (exists mn, (if truthy (a_mbyn a) then do t <- convert_to_tuple_of_two_int (a_mbyn a) ;; Ok (Some t) else Ok None) = Ok mn)
    <-> (truthy (a_mbyn a) = false \/ exists x y, a_mbyn a = PySeq [PyInt x; PyInt y])).
  { destruct (truthy (a_mbyn a)) eqn:T.
    - destruct (convert_to_tuple_of_two_int (a_mbyn a)) as [t|] eqn:E; cbn [bind].
      + split; eauto. intros _. right. destruct (a_mbyn a) as [|z| |[|[] [|[] []]]]; try discriminate. eauto.
      + split; [intros (? & ?); discriminate|]. intros [?|(x & y & K)]; [discriminate|]. rewrite K in E. discriminate.
    - split; eauto. }
  destruct (if truthy (a_mbyn a) then _ else _) as [mn|]; cbn [bind].
  - destruct (String.eqb_spec (a_pool a) "AVG"); destruct (String.eqb_spec (a_pool a) "MAX"); cbn [negb orb].
    4: { split; [intros (? & ?); discriminate|intros ([|] & _); tauto]. }
    all: destruct (k_prunable l); destruct (registry_supports l); cbn [orb].
    all: split; [intros (? & K)|intros (_ & K & _)]; try discriminate; eauto; try (repeat split; auto; apply HM; eauto).
    all: destruct K; discriminate.
  - split; [intros (? & ?); discriminate|]. intros (_ & _ & K). apply HM in K as (? & ?). discriminate.
Qed.
Definition to_wrap (p : option (kobj -> bool)) (l : klayer) : Prop :=
  match p with Some f => f (OLayer l) = true | None => True end.
Lemma prune_ok_iff a p o : no_subclassed o ->
  ((exists o', add_pruning_wrapper a p o = Ok o') <->
   forall l, In l (plain_layers o) -> to_wrap p l -> wrappable a l).
Proof.
  induction o as [l|w|i|k g ch IH] using kobj_ind'; intros S.
  - cbn [plain_layers add_pruning_wrapper]. unfold wrappable, to_wrap. destruct p as [p|].
    + destruct (p (OLayer l)) eqn:EP.
      * split.
        -- intros (o' & H) l' [-> | []] _. destruct (mk_wrapper a l') eqn:E; [eauto|discriminate].
        -- intros H. destruct (H l) as (w & ->); auto. now left. cbn; eauto.
      * split; eauto. intros _ l' [-> | []]. congruence.
    + split.
      * intros (o' & H) l' [-> | []] _. destruct (mk_wrapper a l') eqn:E; [eauto|discriminate].
      * intros H. destruct (H l) as (w & ->); auto. now left. cbn; eauto.
  - cbn. split; eauto. intros _ l [].
  - cbn. split; eauto. intros _ l [].
  - cbn [no_subclassed] in S. assert (k <> Subclassed) as NK by (intros ->; auto). rewrite add_model by auto.
    assert (Forall no_subclassed ch) as F by (destruct k; try tauto; apply all_Forall in S; auto).
    assert (((exists o', (do c <- mapM (add_pruning_wrapper a p) ch;; Ok (OModel k g c)) = Ok o') <->
             exists c, mapM (add_pruning_wrapper a p) ch = Ok c)) as ->.
    { destruct (mapM _ ch); cbn [bind]; split; intros (? & ?); eauto; discriminate. }
    cbn [plain_layers]. clear S NK. induction ch as [|x ch IHc].
    + cbn. split; eauto. intros _ l [].
    + inversion IH; inversion F; subst. specialize (IHc H2 H6). specialize (H1 H5). cbn [mapM flat_map].
      destruct (add_pruning_wrapper a p x) as [y|] eqn:E; cbn [bind].
      * destruct (mapM (add_pruning_wrapper a p) ch) as [ys|] eqn:E2; cbn [bind].
        -- split; eauto. intros _ l Hl. apply in_app_or in Hl as [Hl|Hl]; [apply H1|apply IHc]; eauto.
        -- split; [intros (? & ?); discriminate|]. intros K. destruct IHc as [_ K2].
           destruct K2 as (? & ?); [|discriminate]. intros l Hl. apply K. apply in_or_app. auto.
      * split; [intros (? & ?); discriminate|]. intros K. destruct H1 as [_ K2].
        destruct K2 as (? & ?); [|discriminate]. intros l Hl. apply K. apply in_or_app. auto.
Qed.

(** lists *)
Lemma prune_list_idem a l l' ens p : prune_low_magnitude a p ens (TPList l) = Ok (PList l') ->
  prune_low_magnitude a p ens (TPList l') = Ok (PList l').
Proof.
  cbn. destruct (mapM (prune_one a) l) as [r|] eqn:E; cbn [bind]; [|discriminate]. intros H. injection H as <-.
  assert (mapM (prune_one a) r = Ok r) as ->; auto. apply mapM_F2. apply mapM_F2 in E. induction E; constructor; auto.
  destruct x; cbn in H; try congruence; try (injection H as <-; auto).
  destruct (mk_wrapper a l0); cbn in H; [|discriminate]. injection H as <-. auto.
Qed.

(** ** configuration *)
Lemma config_roundtrip w sc : schedule_from_config (schedule_get_config (c_sched (w_conf w))) = Ok sc ->
  sc = c_sched (w_conf w) ->
  (exists a l, mk_wrapper a l = Ok w) ->
  wrapper_from_config (wrapper_get_config w) =
    Ok (mkW (mkC (c_sched (w_conf w)) (c_block (w_conf w)) (c_pool (w_conf w)) None) (w_layer w)).
Proof.
  intros E -> (a & l & M). unfold wrapper_get_config, wrapper_from_config. rewrite E. cbn [bind].
  unfold mk_wrapper in *. cbn [a_mbyn truthy a_pool a_sched a_block bind].
  destruct (if truthy (a_mbyn a) then _ else _); cbn [bind] in M; [|discriminate].
  destruct (negb (_ || _)) eqn:N; [discriminate|]. destruct (k_prunable l || registry_supports l)%bool eqn:S; [|discriminate].
  injection M as <-. cbn [w_conf c_pool w_layer c_sched c_block]. rewrite N, S. auto.
Qed.
Lemma config_same w : schedule_from_config (schedule_get_config (c_sched (w_conf w))) = Ok (c_sched (w_conf w)) ->
  (exists a l, mk_wrapper a l = Ok w) ->
  (wrapper_from_config (wrapper_get_config w) = Ok w <-> c_mbyn (w_conf w) = None).
Proof.
  intros E M. rewrite (config_roundtrip w _ E eq_refl M). destruct w as [[s b p m] l]. cbn.
  split; intros H; [injection H; congruence|subst; auto].
Qed.

(** ** C81, C82 *)
Lemma assoc_In {A} k (l : list (string * A)) a : assoc k l = Some a -> In (k, a) l.
Proof. induction l as [|[s b] l IH]; cbn; [discriminate|]. destruct (String.eqb s k) eqn:E; [|auto]. intros [= ->]. apply String.eqb_eq in E. subst. auto. Qed.
Lemma suffix_check n : String.eqb n "embeddings" || existsb (String.eqb n) ["kernel"; "pointwise_kernel"; "recurrent_kernel"; "_query_dense.kernel"; "_key_dense.kernel"; "_value_dense.kernel"; "_output_dense.kernel"] = true ->
  n = "embeddings" \/ ends_with_kernel n.
Proof.
  intros H. apply orb_true_iff in H as [H|H]; [left; now apply String.eqb_eq|right]. apply existsb_exists in H as (x & Hx & E). apply String.eqb_eq in E. subst x.
  destruct Hx as [<-|[<-|[<-|[<-|[<-|[<-|[<-|[]]]]]]]]; [exists ""|exists "pointwise_"|exists "recurrent_"|exists "_query_dense."|exists "_key_dense."|exists "_value_dense."|exists "_output_dense."]; reflexivity.
Qed.
Lemma pruned_are_kernels l ns n : prunable_names l = Ok ns -> In n ns -> n = "embeddings" \/ ends_with_kernel n.
Proof.
  unfold prunable_names. destruct (negb (registry_supports l)); [discriminate|]. destruct (existsb (String.eqb (k_class l)) rnn_layers).
  - intros H Hin. assert (E0 : forall (a b : list string), Ok a = Ok b -> a = b) by congruence. apply E0 in H. subst ns. apply in_concat in Hin as (x & Hx & Hn). apply in_map_iff in Hx as ([i [c b]] & <- & _). change (fst (snd (i, (c, b)))) with c in Hn. change (fst (i, (c, b))) with i in Hn.
    destruct (assoc c rnn_cells_weights_map) as [ws|] eqn:E; [|destruct Hn]. apply in_map_iff in Hn as (k & <- & Hk). right.
    assert (ends_with_kernel k) as (p & ->). { apply assoc_In in E. cbn in E. destruct E as [E|[E|[E|[]]]]; injection E as _ <-; destruct Hk as [<-|[<-|[]]]; first [exists ""; reflexivity|exists "recurrent_"; reflexivity]. }
    exists (String (Ascii.ascii_of_nat (48 + i)) ("." ++ p)). reflexivity.
  - destruct (assoc (k_class l) layers_weights_map) as [ws|] eqn:E; [|discriminate]. intros H Hin. injection H as <-. apply suffix_check.
    apply assoc_In in E. assert (A : forallb (fun e => forallb (fun n => String.eqb n "embeddings" || existsb (String.eqb n) ["kernel"; "pointwise_kernel"; "recurrent_kernel"; "_query_dense.kernel"; "_key_dense.kernel"; "_value_dense.kernel"; "_output_dense.kernel"]) (snd e)) layers_weights_map = true) by reflexivity.
    rewrite forallb_forall in A. specialize (A _ E). cbn [snd] in A. rewrite forallb_forall in A. auto.
Qed.
Lemma kernels_pruned l : In (k_class l) kernel_classes -> prunable_names l = Ok ["kernel"].
Proof.
  intros H. unfold prunable_names, registry_supports. cbn in H.
  repeat destruct H as [H|H]; try (rewrite <- H; reflexivity). destruct H.
Qed.
Lemma In_combine_seq_cells {A} (l : list A) i c k : nth_error l i = Some c -> In (k + i, c) (combine (seq k (List.length l)) l).
Proof.
  revert i k. induction l as [|x l IH]; intros [|i] k; cbn; try discriminate.
  - intros [= ->]. left. f_equal. lia.
  - intros H. right. replace (k + S i) with (S k + i) by lia. auto.
Qed.
Lemma assoc_cells c : In c builtin_cells -> assoc c rnn_cells_weights_map = Some ["kernel"; "recurrent_kernel"].
Proof. intros H. cbn in H. repeat destruct H as [H|H]; try (rewrite <- H; reflexivity). destruct H. Qed.
Lemma rnn_not_plain c : In c rnn_classes -> assoc c layers_weights_map = None /\ existsb (String.eqb c) rnn_layers = true.
Proof. intros H. cbn in H. repeat destruct H as [H|H]; try (rewrite <- H; split; reflexivity). destruct H. Qed.
Lemma cells_pruned l i cls b : In (k_class l) rnn_classes -> registry_supports l = true -> nth_error (k_cells l) i = Some (cls, b) -> In cls builtin_cells ->
  exists ns, prunable_names l = Ok ns /\ In (cell_name i "kernel") ns /\ In (cell_name i "recurrent_kernel") ns.
Proof.
  intros C R N B. destruct (rnn_not_plain _ C) as (_ & E). unfold prunable_names. rewrite R, E. cbn [negb]. eexists. split; [reflexivity|].
  assert (I : In (i, (cls, b)) (combine (seq 0 (List.length (k_cells l))) (k_cells l))) by (apply (In_combine_seq_cells (k_cells l) i (cls, b) 0 N)).
  split; apply in_concat; eexists; (split; [apply in_map_iff; exists (i, (cls, b)); split; [reflexivity|exact I]|]); cbn [fst snd]; rewrite (assoc_cells _ B); cbn; auto.
Qed.
Lemma rnn_supported_iff l : In (k_class l) rnn_classes -> (registry_supports l = true <-> forall cls b, In (cls, b) (k_cells l) -> In cls builtin_cells \/ b = true).
Proof.
  intros C. destruct (rnn_not_plain _ C) as (A & E). unfold registry_supports. rewrite A, E, forallb_forall. split.
  - intros H cls b I. specialize (H _ I). cbn [fst snd] in H. destruct (assoc cls rnn_cells_weights_map) as [ws|] eqn:F; auto. left.
    apply assoc_In in F. cbn in F. cbn. intuition congruence.
  - intros H [cls b] I. cbn [fst snd]. destruct (H _ _ I) as [B|B]; [rewrite (assoc_cells _ B); auto|]. destruct (assoc cls _); auto.
Qed.

Lemma collect_occurs w : forall o, In w (collect o) <-> occurs w o.
Proof.
  induction o as [l|w'|i|k g ch IH] using kobj_ind'; cbn [collect].
  - split; [intros []|intros H; inversion H].
  - split; [intros [->|[]]; constructor|intros H; inversion H; subst; left; auto].
  - split; [intros []|intros H; inversion H].
  - rewrite in_flat_map. rewrite Forall_forall in IH. split.
    + intros (o & A & B). econstructor; eauto. now apply IH.
    + intros H. inversion H as [|? ? ? o A B]; subst. exists o. split; [auto|]. now apply IH.
Qed.
Lemma pruned_collected a o o' l : add_pruning_wrapper a None o = Ok o' -> In l (plain_layers o) -> exists w, In w (collect o') /\ w_layer w = l.
Proof.
  revert o'. induction o as [l'|w|i|k g ch IH] using kobj_ind'; intros o' H Hin; try (destruct Hin; fail).
  - destruct Hin as [->|[]]. cbn in H. destruct (mk_wrapper a l) as [p|] eqn:E; cbn in H; [|discriminate]. injection H as <-. exists p. split; [now left|]. apply (mk_wrapper_layer _ _ _ E).
  - assert (k <> Subclassed) as NK by (intros ->; discriminate). rewrite add_model in H by auto.
    destruct (mapM (add_pruning_wrapper a None) ch) as [c|] eqn:E; cbn [bind] in H; [|discriminate]. injection H as <-. apply mapM_F2 in E.
    cbn [plain_layers collect] in *. clear NK. revert IH Hin. induction E as [|x y ch c Hxy E IHE]; intros IH Hin; [destruct Hin|]. cbn in Hin |- *. apply in_app_iff in Hin. inversion_clear IH as [|? ? IHx IHr].
    destruct Hin as [Hin|Hin].
    + destruct (IHx _ Hxy Hin) as (w & A & B). exists w. split; [apply in_app_iff; auto|auto].
    + destruct (IHE IHr Hin) as (w & A & B). exists w. split; [apply in_app_iff; auto|auto].
Qed.

(** ** error kinds *)
Lemma mk_wrapper_error a l e : mk_wrapper a l = Err e -> e = ValueError.
Proof.
  unfold mk_wrapper. destruct (truthy (a_mbyn a)); cbn [bind].
  - destruct (convert_to_tuple_of_two_int (a_mbyn a)) as [t|e'] eqn:C; cbn [bind].
    + destruct (negb _); [congruence|]. destruct (_ || _)%bool; congruence.
    + intros [= <-]. unfold convert_to_tuple_of_two_int in C. destruct (a_mbyn a) as [| | |[|[|z| |] [|[|z'| |] [|? ?]]]]; congruence.
  - destruct (negb _); [congruence|]. destruct (_ || _)%bool; congruence.
Qed.
Lemma clone_error f ch e : Forall (fun o => forall e, f o = Err e -> e = ValueError) ch -> clone_layers f ch = Err e -> e = ValueError.
Proof.
  revert e. induction ch as [|o r IH]; intros e F H; [discriminate|]. inversion F; subst.
  assert (G : (do o' <- f o ;; do r' <- clone_layers f r ;; Ok (o' :: r')) = Err e -> e = ValueError).
  { destruct (f o) eqn:E; cbn [bind]; [|intros [= <-]; auto]. destruct (clone_layers f r) eqn:E2; cbn [bind]; [discriminate|]. intros [= <-]. auto. }
  destruct o; cbn [clone_layers] in H; auto. destruct (clone_layers f r) eqn:E2; cbn [bind] in H; [discriminate|]. injection H as <-. auto.
Qed.
Lemma add_error a p o e : add_pruning_wrapper a p o = Err e -> e = ValueError.
Proof.
  revert e. induction o as [l|w|i|k g ch IH] using kobj_ind'; intros e H; cbn [add_pruning_wrapper] in H; try discriminate.
  - assert (G : (do w <- mk_wrapper a l ;; Ok (OWrap w)) = Err e -> e = ValueError).
    { destruct (mk_wrapper a l) eqn:E; cbn [bind]; [discriminate|]. intros [= <-]. eapply mk_wrapper_error, E. }
    destruct p as [p|]; auto. destruct (p (OLayer l)); auto. discriminate.
  - assert (G : (do c <- clone_layers (add_pruning_wrapper a p) ch ;; Ok (OModel k g c)) = Err e -> e = ValueError).
    { destruct (clone_layers _ ch) eqn:E; cbn [bind]; [discriminate|]. intros [= <-]. eapply clone_error; [|exact E]. exact IH. }
    destruct k; [exact (G H)|exact (G H)|congruence].
Qed.
Lemma strip_error o e : strip_wrapper o = Err e -> e = ValueError.
Proof.
  revert e. induction o as [l|w|i|k g ch IH] using kobj_ind'; intros e H; cbn [strip_wrapper] in H; try discriminate.
  assert (G : (do c <- clone_layers strip_wrapper ch ;; Ok (OModel k g c)) = Err e -> e = ValueError).
  { destruct (clone_layers _ ch) eqn:E; cbn [bind]; [discriminate|]. intros [= <-]. eapply clone_error; [|exact E]. exact IH. }
  destruct k; [exact (G H)|exact (G H)|congruence].
Qed.
Lemma prune_error a p ens x e : (forall o e, ens o = Err e -> e = ValueError) -> prune_low_magnitude a p ens x = Err e -> e = ValueError.
Proof.
  intros HE. destruct x as [l|o]; cbn [prune_low_magnitude].
  - intros H. destruct (mapM (prune_one a) l) eqn:E; cbn [bind] in H; [discriminate|]. injection H as <-. clear -E. revert e0 E.
    induction l as [|o r IH]; cbn [mapM]; intros e0 E; [discriminate|].
    destruct (prune_one a o) eqn:P; cbn [bind] in E.
    + destruct (mapM (prune_one a) r); cbn [bind] in E; [discriminate|]. injection E as <-. auto.
    + injection E as <-. destruct o as [l| | |]; cbn [prune_one] in P; try congruence. destruct (mk_wrapper a l) eqn:M; cbn [bind] in P; [discriminate|]. injection P as <-. eapply mk_wrapper_error, M.
  - destruct o as [l|w|i|k g ch]; try congruence.
    + destruct (mk_wrapper a l) eqn:M; cbn [bind]; [discriminate|]. intros [= <-]. eapply mk_wrapper_error, M.
    + assert (G : (do _ <- (match p with Some _ => ens (OModel k g ch) | None => Ok tt end) ;; do o <- add_pruning_wrapper a p (OModel k g ch) ;; Ok (PObj o)) = Err e -> e = ValueError).
      { assert (Q : forall e, (match p with Some _ => ens (OModel k g ch) | None => Ok tt end) = Err e -> e = ValueError) by (intros e0; destruct p; [apply HE|discriminate]).
        destruct (match p with Some _ => _ | None => _ end) eqn:M; cbn [bind]; [|intros [= <-]; auto].
        destruct (add_pruning_wrapper a p (OModel k g ch)) eqn:A; cbn [bind]; [discriminate|]. intros [= <-]. eapply add_error, A. }
      destruct k; [exact G|exact G|congruence].
Qed.
