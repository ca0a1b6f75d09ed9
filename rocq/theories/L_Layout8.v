From Coq Require Import String.
From Verif Require Import Base M_Tensor M_Transform M_Layout8 S_Transform S_Layout8 L_Transform L_Transform2 L_Transform3 L_Transform4 L_Transform5 L_Transform6.
Open Scope string_scope.
Open Scope nat_scope.

Lemma sba_refl c : same_but_activation c c.
Proof. split; auto. Qed.
Lemma sba_trans a b c : same_but_activation a b -> same_but_activation b c -> same_but_activation a c.
Proof. intros [A1 A2] [B1 B2]. split; [intros k K; rewrite B1, A1; auto|]. destruct B2 as [-> | ->]; auto. Qed.
Lemma assoc_dict_set k v l k' : assoc k' (dict_set k v l) = if String.eqb k k' then Some v else assoc k' l.
Proof.
  induction l as [|[s x] r IH]; cbn [dict_set assoc].
  - destruct (String.eqb k k'); auto.
  - destruct (String.eqb_spec s k) as [-> | N]; cbn [assoc]; [destruct (String.eqb k k'); auto|]. rewrite IH. destruct (String.eqb_spec s k') as [->|N']; auto.
    destruct (String.eqb_spec k k'); auto. congruence.
Qed.
Lemma sba_noop c : same_but_activation c (dict_set "activation" "NoOpActivation" c).
Proof. split; [intros k K|]; rewrite assoc_dict_set; auto. destruct (String.eqb_spec "activation" k); auto. congruence. Qed.

Section Sim.
  Variable R : layerc -> meta -> meta -> Prop.
  Hypothesis RR : forall l m, R l m m.
  Hypothesis RT : forall l l' a b c, lc_class l' = lc_class l -> lc_name l' = lc_name l -> R l a b -> R l' b c -> R l a c.
  Lemma sim_refl n : sim R n n.
  Proof. induction n as [l w nw m ins IH] using node_ind'. constructor; auto; [apply sba_refl|]. induction IH; constructor; auto. Qed.
  Lemma sim_all_refl ns : Forall2 (sim R) ns ns.
  Proof. induction ns; constructor; auto. apply sim_refl. Qed.
  Lemma sim_noop n : sim R n (noop_activation n).
  Proof. destruct n as [l w nw m ins]. cbn. constructor; auto; [apply sba_noop|apply sim_all_refl]. Qed.
  Lemma sim_set_config n n' c : sim R n n' -> (forall l' m', n_layer n' = l' -> n_meta n' = m' -> R (n_layer n) (n_meta n) (mkMeta (Some (Some c)) (m_noquant m'))) -> sim R n (set_config n' c).
  Proof. intros S H. inversion S; subst. cbn in *. constructor; auto. eapply H; eauto. Qed.
  Lemma sim_set_input0 n a a' r : n_inputs n = a :: r -> sim R a a' -> sim R n (set_input0 n a').
  Proof. destruct n as [l w nw m ins]. cbn. intros -> S. cbn. constructor; auto; [apply sba_refl|]. constructor; auto. apply sim_all_refl. Qed.
End Sim.
Lemma sim_cn R m : forall r, sim R m r -> map (fun x => (lc_class (n_layer x), n_name x)) (preorder r) = map (fun x => (lc_class (n_layer x), n_name x)) (preorder m).
Proof.
  induction m as [l w nw md ins IH] using node_ind'. intros r S. inversion S; subst. cbn [preorder map]. f_equal; [unfold n_name; cbn; congruence|].
  clear S. match goal with H : Forall2 (sim R) ins ?y |- _ => induction H as [|a b x y' H F IHF] end; auto. inversion IH; subst. cbn [flat_map]. rewrite !map_app. f_equal; auto.
Qed.
Lemma sim_names R m r : sim R m r -> layer_names r = layer_names m.
Proof. intros S. apply sim_cn in S. rewrite !layer_names_preorder. apply (f_equal (map snd)) in S. rewrite !map_map in S. exact S. Qed.

(** ** Shape of the matches *)
Ltac inv_sat := repeat match goal with
  | H : satisfies (Pat _ _ _) ?m |- _ => inversion H; subst; clear H
  | H : Forall2 satisfies (_ :: _) _ |- _ => inversion H; subst; clear H
  | H : Forall2 satisfies [] _ |- _ => inversion H; subst; clear H
  end.

(** Layers that can be given a config by the BatchNorm and Concatenate transforms. *)
Definition settable (l : layerc) : Prop := match_pattern (lc_class l) BN = true \/ lc_class l = "Concatenate".
Definition given (l : layerc) (c : qcfg) : Prop := settable l /\ (c = NoOpCfg \/ exists d, c = OutputCfg d).
(** Replacements that keep the tree: everything except the SeparableConv and InputLayer ones. *)
Section Conservative.
  Variable R : layerc -> meta -> meta -> Prop.
  Hypothesis RR : forall l m, R l m m.
  (** Setting a config where none was chosen. *)
  Hypothesis RN : forall l m c, given l c -> meta_config m = None -> R l m (mkMeta (Some (Some c)) (m_noquant m)).
  Lemma has_custom_cons n ns : has_custom (n :: ns) = false -> meta_config (n_meta n) = None /\ has_custom ns = false.
  Proof. cbn. destruct (meta_config (n_meta n)); [discriminate|auto]. Qed.
  Lemma sim_bn i bn r : settable (n_layer bn) -> repl_bn i bn = Ok r -> sim R bn r.
  Proof.
    intros SB.    unfold repl_bn, input0. destruct (n_inputs bn) as [|conv t] eqn:E; [discriminate|]. cbn [bind]. destruct (has_custom [bn; conv]) eqn:H; intros [= <-]; [now apply sim_refl|].
    apply has_custom_cons in H as [H _]. apply sim_set_config; [eapply sim_set_input0; eauto; apply sim_noop; auto|]. intros l' m' <- <-.
    destruct bn as [l w nw m ins]. cbn in *. subst. cbn. apply RN; auto; split; eauto. 
  Qed.
  Lemma sim_reshape_bn i bn r : settable (n_layer bn) -> repl_reshape_bn i bn = Ok r -> sim R bn r.
  Proof.
    intros SB.    unfold repl_reshape_bn, input0. destruct (n_inputs bn) as [|sq t] eqn:E; [discriminate|]. cbn [bind]. destruct (n_inputs sq) as [|conv t'] eqn:E'; [discriminate|]. cbn [bind].
    destruct (has_custom [bn; conv]) eqn:H; intros [= <-]; [now apply sim_refl|]. apply has_custom_cons in H as [H _].
    apply sim_set_config; [eapply sim_set_input0; eauto; eapply sim_set_input0; eauto; apply sim_noop; auto|]. intros l' m' <- <-.
    destruct bn as [l w nw m ins]. cbn in *. subst. cbn. apply RN; auto; split; eauto. 
  Qed.
  Lemma sim_bn_relu i relu r : (forall a t, n_inputs relu = a :: t -> settable (n_layer a)) -> repl_bn_relu i relu = Ok r -> sim R relu r.
  Proof.
    intros SB.    unfold repl_bn_relu, input0. destruct (n_inputs relu) as [|bn t] eqn:E; [discriminate|]. cbn [bind]. destruct (n_inputs bn) as [|conv t'] eqn:E'; [discriminate|]. cbn [bind].
    destruct (has_custom [relu; bn; conv]) eqn:H; intros [= <-]; [now apply sim_refl|]. apply has_custom_cons in H as [_ H]. apply has_custom_cons in H as [H _].
    eapply sim_set_input0; eauto. apply sim_set_config; [eapply sim_set_input0; eauto; apply sim_noop; auto|]. intros l' m' <- <-.
    specialize (SB _ _ eq_refl). destruct bn as [l w nw m ins]. cbn in *. subst. cbn. apply RN; auto; split; eauto.
  Qed.
  Lemma sim_reshape_bn_relu i relu r : (forall a t, n_inputs relu = a :: t -> settable (n_layer a)) -> repl_reshape_bn_relu i relu = Ok r -> sim R relu r.
  Proof.
    intros SB.    unfold repl_reshape_bn_relu, input0. destruct (n_inputs relu) as [|bn t] eqn:E; [discriminate|]. cbn [bind]. destruct (n_inputs bn) as [|sq t'] eqn:E'; [discriminate|]. cbn [bind].
    destruct (n_inputs sq) as [|conv t''] eqn:E''; [discriminate|]. cbn [bind].
    destruct (has_custom [relu; bn; conv]) eqn:H; intros [= <-]; [now apply sim_refl|]. apply has_custom_cons in H as [_ H]. apply has_custom_cons in H as [H _].
    eapply sim_set_input0; eauto. apply sim_set_config; [eapply sim_set_input0; eauto; eapply sim_set_input0; eauto; apply sim_noop; auto|]. intros l' m' <- <-.
    specialize (SB _ _ eq_refl). destruct bn as [l w nw m ins]. cbn in *. subst. cbn. apply RN; auto; split; eauto.
  Qed.
  Lemma sim_layer_relu i relu r : repl_layer_relu i relu = Ok r ->
    (forall a t, n_inputs relu = a :: t -> R (n_layer a) (n_meta a) (mkMeta (Some (Some NoOpCfg)) (m_noquant (n_meta a)))) -> sim R relu r.
  Proof.
    unfold repl_layer_relu, input0. destruct (n_inputs relu) as [|a t] eqn:E; [discriminate|]. cbn [bind]. intros [= <-] H.
    eapply sim_set_input0; eauto. apply sim_set_config; [now apply sim_refl|]. intros l' m' _ <-. eapply H; eauto.
  Qed.
  (** Concatenate: the configs of the feeders are disabled. *)
  Hypothesis RG : forall l m, is_supported_class (lc_class l) = true -> meta_config m = None -> R l m (mkMeta (Some (Some (RegistryCfg (lc_class l) false))) (m_noquant m)).
  Hypothesis RQ : forall l m, lc_class l = "QuantizeLayer" -> R l m (mkMeta (m_cfg m) true).
  Hypothesis RT : forall l l' a b c, lc_class l' = lc_class l -> lc_name l' = lc_name l -> R l a b -> R l' b c -> R l a c.
  Lemma sim_feeds sch ik feeds : forall feeds' ok, concat_feeds sch ik feeds = (feeds', ok) -> Forall2 (sim R) feeds feeds'.
  Proof.
    induction feeds as [|n t IH]; intros feeds' ok; cbn [concat_feeds]; [intros [= <- <-]; constructor|].
    destruct (concat_feeds sch ik t) as [t' ok'] eqn:E. specialize (IH t' ok' eq_refl).
    destruct (meta_config (n_meta n)) as [c|] eqn:EC; [intros [= <- <-]; constructor; auto; now apply sim_refl|].
    destruct (negb _); [intros [= <- <-]; now apply sim_all_refl|].
    destruct (String.eqb_spec (lc_class (n_layer n)) "Concatenate"); [intros [= <- <-]; constructor; auto; apply sim_set_config; [now apply sim_refl|intros ? ? _ <-; apply RN; auto; split; auto; now right]|].
    destruct (quant_known sch (lc_class (n_layer n))) eqn:EQ.
    { assert (EQ' : lc_class (n_layer n) = "QuantizeLayer") by (destruct sch; [now apply String.eqb_eq|discriminate]). clear EQ. rename EQ' into EQ. intros [= <- <-]. constructor; auto. destruct n as [l w nw m ins]. cbn in *. constructor; auto; [apply sba_refl|now apply sim_all_refl]. }
    destruct (negb (is_supported_class _)) eqn:ES; [intros [= <- <-]; now apply sim_all_refl|]. apply negb_false_iff in ES.
    intros [= <- <-]; constructor; auto; apply sim_set_config; [now apply sim_refl|intros ? ? _ <-; now apply RG].
  Qed.
  Hypothesis RD : forall l m c, meta_config m = Some c -> R l m (mkMeta (Some (Some (disable_output c))) (m_noquant m)).
  Lemma sim_disable n : sim R n (disable_node n).
  Proof. unfold disable_node. destruct (meta_config (n_meta n)) eqn:E; [|now apply sim_refl]. apply sim_set_config; [now apply sim_refl|]. intros ? ? _ <-. now apply RD. Qed.
  Lemma sim_trans a : forall b c, sim R a b -> sim R b c -> sim R a c.
  Proof.
    induction a as [l w nw m ins IH] using node_ind'. intros b c S1 S2. inversion S1; subst. inversion S2; subst. constructor; try congruence; [eapply sba_trans; eauto|eapply RT; [| |eauto|eauto]; auto|].
    clear S1 S2. match goal with F1 : Forall2 (sim R) ins ?y, F2 : Forall2 (sim R) ?y ?z |- _ => clear - IH F1 F2; revert y z F1 F2 end. induction IH as [|x xs Hx Hxs IHx]; intros y z F1 F2; inversion F1; subst; inversion F2; subst; constructor; eauto.
  Qed.
  Lemma sim_concat sch ik i n r : settable (n_layer n) -> repl_concat sch ik i n = Ok r -> sim R n r.
  Proof.
    intros SB.    unfold repl_concat. destruct (concat_feeds sch ik (n_inputs n)) as [feeds ok] eqn:E. apply sim_feeds in E.
    assert (SI : forall ins', Forall2 (sim R) (n_inputs n) ins' -> sim R n (set_inputs n ins')).
    { intros ins' F. destruct n as [l w nw m ins]. cbn in *. constructor; auto. apply sba_refl. }
    destruct (negb ok); [intros [= <-]; auto|]. assert (S1 : sim R n (set_inputs n (map disable_node feeds))).
    { apply SI. clear -E RT RD RR. induction E; cbn; constructor; auto. eapply sim_trans; eauto. apply sim_disable. }
    destruct (meta_config (n_meta n)) eqn:EC; intros [= <-]; auto. apply sim_set_config; auto. intros ? ? _ <-. replace (m_noquant (n_meta (set_inputs n (map disable_node feeds)))) with (m_noquant (n_meta n)) by (now destruct n).
    apply RN; auto; split; eauto.
  Qed.
End Conservative.

(** All of the list: either the match is kept in shape, or it is one of the three structural replacements. *)
Definition Rtop (l : layerc) (a b : meta) : Prop := True.
Inductive structural (gen : string -> nat -> string) (i : nat) (m r : node) : string -> Prop :=
| st_input : lc_class (n_layer m) = "InputLayer" -> repl_input gen i m = Ok r -> n_inputs m = [] -> structural gen i m r "InputLayerQuantize"
| st_sep1 : lc_class (n_layer m) = "SeparableConv1D" -> repl_sepconv1d gen i m = Ok r -> n_inputs m = [] -> has_custom [m] = false -> structural gen i m r "SeparableConv1DQuantize"
| st_sep2 : lc_class (n_layer m) = "SeparableConv2D" -> repl_sepconv gen i m = Ok r -> n_inputs m = [] -> has_custom [m] = false -> structural gen i m r "SeparableConvQuantize".
Lemma match_single s t : alternatives s = [s] -> strip_any s = None -> match_pattern t s = true -> t = s.
Proof. unfold match_pattern. intros -> E. cbn. unfold match_alternative. rewrite E. intros H. symmetry. now apply String.eqb_eq. Qed.
Lemma sat_head p m cls : satisfies p m -> (exists g ps, p = Pat cls g ps) -> match_pattern (lc_class (n_layer m)) cls = true.
Proof. intros S (g & ps & ->). inversion S; subst. auto. Qed.
Lemma sat_leaf m cls g : satisfies (Pat cls g []) m -> n_inputs m = [].
Proof. intros S. inversion S; subst. match goal with H : Forall2 _ [] _ |- _ => inversion H end. auto. Qed.
Lemma default_cases (R : layerc -> meta -> meta -> Prop) sch gen ik t i m r :
  (forall l m, R l m m) ->
  (forall l m c, given l c -> meta_config m = None -> R l m (mkMeta (Some (Some c)) (m_noquant m))) ->
  (In t (layout_transforms sch gen ik) -> satisfies (t_pattern t) m -> String.prefix "Concat" (t_name t) = true ->
     (forall l m, lc_class l = "QuantizeLayer" -> R l m (mkMeta (m_cfg m) true)) /\
     (forall l l' a b c, lc_class l' = lc_class l -> lc_name l' = lc_name l -> R l a b -> R l' b c -> R l a c) /\
     (forall l m c, meta_config m = Some c -> R l m (mkMeta (Some (Some (disable_output c))) (m_noquant m))) /\
     (forall l m, is_supported_class (lc_class l) = true -> meta_config m = None -> R l m (mkMeta (Some (Some (RegistryCfg (lc_class l) false))) (m_noquant m)))) ->
  (forall a t', String.prefix "LayerRe" (t_name t) = true -> satisfies (t_pattern t) m -> n_inputs m = a :: t' -> R (n_layer a) (n_meta a) (mkMeta (Some (Some NoOpCfg)) (m_noquant (n_meta a)))) ->
  In t (layout_transforms sch gen ik) -> satisfies (t_pattern t) m -> t_repl t i m = Ok r -> sim R m r \/ structural gen i m r (t_name t).
Proof.
  intros RR RN RC RL T SAT TR. assert (T0 := T). unfold layout_transforms, default_8bit_transforms, default_n_bit_transforms in T. destruct sch;
  repeat match type of T with _ \/ _ => destruct T as [<-|T] | In _ (_ :: _) => destruct T as [<-|T] | In _ [] => destruct T end;
    cbn [t_name t_pattern t_repl] in *.
  all: try (left; unfold pat_relu, pat_act_relu, pat_conv_bn, pat_conv_reshape_bn, pat_dense_bn in SAT; inv_sat; match goal with
      | H : repl_bn _ _ = _ |- _ => eapply sim_bn; eauto; left; assumption
      | H : repl_reshape_bn _ _ = _ |- _ => eapply sim_reshape_bn; eauto; left; assumption
      | H : repl_bn_relu _ _ = _ |- _ => eapply sim_bn_relu; eauto; intros a t E; injection E as <- <-; left; assumption
      | H : repl_reshape_bn_relu _ _ = _ |- _ => eapply sim_reshape_bn_relu; eauto; intros a t E; injection E as <- <-; left; assumption
      end; fail).
  all: try (left; match goal with H : repl_layer_relu _ _ = _ |- _ => eapply sim_layer_relu; eauto end; fail).
  all: try (left; destruct (RC T0 SAT eq_refl) as (Q1 & Q2 & Q3 & Q4); eapply sim_concat; eauto; right; inversion SAT; subst; cbn [n_layer];
            match goal with H : match_pattern _ "Concatenate" = true |- _ => apply match_single in H; [exact H|reflexivity|reflexivity] end; fail).
  all: match goal with
       | H : repl_input _ _ _ = _ |- _ => right
       | H : repl_sepconv1d _ _ _ = _ |- _ => destruct (has_custom [m]) eqn:HC; [left; unfold repl_sepconv1d in H; rewrite HC in H; injection H as <-; now apply sim_refl|right]
       | H : repl_sepconv _ _ _ = _ |- _ => destruct (has_custom [m]) eqn:HC; [left; unfold repl_sepconv in H; rewrite HC in H; injection H as <-; now apply sim_refl|right]
       end; constructor; auto; try (eapply sat_leaf; eauto; fail); eapply match_single; [| |eapply sat_head; eauto]; reflexivity.
Qed.
