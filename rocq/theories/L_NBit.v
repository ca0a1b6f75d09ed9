(** Lemmas for QuantizeConfig objects and their registries. *)
From Coq Require Import String.
From Verif Require Import Base M_Tensor M_Quant M_Transform M_Layout8 M_QWrapper M_QuantizeApply M_NBit S_Transform S_Layout8 S_QuantizeApply S_NBit L_Transform L_Layout8 L_Layout8d L_QuantizeApply.
Open Scope string_scope.
Open Scope nat_scope.

(** ** Serialization *)
(** The object after a round trip: the constructor's arguments, nothing patched. *)
Fixpoint refreshed (o : cobj) : cobj :=
  match o with
  | OBase s k wa aa qo bw ba _ => OBase s k wa aa qo bw ba false
  | OActivation s qo bw ba _ => OActivation s qo bw ba false
  | OOutput s qo bw ba _ => OOutput s qo bw ba false
  | ONoOp _ => ONoOp false
  | OOutputOnly c _ => OOutputOnly (refreshed c) false
  | OFixed c b lo hi na _ => OFixed (refreshed c) b lo hi na false
  end.
(** Reachable objects: constructed, possibly switched off. *)
Inductive valid : cobj -> Prop :=
| v_base8 : forall k wa aa qo p, valid (OBase EightBit k wa aa qo 8 8 p)
| v_base : forall k wa aa qo bw ba p, valid (OBase NBit k wa aa qo bw ba p)
| v_act8 : forall qo p, valid (OActivation EightBit qo 8 8 p)
| v_act : forall bw ba p, valid (OActivation NBit true bw ba p)
| v_out8 : forall qo p, valid (OOutput EightBit qo 8 8 p)
| v_out : forall bw ba p, valid (OOutput NBit true bw ba p)
| v_noop : forall p, valid (ONoOp p)
| v_only : forall o p, valid o -> valid (OOutputOnly o p)
| v_fixed : forall o b lo hi na p, valid o -> valid (OFixed o b lo hi na p).
Lemma constructed_valid o : constructed o -> valid o.
Proof. induction 1; now constructor. Qed.
Lemma switched_valid s o : constructed o -> valid (switch_off s o).
Proof. intros H; inversion H; subst; destruct s; cbn; constructor; now apply constructed_valid. Qed.
Lemma reload_valid o : valid o -> reload o = Ok (refreshed o).
Proof.
  unfold reload, serialize. induction 1.
  - destruct k; reflexivity.
  - destruct k; reflexivity.
  - reflexivity.
  - reflexivity.
  - reflexivity.
  - reflexivity.
  - reflexivity.
  - change (deserialize (SSer (class_name (OOutputOnly o p)) (to_config (OOutputOnly o p)))) with
      (do o1 <- deserialize (SSer (class_name o) (to_config o)) ;; Ok (OOutputOnly o1 false)). rewrite IHvalid. reflexivity.
  - change (deserialize (SSer (class_name (OFixed o b lo hi na p)) (to_config (OFixed o b lo hi na p)))) with
      (do o1 <- deserialize (SSer (class_name o) (to_config o)) ;; Ok (OFixed o1 b lo hi na false)). rewrite IHvalid. reflexivity.
Qed.
Lemma refreshed_constructed o : constructed o -> refreshed o = o.
Proof. induction 1; cbn; congruence. Qed.
Lemma reload_constructed o : constructed o -> reload o = Ok o.
Proof. intros H. rewrite reload_valid by now apply constructed_valid. now rewrite refreshed_constructed. Qed.
Lemma refreshed_switch s o : constructed o -> ~ (s = EightBit /\ has_quantize_output o) -> refreshed (switch_off s o) = o.
Proof. intros H NQ; inversion H; subst; destruct s; cbn in *; try (exfalso; apply NQ; now auto); try reflexivity; now rewrite refreshed_constructed. Qed.
Lemma switch_outputs s o act : output_quantizers (switch_off s o) act = Ok [].
Proof. destruct o as [s' ? ? ? ? ? ? ?|s' ? ? ? ?|s' ? ? ? ?|?|? ?|? ? ? ? ? ?]; destruct s; try destruct s'; reflexivity. Qed.
Lemma switch_weights s o : weight_quantizers (switch_off s o) = weight_quantizers o.
Proof. destruct o as [s' ? ? ? ? ? ? ?|s' ? ? ? ?|s' ? ? ? ?|?|? ?|? ? ? ? ? ?]; destruct s; try destruct s'; reflexivity. Qed.
Lemma switch_activations s o : activation_quantizers (switch_off s o) = activation_quantizers o.
Proof. destruct o as [s' ? ? ? ? ? ? ?|s' ? ? ? ?|s' ? ? ? ?|?|? ?|? ? ? ? ? ?]; destruct s; try destruct s'; reflexivity. Qed.
Lemma survives_iff s o : constructed o -> survives_reload (switch_off s o) <-> (s = EightBit /\ has_quantize_output o) \/ (forall act, output_quantizers o act = Ok []).
Proof.
  intros C. unfold survives_reload. rewrite reload_valid by now apply switched_valid. split.
  - intros (o' & [= <-] & _ & _ & H). destruct s; [|right].
    + assert (D : has_quantize_output o \/ ~ has_quantize_output o) by (destruct o as [s' ? ? ? ? ? ? ?|s' ? ? ? ?|s' ? ? ? ?|?|? ?|? ? ? ? ? ?]; cbn; try destruct s'; auto).
      destruct D as [D|D]; [left; auto|right]. intros act. specialize (H act). rewrite switch_outputs, refreshed_switch in H; auto. intros [_ ?]; auto.
    + intros act. specialize (H act). rewrite switch_outputs, refreshed_switch in H; auto. intros [? _]; discriminate.
  - intros H. eexists. split; [reflexivity|]. destruct H as [[-> Q]|H].
    + inversion C; subst; cbn in Q; try contradiction; (split; [|split]; reflexivity).
    + destruct s.
      * assert (D : has_quantize_output o \/ ~ has_quantize_output o) by (destruct o as [s' ? ? ? ? ? ? ?|s' ? ? ? ?|s' ? ? ? ?|?|? ?|? ? ? ? ? ?]; cbn; try destruct s'; auto).
        destruct D as [D|D].
        -- inversion C; subst; cbn in D; try contradiction; (split; [|split]; reflexivity).
        -- rewrite refreshed_switch by (auto; intros [_ ?]; auto). unfold same_quantizers. rewrite switch_weights, switch_activations. split; auto. split; auto. intros act. now rewrite H, switch_outputs.
      * rewrite refreshed_switch by (auto; intros [? _]; discriminate). unfold same_quantizers. rewrite switch_weights, switch_activations. split; auto. split; auto. intros act. now rewrite H, switch_outputs.
Qed.

(** ** Loading again *)
Lemma loads_stable v o : deserialize v = Ok o -> after_load v = v -> forall n, loads n v = repeat (Ok o) n.
Proof. intros D A n. induction n as [|n IH]; auto. cbn. now rewrite D, A, IH. Qed.
Definition not_fixed (o : cobj) : Prop := match o with OFixed _ _ _ _ _ _ => False | _ => True end.
Lemma loads_not_fixed o n : constructed o -> not_fixed o -> loads n (serialize o) = repeat (Ok o) n.
Proof.
  intros C NF. destruct C; try contradiction;
    try (apply loads_stable; [apply reload_constructed; now constructor|try destruct k; reflexivity]).
  destruct n as [|n]; auto. cbn [loads repeat]. f_equal; [apply reload_constructed; now constructor|].
  assert (E : after_load (serialize (OOutputOnly o false)) = SSer "OutputOnlyConfig" [("quantize_config", SLive o)]).
  { unfold serialize. cbn [after_load class_name]. unfold restore. cbn -[deserialize].
    pose proof (reload_constructed o C) as R. unfold reload, serialize in R. rewrite R. reflexivity. }
  rewrite E. apply loads_stable; reflexivity.
Qed.
Lemma loads_fixed o b lo hi na n : constructed o -> loads (S n) (serialize (OFixed o b lo hi na false)) = Ok (OFixed o b lo hi na false) :: repeat (Err ValueError) n.
Proof.
  intros C. cbn [loads]. f_equal; [apply reload_constructed; now constructor|].
  assert (E : after_load (serialize (OFixed o b lo hi na false)) = SSer "FixedQuantizeConfig" [("config", SLive o); ("num_bits", SNat b); ("init_min", SNum lo); ("init_max", SNum hi); ("narrow_range", SBool na)]).
  { unfold serialize. cbn [after_load class_name]. unfold restore. cbn -[deserialize].
    pose proof (reload_constructed o C) as R. unfold reload, serialize in R. rewrite R. reflexivity. }
  rewrite E. induction n as [|n IH]; auto. cbn [loads repeat]. f_equal. exact IH.
Qed.

(** ** Registries *)
Lemma entry_supported cls : is_supported_class cls = true <-> (exists e, entry cls = Some e) \/ inb cls ["Activation"; "Conv2DTranspose"; "Conv2D"; "DepthwiseConv2D"] = true.
Proof.
  unfold is_supported_class, entry. split.
  - intros H. apply inb_In in H. cbn [In supported_classes] in H. repeat destruct H as [<-|H]; try contradiction; first [right; reflexivity|left; eexists; reflexivity].
  - intros [(e & H)|H].
    + repeat match type of H with (if ?b then _ else _) = _ => destruct b eqn:?E end; try discriminate; try (apply String.eqb_eq in E0; subst; reflexivity); clear H;
        (match goal with E : inb cls _ = true |- _ => apply inb_In in E; cbn [In] in E; repeat destruct E as [<-|E]; try contradiction; reflexivity end).
    + apply inb_In in H. cbn [In] in H. repeat destruct H as [<-|H]; try contradiction; reflexivity.
Qed.
Lemma dedicated_iff s p bw ba cls : (exists o, dedicated s p bw ba cls = Some o) <-> inb cls ["Activation"; "Conv2DTranspose"; "Conv2D"; "DepthwiseConv2D"] = true.
Proof.
  unfold dedicated, inb. cbn [existsb]. destruct (String.eqb cls "Activation"); [cbn; split; eauto|]. destruct (String.eqb cls "Conv2DTranspose"); [cbn; split; eauto|].
  destruct (String.eqb cls "Conv2D"); [cbn; split; eauto|]. destruct (String.eqb cls "DepthwiseConv2D"); cbn; split; eauto; [intros (o & ?)|]; discriminate.
Qed.
Lemma config_iff w r cls : (exists o, get_quantize_config w r cls = Ok o) <-> is_supported_class cls = true.
Proof.
  unfold get_quantize_config. rewrite entry_supported, <- (dedicated_iff (rg_scheme r) (rg_per_axis_off r) (rg_bw r) (rg_ba r)). destruct (dedicated _ _ _ _ cls) as [o|]; [split; eauto|].
  destruct (entry cls) as [[[wa aa] qo]|]; [split; eauto|]. split; [intros (o & ?)|intros [(e & ?)|(o & ?)]]; discriminate.
Qed.
Lemma honours_base s k wa aa qo bw ba p : honours bw ba (OBase s k wa aa qo bw ba p).
Proof.
  split; [|split].
  - intros a q H. cbn in H. apply in_map_iff in H as (x & [= _ <-] & _). destruct k; reflexivity.
  - intros a q H. cbn in H. apply in_map_iff in H as (x & [= _ <-] & _). reflexivity.
  - intros act l q H. cbn in H. injection H as <-. destruct p; [easy|]. destruct qo; [|easy]. intros [<-|[]]. reflexivity.
Qed.
Lemma honours_activation s qo bw ba p : honours bw ba (OActivation s qo bw ba p).
Proof.
  split; [|split]; try easy. intros act l q H. cbn in H. destruct p; [injection H as <-; easy|]. destruct qo; [|injection H as <-; easy]. unfold activation_outputs in H.
  destruct act as [a|]; [|discriminate]. destruct (in_set a (quantized_activations s)); [injection H as <-; intros [<-|[]]; reflexivity|]. destruct (in_set a _); [injection H as <-; easy|discriminate].
Qed.
Lemma honours_output s qo bw ba p : honours bw ba (OOutput s qo bw ba p).
Proof. split; [|split]; try easy. intros act l q H. cbn in H. injection H as <-. destruct p; [easy|]. destruct qo; [|easy]. intros [<-|[]]. reflexivity. Qed.
Lemma honours_noop bw ba p : honours bw ba (ONoOp p).
Proof. split; [|split]; try easy. intros act l q H. cbn in H. injection H as <-. easy. Qed.
Lemma honours_switch bw ba s o : honours bw ba o -> honours bw ba (switch_off s o).
Proof. intros (A & B & C). split; [|split]; [rewrite switch_weights; auto|rewrite switch_activations; auto|]. intros act l q H. rewrite switch_outputs in H. injection H as <-. easy. Qed.
Lemma honours_only bw ba o p : honours bw ba o -> honours bw ba (OOutputOnly o p).
Proof. intros (A & B & C). split; [easy|split; [exact B|]]. intros act l q H. cbn in H. destruct p; [injection H as <-; easy|]. eapply C; eauto. Qed.
Lemma dedicated_honours s p bw ba cls o : dedicated s p bw ba cls = Some o -> honours bw ba o.
Proof.
  unfold dedicated. intros H. repeat match type of H with (if ?b then _ else _) = _ => destruct b end; try discriminate; injection H as <-; try apply honours_activation; apply honours_base.
Qed.
(** What a registry's config honours. *)
Lemma config_honours w r cls o : get_quantize_config w r cls = Ok o ->
  honours (rg_bw r) (rg_ba r) o \/ honours (match rg_scheme r with EightBit => 8 | NBit => wd_bw w end) (match rg_scheme r with EightBit => 8 | NBit => wd_ba w end) o.
Proof.
  unfold get_quantize_config. destruct (dedicated _ _ _ _ cls) eqn:D; [intros [= <-]; left; eapply dedicated_honours; eauto|].
  destruct (entry cls) as [[[wa aa] qo]|]; [|discriminate]. intros [= <-]. right. destruct (rg_scheme r); apply honours_base.
Qed.
(** The registries' own fields are what was asked for; the world has the bits of the last n-bit request. *)
Definition own (q : request) : registry := let '(s, p, bw, ba) := q in match s with EightBit => mkReg EightBit p 8 8 | NBit => mkReg NBit p bw ba end.
Definition imprint (w : world) (q : request) : world := let '(s, _, bw, ba) := q in match s with EightBit => w | NBit => mkWorld bw ba end.
Lemma make_spec h : forall w, make w h = (fold_left imprint h w, map own h).
Proof. induction h as [|[[[s p] bw] ba] h IH]; intros w; auto. cbn [make fold_left map]. destruct s; cbn [new_registry imprint own]; now rewrite IH. Qed.
Lemma config_from_eq h i cls : config_from h i cls = option_map (fun q => get_quantize_config (fold_left imprint h world0) (own q) cls) (nth_error h i).
Proof. unfold config_from. rewrite make_spec, nth_error_map. now destruct (nth_error h i). Qed.
Lemma imprint_same (h : list request) bw ba : (forall q, In q h -> forall p bw' ba', q = (NBit, p, bw', ba') -> bw' = bw /\ ba' = ba) -> forall w, (wd_bw w = bw /\ wd_ba w = ba) -> fold_left imprint h w = w.
Proof.
  induction h as [|[[[s p] b1] b2] h IH]; intros H w [E1 E2]; auto. cbn [fold_left imprint]. destruct s.
  - apply IH; auto. intros q Q. apply H. now right.
  - destruct (H (NBit, p, b1, b2) (or_introl eq_refl) p b1 b2 eq_refl) as [-> ->]. replace (mkWorld bw ba) with w by (destruct w; cbn in *; congruence). apply IH; auto. intros q Q. apply H. now right.
Qed.
Lemma split_nth {A} (l : list A) i x : nth_error l i = Some x -> l = (firstn i l ++ x :: skipn (S i) l)%list.
Proof. revert i. induction l as [|a l IH]; intros [|i] E; try discriminate; cbn in *; [congruence|f_equal; auto]. Qed.
Lemma registry_unchanged (h : list request) i p bw ba : nth_error h i = Some (NBit, p, bw, ba) ->
  (forall j p' bw' ba', i < j -> nth_error h j = Some (NBit, p', bw', ba') -> bw' = bw /\ ba' = ba) -> fold_left imprint h world0 = mkWorld bw ba.
Proof.
  intros E H. rewrite (split_nth _ _ _ E), fold_left_app. cbn [fold_left imprint]. apply imprint_same with (bw := bw) (ba := ba); auto.
  intros q Q p' bw' ba' ->. apply In_nth_error in Q as (j & Q). apply (H (S i + j) p'); [lia|]. etransitivity; [|exact Q]. rewrite (split_nth _ _ _ E) at 1.
  assert (L : i < List.length h) by (apply nth_error_Some; congruence). rewrite nth_error_app2 by (rewrite firstn_length; lia). rewrite firstn_length. replace (S i + j - Nat.min i (List.length h)) with (S j) by lia. reflexivity.
Qed.
Lemma later_registries (h : list request) i p bw ba cls o : nth_error h i = Some (NBit, p, bw, ba) ->
  (forall j p' bw' ba', i < j -> nth_error h j = Some (NBit, p', bw', ba') -> bw' = bw /\ ba' = ba) -> config_from h i cls = Some (Ok o) -> honours bw ba o.
Proof.
  intros E H. rewrite config_from_eq, E. cbn [option_map]. intros [= C]. rewrite (registry_unchanged h i p bw ba E H) in C. apply config_honours in C as [C|C]; exact C.
Qed.
Lemma last_imprint h : forall w b1 b2 s p, fold_left imprint (h ++ [(s, p, b1, b2)])%list w = match s with EightBit => fold_left imprint h w | NBit => mkWorld b1 b2 end.
Proof. intros w b1 b2 s p. rewrite fold_left_app. now destruct s. Qed.
Lemma dense_bits (h : list request) i p bw ba o : nth_error h i = Some (NBit, p, bw, ba) -> config_from h i "Dense" = Some (Ok o) ->
  honours bw ba o <-> fold_left imprint h world0 = mkWorld bw ba.
Proof.
  intros E. rewrite config_from_eq, E. cbn [option_map]. intros [= <-]. cbn. split.
  - intros (A & B & _). cbn in *. specialize (A "kernel" _ (or_introl eq_refl)). specialize (B "activation" _ (or_introl eq_refl)). cbn in *. destruct (fold_left imprint h world0); cbn in *; congruence.
  - intros ->. apply honours_base.
Qed.

(** ** quantize_apply *)
(** The 8-bit scheme has no other widths. *)
Definition widths (s : scheme) (bw ba : nat) : Prop := s = EightBit -> bw = 8 /\ ba = 8.
Lemma registry_honours s w p bw ba cls o : widths s bw ba -> from_registry s w p bw ba cls = Ok o -> honours bw ba o.
Proof. intros W. unfold from_registry. destruct s; cbn [new_registry]; [destruct (W eq_refl) as [-> ->]|]; intros G; apply config_honours in G as [G|G]; exact G. Qed.
Lemma recorded_honours s w bw ba c o : widths s bw ba -> recorded s w bw ba c = Some (Ok o) -> honours bw ba o.
Proof.
  intros W. unfold recorded. destruct c as [i d| |d|cls d].
  - discriminate.
  - intros [= <-]. apply honours_noop.
  - intros [= <-]. destruct d; [|apply honours_output]. destruct s; apply honours_output.
  - pose proof (fun o => registry_honours s w false bw ba cls o W) as R. unfold from_registry in R. destruct (new_registry w s false bw ba) as [w1 r].
    destruct (get_quantize_config w1 r cls) as [o1|] eqn:G; cbn [bind]; [|discriminate]. intros [= <-]. destruct d; [apply honours_switch|]; auto.
Qed.
Lemma wrapper_honours s w p bw ba st q o : widths s bw ba -> wrapper_config s w p bw ba st q = Some (Ok o) -> honours bw ba o.
Proof.
  intros W. unfold wrapper_config. destruct q as [|name l u|]; try discriminate. destruct u as [c|c].
  - destruct (match assoc (lc_name l) (s_meta st) with Some m => meta_config m | None => None end) as [c'|]; [now apply recorded_honours|]. intros [= G]. now apply registry_honours in G.
  - destruct (from_registry s w p bw ba (lc_class l)) eqn:G; cbn [bind]; [|discriminate]. intros [= <-]. apply honours_only. now apply registry_honours in G.
Qed.
Lemma per_axis_off w s bw ba cls o : from_registry s w true bw ba cls = Ok o -> forall a q, In (a, q) (weight_quantizers o) -> ~ per_channel q.
Proof.
  unfold from_registry, get_quantize_config, dedicated, new_registry. destruct s; cbn [snd rg_scheme rg_per_axis_off rg_bw rg_ba];
    repeat match goal with |- context [if String.eqb cls ?x then Some _ else _] => destruct (String.eqb cls x) end;
    try (intros [= <-] a q H; cbn in H; repeat destruct H as [H|H]; try contradiction; injection H as _ <-; cbn; discriminate);
    destruct (entry cls) as [[[wa aa] qo]|]; try discriminate; intros [= <-] a q H; cbn in H; apply in_map_iff in H as (x & [= _ <-] & _); discriminate.
Qed.
(** Without an annotated Concatenate the layout transforms record no config that quantizes weights. *)
Lemma apply_per_axis m sch gen ik ueq n prefix already ls st : model_ok m -> fresh_naming gen (layer_names_of m) -> quantize_apply sch gen ik ueq n prefix already m = Some (Ok (ls, st)) ->
  (forall r, annotated m r -> lc_class r <> "Concatenate") ->
  forall l c, In (l, Some c) (am_layers m) -> ordinary l -> already (lc_name l) = false -> (forall s d, c <> Some (RegistryCfg s d)) ->
  exists l' u, In (Wrapped (prefix ++ lc_name l) l' (Use u)) ls /\ carried_over m st l l' /\
    forall w bw ba o, wrapper_config sch w true bw ba st (Wrapped (prefix ++ lc_name l) l' (Use u)) = Some (Ok o) ->
    forall a q, In (a, q) (weight_quantizers o) -> ~ per_channel q.
Proof.
  intros OK FN QA NCA l c H O AL UC. destruct (apply_annotated m OK sch gen ik ueq n prefix already FN ls st QA l c H O AL) as (l' & u & I & CO & U & MA). exists l', u. split; auto. split; auto.
  intros w bw ba o. unfold wrapper_config. destruct CO as (_ & EN & _). rewrite EN. fold (get_meta st (lc_name l)).
  assert (G : match assoc (lc_name l) (s_meta st) with Some m0 => meta_config m0 | None => None end = meta_config (get_meta st (lc_name l))) by (unfold get_meta; now destruct (assoc (lc_name l) (s_meta st))).
  rewrite G. destruct (meta_config (get_meta st (lc_name l))) as [c'|] eqn:EC.
  - intros E a q Q. unfold recorded in E. destruct c' as [i d| |d|s d]; [discriminate| | |].
    + injection E as <-. easy.
    + injection E as <-. destruct d; [|easy]. destruct sch; easy.
    + exfalso. destruct (ma_src _ _ _ _ _ MA _ EC) as [[_ N]|(d' & N)]; [apply N; now apply nc_annotated|]. eapply UC. unfold meta_config in N; cbn in N. exact N.
  - intros [= E]. eapply per_axis_off; eauto.
Qed.
