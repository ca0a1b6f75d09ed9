(** The preserving schemes compared with the default scheme. *)
From Coq Require Import String.
From Verif Require Import Base M_Tensor M_Transform M_Layout8 M_QuantizeApply S_Transform S_Layout8 S_QuantizeApply L_Transform L_Layout8 L_Layout8b L_Layout8d L_QuantizeApply L_QuantizeApply2 M_Quant M_Preserve S_Preserve.
Open Scope string_scope.
Open Scope nat_scope.

Lemma preserve_config_ok tr l c : preserve_config tr l = Ok c -> supports l = true /\ (c = Plain (Use (registry_config l)) /\ (tr = false \/ lc_class l = "DepthwiseConv2D") \/ c = Preserving (Use (registry_config l)) /\ tr = true /\ In (lc_class l) ["Conv2D"; "Dense"]).
Proof.
  unfold preserve_config. destruct (supports l); [|discriminate]. cbn [negb]. destruct (preserve_supports tr l) eqn:P; [|discriminate]. cbn [negb]. unfold preserve_supports in P.
  destruct tr; cbn [negb orb] in *; [|intros [= <-]; auto]. destruct (String.eqb_spec (lc_class l) "DepthwiseConv2D") as [E|E]; intros [= <-]; split; auto. right. split; auto. split; auto.
  apply inb_In in P. unfold preserved_classes in P. destruct P as [P|[P|[P|[]]]]; rewrite <- P; cbn; auto.
Qed.
Lemma preserved_supported l : In (lc_class l) preserved_classes -> supports l = true.
Proof. unfold preserved_classes, supports. intros [<-|[<-|[<-|[]]]]; reflexivity. Qed.
Lemma preserve_refines prefix already tr ob md req l p : preserve_quantize prefix already tr ob md req l = Ok p ->
  exists q, quantize prefix already ob md req l = Ok q /\ same_but_output (fun _ => tr) p q.
Proof.
  unfold preserve_quantize, quantize. destruct (String.eqb (lc_class l) "QuantizeLayer").
  { destruct (1 <? ob (lc_name l)); [intros [= <-]; eexists; split; [reflexivity|now left]|]. destruct (assoc (lc_name l) md) as [mm|]; [|intros [= <-]; eexists; split; [reflexivity|now left]].
    destruct (m_cfg mm); [discriminate|]. intros [= <-]; eexists; split; [reflexivity|now left]. }
  destruct ((negb match assoc (lc_name l) md with Some _ => true | None => false end && negb (inb (lc_name l) req)) || already (lc_name l))%bool; [intros [= <-]; eexists; split; [reflexivity|now left]|].
  destruct (inb (lc_name l) req).
  - destruct (preserve_supports tr l) eqn:P.
    + destruct (preserve_config tr l) as [c|] eqn:C; [|discriminate]. cbn [bind]. intros [= <-]. apply preserve_config_ok in C as (-> & C). eexists. split; [reflexivity|]. left. cbn [forget]. destruct C as [[-> _]|[-> _]]; reflexivity.
    + intros [= <-]. unfold preserve_supports in P. apply orb_false_iff in P as [T N]. apply negb_false_iff in T. subst tr. apply inb_false in N. destruct (supports l); eexists; (split; [reflexivity|]); [right|left; reflexivity]. do 3 eexists. repeat split; auto.
  - destruct (match assoc (lc_name l) md with Some m => meta_config m | None => None end) as [c|]; [intros [= <-]; eexists; split; [reflexivity|now left]|].
    destruct (preserve_supports tr l) eqn:P; [|discriminate]. destruct (preserve_config tr l) as [c|] eqn:C; [|discriminate]. cbn [bind]. intros [= <-]. apply preserve_config_ok in C as (-> & C). eexists. split; [reflexivity|]. left. cbn [forget]. destruct C as [[-> _]|[-> _]]; reflexivity.
Qed.
Lemma same_but_output_at tr b l p q : p_layer p = l -> tr (lc_name l) = b -> same_but_output (fun _ => b) p q -> same_but_output tr p q.
Proof. intros Hl <- [H|(n & l1 & u & H1 & H2 & H3 & H4)]; [now left|]. subst p. cbn in Hl. subst l1. right. exists n, l, u. auto. Qed.
Lemma preserve_layer prefix already tr ob md req l p : preserve_quantize prefix already tr ob md req l = Ok p -> p_layer p = l.
Proof.
  unfold preserve_quantize. destruct (String.eqb (lc_class l) "QuantizeLayer").
  { destruct (1 <? ob (lc_name l)); [now intros [= <-]|]. destruct (assoc (lc_name l) md) as [mm|]; [|now intros [= <-]]. destruct (m_cfg mm); [discriminate|]. now intros [= <-]. }
  destruct (_ || _)%bool; [now intros [= <-]|]. destruct (inb (lc_name l) req).
  - destruct (preserve_supports tr l); [|now intros [= <-]]. destruct (preserve_config tr l) as [c|] eqn:C; [|discriminate]. cbn [bind]. intros [= <-]. unfold p_layer. cbn. now destruct (output_only c).
  - destruct (match assoc (lc_name l) md with Some m => meta_config m | None => None end); [now intros [= <-]|]. destruct (preserve_supports tr l); [|discriminate]. destruct (preserve_config tr l) as [c|] eqn:C; [|discriminate]. cbn [bind]. intros [= <-]. unfold p_layer. cbn. now destruct c.
Qed.
Lemma mapM_refine {A B C} (f : A -> res B) (g : A -> res C) (R : B -> C -> Prop) l : (forall a b, In a l -> f a = Ok b -> exists c, g a = Ok c /\ R b c) -> forall bs, mapM f l = Ok bs -> exists cs, mapM g l = Ok cs /\ Forall2 R bs cs.
Proof.
  induction l as [|a r IH]; intros H bs; cbn [mapM]; [intros [= <-]; eauto|]. destruct (f a) as [b|] eqn:E; [|discriminate]. cbn [bind]. destruct (mapM f r) as [bs'|] eqn:E'; [|discriminate]. cbn [bind]. intros [= <-].
  destruct (H a b (or_introl eq_refl) E) as (c & G & Rc). destruct (IH (fun a b I => H a b (or_intror I)) bs' eq_refl) as (cs & G' & F). rewrite G, G'. cbn [bind]. eauto.
Qed.

Section Apply.
Context (gen : string -> nat -> string) (ik : string -> bool) (ueq : bool) (n : nat) (prefix : string) (already tr : string -> bool) (m : amodel).
Theorem preserve_as_default ps st : preserve_apply gen ik ueq n prefix already tr m = Some (Ok (ps, st)) ->
  exists ls, quantize_apply EightBit gen ik ueq n prefix already m = Some (Ok (ls, st)) /\ Forall2 (same_but_output tr) ps ls.
Proof.
  unfold preserve_apply, quantize_apply. destruct (annotated_names m) as [|an ans]; [discriminate|]. destruct (negb (am_built m)); [discriminate|]. destruct (layout EightBit gen ik ueq n m) as [|st1|]; try discriminate.
  destruct (preserve_quantize_all prefix already tr st1 _) as [qs|] eqn:E; [|discriminate]. cbn [bind]. intros H. injection H as -> ->. unfold preserve_quantize_all in E.
  eapply mapM_refine in E as (ls & E & F).
  - unfold quantize_all. rewrite E. cbn [bind]. exists ls. split; [reflexivity|exact F].
  - intros l p _ H. cbv beta in *. destruct (String.eqb (lc_class l) "InputLayer"); [injection H as <-; eexists; split; [reflexivity|now left]|].
    pose proof (preserve_layer _ _ _ _ _ _ _ _ H) as PL. apply preserve_refines in H as (q & Q & S). exists q. split; [exact Q|]. eapply same_but_output_at; eauto.
Qed.
(** When does it fail? *)
Definition fails_req (st : state) (l : layerc) : Prop :=
  lc_class l <> "InputLayer" /\ lc_class l <> "QuantizeLayer" /\ already (lc_name l) = false /\ In (lc_name l) (requires_output_quantize m) /\ supports l = false /\ tr (lc_name l) = false.
Definition fails_class (st : state) (l : layerc) : Prop :=
  lc_class l <> "InputLayer" /\ lc_class l <> "QuantizeLayer" /\ already (lc_name l) = false /\ ~ In (lc_name l) (requires_output_quantize m) /\ assoc (lc_name l) (s_meta st) <> None /\ meta_config (get_meta st (lc_name l)) = None /\
  tr (lc_name l) = true /\ ~ In (lc_class l) preserved_classes.
Lemma step_fails st l q : (if String.eqb (lc_class l) "InputLayer" then Ok (Unwrapped l) else quantize prefix already (fun n => List.length (consuming_layers st n)) (s_meta st) (requires_output_quantize m) l) = Ok q ->
  (exists p, (if String.eqb (lc_class l) "InputLayer" then Ok (PUnwrapped l) else preserve_quantize prefix already (tr (lc_name l)) (fun n => List.length (consuming_layers st n)) (s_meta st) (requires_output_quantize m) l) = Ok p) <->
  ~ fails_req st l /\ ~ fails_class st l.
Proof.
  unfold fails_req, fails_class. destruct (String.eqb_spec (lc_class l) "InputLayer") as [EI|NI]; [intros _; split; [intros _; split; intros (X & _); contradiction|eauto]|].
  unfold quantize, preserve_quantize, get_meta. destruct (String.eqb_spec (lc_class l) "QuantizeLayer") as [EQ|NQ].
  { intros H. split; [intros _; split; intros (_ & X & _); contradiction|]. intros _. destruct (1 <? _); [eauto|]. destruct (assoc (lc_name l) (s_meta st)) as [mm|]; [|eauto]. destruct (m_cfg mm); [discriminate|eauto]. }
  destruct (inb (lc_name l) (requires_output_quantize m)) eqn:RQ.
  - apply inb_In in RQ. cbn [negb]. rewrite andb_false_r. cbn [orb]. destruct (already (lc_name l)) eqn:AL; [intros _; split; [intros _; split; intros (_ & _ & X & _); discriminate|eauto]|]. intros H.
    assert (NF : ~ (lc_class l <> "InputLayer" /\ lc_class l <> "QuantizeLayer" /\ false = false /\ ~ In (lc_name l) (requires_output_quantize m) /\ assoc (lc_name l) (s_meta st) <> None /\ meta_config (match assoc (lc_name l) (s_meta st) with Some m0 => m0 | None => meta_empty end) = None /\ tr (lc_name l) = true /\ ~ In (lc_class l) preserved_classes)) by tauto.
    unfold preserve_supports, preserve_config, preserve_supports. destruct (tr (lc_name l)) eqn:T; cbn [negb orb].
    + destruct (inb (lc_class l) preserved_classes) eqn:P; [|split; [intros _; split; [intros (_ & _ & _ & _ & _ & X); discriminate|exact NF]|eauto]].
      apply inb_In in P. rewrite (preserved_supported l P). cbn [negb]. split; [intros _; split; [intros (_ & _ & _ & _ & _ & X); discriminate|exact NF]|]. intros _. destruct (String.eqb _ "DepthwiseConv2D"); cbn [bind]; eauto.
    + destruct (supports l) eqn:SU; cbn [negb bind].
      * split; [intros _; split; [intros (_ & _ & _ & _ & X & _); discriminate|exact NF]|eauto].
      * split; [intros (p & X); discriminate|]. intros [X _]. exfalso. apply X. repeat split; auto.
  - apply inb_false in RQ. destruct (assoc (lc_name l) (s_meta st)) as [mm|] eqn:EM; cbn [negb andb orb]; [|intros _; split; [intros _; split; [intros (_ & _ & _ & X & _)|intros (_ & _ & _ & _ & X & _)]; congruence|eauto]].
    destruct (already (lc_name l)) eqn:AL; [intros _; split; [intros _; split; intros (_ & _ & X & _); discriminate|eauto]|].
    destruct (meta_config mm) as [c|] eqn:EC; [intros _; split; [intros _; split; [intros (_ & _ & _ & X & _)|intros (_ & _ & _ & _ & _ & X & _)]; congruence|eauto]|].
    intros H. destruct (supports l) eqn:SU; [|discriminate]. unfold preserve_config, preserve_supports. rewrite SU. cbn [negb]. destruct (tr (lc_name l)) eqn:T; cbn [negb orb].
    + destruct (inb (lc_class l) preserved_classes) eqn:P; cbn [negb].
      * apply inb_In in P. split; [intros _; split; [intros (_ & _ & _ & X & _)|intros (_ & _ & _ & _ & _ & _ & _ & X)]; contradiction|]. intros _. destruct (String.eqb _ "DepthwiseConv2D"); cbn [bind]; eauto.
      * apply inb_false in P. split; [intros (p & X); discriminate|]. intros [_ X]. exfalso. apply X. repeat split; auto. discriminate.
    + cbn [bind]. split; [intros _; split; [intros (_ & _ & _ & X & _); contradiction|intros (_ & _ & _ & _ & _ & _ & X & _); discriminate]|eauto].
Qed.
Lemma mapM_ok_iff {A B} (f : A -> res B) l : (exists bs, mapM f l = Ok bs) <-> forall a, In a l -> exists b, f a = Ok b.
Proof.
  induction l as [|a r IH]; cbn [mapM]; [split; [intros _ a []|eauto]|]. split.
  - destruct (f a) as [b|] eqn:E; [|intros (x & X); discriminate]. cbn [bind]. destruct (mapM f r) as [bs|]; [|intros (x & X); discriminate]. intros _ x [<-|I]; [eauto|]. apply IH; eauto.
  - intros H. destruct (H a (or_introl eq_refl)) as (b & ->). cbn [bind]. destruct IH as [_ IH]. destruct IH as (bs & ->); [intros x I; apply H; now right|]. cbn [bind]. eauto.
Qed.
Theorem preserve_ok_iff ls st : quantize_apply EightBit gen ik ueq n prefix already m = Some (Ok (ls, st)) ->
  (exists ps, preserve_apply gen ik ueq n prefix already tr m = Some (Ok (ps, st))) <-> forall l, In l (s_layers st) -> ~ fails_req st l /\ ~ fails_class st l.
Proof.
  intros Q. destruct (apply_inv m EightBit gen ik ueq n prefix already ls st Q) as (A & Bt & L & F). unfold preserve_apply. destruct (annotated_names m) as [|an ans]; [congruence|]. rewrite Bt. cbn [negb]. rewrite L.
  assert (forall l, In l (s_layers st) -> exists q, (if String.eqb (lc_class l) "InputLayer" then Ok (Unwrapped l) else quantize prefix already (fun n => List.length (consuming_layers st n)) (s_meta st) (requires_output_quantize m) l) = Ok q) as G.
  { intros l I. destruct (F2_in_l _ _ _ _ F I) as (q & _ & E). eauto. }
  split.
  - intros (ps & H) l I. destruct (preserve_quantize_all prefix already tr st (requires_output_quantize m)) as [xs|] eqn:E; [|discriminate]. destruct (G l I) as (q & Eq). apply (step_fails st l q Eq).
    unfold preserve_quantize_all in E. destruct (mapM_ok_iff (fun l => if String.eqb (lc_class l) "InputLayer" then Ok (PUnwrapped l) else preserve_quantize prefix already (tr (lc_name l)) (fun n => List.length (consuming_layers st n)) (s_meta st) (requires_output_quantize m) l) (s_layers st)) as [X _]. apply X; eauto.
  - intros H. destruct (mapM_ok_iff (fun l => if String.eqb (lc_class l) "InputLayer" then Ok (PUnwrapped l) else preserve_quantize prefix already (tr (lc_name l)) (fun n => List.length (consuming_layers st n)) (s_meta st) (requires_output_quantize m) l) (s_layers st)) as [_ X]. destruct X as (ps & E).
    + intros l I. destruct (G l I) as (q & Eq). apply (step_fails st l q Eq). auto.
    + exists ps. unfold preserve_quantize_all. rewrite E. reflexivity.
Qed.

Context (OK : model_ok m) (FN : fresh_naming gen (layer_names_of m)).
(** Annotated Dense / Conv2D layers. *)
Theorem preserve_annotated ps st l : preserve_apply gen ik ueq n prefix already tr m = Some (Ok (ps, st)) ->
  (forall r, annotated m r -> lc_class r <> "ReLU" /\ lc_class r <> "Activation" /\ lc_class r <> "Concatenate") ->
  In (l, Some None) (am_layers m) -> In (lc_class l) ["Conv2D"; "Dense"] -> already (lc_name l) = false -> tr (lc_name l) = true ->
  exists l', In (PWrapped (prefix ++ lc_name l) l' (Preserving (Use (registry_config l')))) ps /\ carried_over m st l l'.
Proof.
  intros P NA H C AL T. destruct (preserve_as_default ps st P) as (ls & Q & F2).
  assert (O : ordinary l) by (repeat split; destruct C as [<-|[<-|[]]]; try discriminate; intros [?|?]; discriminate).
  destruct (apply_annotated m OK EightBit gen ik ueq n prefix already FN ls st Q l None H O AL) as (l' & u & I & CO & U & MA).
  assert (meta_config (get_meta st (lc_name l)) = None) as MN.
  { apply (ma_plain _ _ _ _ _ MA); auto.
    - apply nc_annotated; auto. intros r R. now apply NA.
    - destruct C as [<-|[<-|[]]]; reflexivity.
    - destruct C as [<-|[<-|[]]]; discriminate.
    - right. apply nr_annotated; auto. intros r R. destruct (NA r R) as (? & ? & _). auto. }
  pose proof CO as (Ec & En & _).
  assert (In l' (s_layers st)) as IL by (apply (apply_layers m EightBit gen ik ueq n prefix already ls st Q (Wrapped (prefix ++ lc_name l) l' (Use u)) I)).
  unfold preserve_apply in P. destruct (annotated_names m) as [|an ans]; [discriminate|]. destruct (negb (am_built m)); [discriminate|]. destruct (layout EightBit gen ik ueq n m) as [|st1|]; try discriminate.
  destruct (preserve_quantize_all prefix already tr st1 _) as [qs|] eqn:E; [|discriminate]. cbn [bind] in P. injection P as -> ->. unfold preserve_quantize_all in E. apply mapM_F2 in E.
  destruct (F2_in_l _ _ _ _ E IL) as (p & Ip & Ep). cbv beta in Ep. destruct (String.eqb_spec (lc_class l') "InputLayer") as [X|_]; [exfalso; rewrite Ec in X; destruct C as [C|[C|[]]]; rewrite X in C; discriminate C|].
  exists l'. split; [|exact CO].
  assert (NRQ : inb (lc_name l) (requires_output_quantize m) = false).
  { apply inb_false. rewrite requires_iff by auto. intros (l0 & _ & _ & _ & X). apply X. exists l. split; auto. now exists None. }
  unfold preserve_quantize in Ep. rewrite En, NRQ, AL in Ep. destruct (String.eqb_spec (lc_class l') "QuantizeLayer") as [X|_]; [exfalso; rewrite Ec in X; destruct C as [C|[C|[]]]; rewrite X in C; discriminate C|].
  unfold get_meta in MN. assert (assoc (lc_name l) (s_meta st) <> None) as IM.
  { pose proof (ma_some _ _ _ _ _ MA) as S1. unfold get_meta in S1 at 1. destruct (assoc (lc_name l) (s_meta st)); [discriminate|]. exfalso. apply S1; [discriminate|reflexivity]. }
  destruct (assoc (lc_name l) (s_meta st)) as [mm|]; [|congruence]. cbn [negb andb orb] in Ep. rewrite MN in Ep. unfold preserve_config, preserve_supports in Ep. rewrite T in Ep. cbn [negb orb] in Ep.
  assert (inb (lc_class l') preserved_classes = true /\ supports l' = true /\ String.eqb (lc_class l') "DepthwiseConv2D" = false) as (X1 & X2 & X3).
  { unfold supports. rewrite Ec. destruct C as [<-|[<-|[]]]; repeat split; reflexivity. }
  rewrite X1, X2, X3 in Ep. cbn [negb bind] in Ep. injection Ep as <-. exact Ip.
Qed.
(** Nothing else gets a preserving quantizer. *)
Theorem preserving_only ps st nm l u : preserve_apply gen ik ueq n prefix already tr m = Some (Ok (ps, st)) -> In (PWrapped nm l (Preserving u)) ps ->
  In (lc_class l) ["Conv2D"; "Dense"] /\ tr (lc_name l) = true /\ already (lc_name l) = false /\ u = Use (registry_config l) /\ meta_config (get_meta st (lc_name l)) = None /\
  ((exists l0 c, In (l0, Some c) (am_layers m) /\ lc_name l0 = lc_name l /\ lc_class l0 = lc_class l) \/ ~ In (lc_name l) (layer_names_of m)).
Proof.
  intros P I. destruct (preserve_as_default ps st P) as (ls & Q & _). destruct (apply_run m OK EightBit gen ik ueq n prefix already FN ls st Q) as (cc & IV).
  unfold preserve_apply in P. destruct (annotated_names m) as [|an ans]; [discriminate|]. destruct (negb (am_built m)); [discriminate|]. destruct (layout EightBit gen ik ueq n m) as [|st1|]; try discriminate.
  destruct (preserve_quantize_all prefix already tr st1 _) as [qs|] eqn:E; [|discriminate]. cbn [bind] in P. injection P as -> ->. unfold preserve_quantize_all in E. apply mapM_F2 in E.
  assert (exists l0, In l0 (s_layers st) /\ (if String.eqb (lc_class l0) "InputLayer" then Ok (PUnwrapped l0) else preserve_quantize prefix already (tr (lc_name l0)) (fun n => List.length (consuming_layers st n)) (s_meta st) (requires_output_quantize m) l0) = Ok (PWrapped nm l (Preserving u))) as (l0 & L0 & H).
  { clear -E I. induction E as [|a b x y H F IH]; [destruct I|]. destruct I as [->|I]; [exists a; split; [now left|exact H]|]. destruct (IH I) as (l0 & L0 & G). exists l0. split; [now right|exact G]. }
  clear E. destruct (String.eqb (lc_class l0) "InputLayer"); [discriminate|]. pose proof (preserve_layer _ _ _ _ _ _ _ _ H) as PL. cbn in PL. subst l0.
  unfold preserve_quantize in H. destruct (String.eqb (lc_class l) "QuantizeLayer"); [destruct (1 <? _); [discriminate|]; destruct (assoc (lc_name l) (s_meta st)) as [mm|]; [destruct (m_cfg mm)|]; discriminate|].
  destruct (already (lc_name l)) eqn:AL; [rewrite orb_true_r in H; discriminate|]. rewrite orb_false_r in H. destruct (inb (lc_name l) (requires_output_quantize m)) eqn:RQ.
  { rewrite andb_false_r in H. destruct (preserve_supports _ l); [|discriminate]. destruct (preserve_config _ l) as [c|] eqn:C; [|discriminate]. cbn [bind] in H. injection H as _ H. apply preserve_config_ok in C as (_ & [[-> _]|[-> _]]); discriminate. }
  rewrite andb_true_r in H. destruct (assoc (lc_name l) (s_meta st)) as [mm|] eqn:EM; [|discriminate]. cbn [negb] in H. destruct (meta_config mm) eqn:EC; [discriminate|].
  destruct (preserve_supports _ l); [|discriminate]. destruct (preserve_config _ l) as [c|] eqn:C; [|discriminate]. cbn [bind] in H. injection H as _ ->. apply preserve_config_ok in C as (_ & [[X _]|(X & T & K)]); [discriminate|]. injection X as ->.
  split; [exact K|]. split; [exact T|]. split; [reflexivity|]. split; [reflexivity|]. split; [unfold get_meta; now rewrite EM|].
  destruct (i_classes _ _ _ _ _ IV l L0) as [(l1 & L1 & E1 & E2)|[_ X]]; [|right; rewrite <- names_init; exact X]. left. apply in_layers in L1 as (a & A). destruct a as [c|]; [exists l1, c; auto|]. exfalso.
  assert (ordinary l1) as O1 by (unfold ordinary, sepconv; rewrite E1; destruct K as [<-|[<-|[]]]; repeat split; try discriminate; intros [?|?]; discriminate).
  pose proof (not_candidate m OK l1 None A eq_refl (proj1 O1)) as NC0.
  destruct (apply_others m OK EightBit gen ik ueq n prefix already FN ls st Q l1 A O1) as (l2 & CO & _ & D). destruct (apply_inv m EightBit gen ik ueq n prefix already ls st Q) as (_ & _ & _ & F).
  (* the default scheme wraps the same layer with its full config *)
  destruct (F2_in_l _ _ _ _ F L0) as (q & Iq & Eq). cbv beta in Eq. destruct (String.eqb_spec (lc_class l) "InputLayer") as [X|_]; [rewrite X in K; destruct K as [K|[K|[]]]; discriminate|].
  unfold quantize in Eq. rewrite EM, AL, RQ, EC in Eq. cbn [negb andb orb] in Eq. destruct (String.eqb_spec (lc_class l) "QuantizeLayer") as [X|_]; [rewrite X in K; destruct K as [K|[K|[]]]; discriminate|].
  destruct (supports l); [|discriminate]. injection Eq as <-. pose proof CO as (_ & En2 & _).
  destruct D as [[_ D]|[_ D]]; pose proof (wrapped_once m EightBit gen ik ueq n prefix already ls st _ _ OK FN Q Iq D) as W; cbn [q_layer] in W; rewrite En2, E2 in W; specialize (W eq_refl); discriminate.
Qed.
End Apply.
