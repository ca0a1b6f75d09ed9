(** Convolution, batch normalization and ReLU are fused. *)
From Coq Require Import String.
From Verif Require Import Base M_Tensor M_Transform M_Layout8 M_QuantizeApply S_Transform S_Layout8 S_QuantizeApply L_Transform L_Transform3 L_Transform5 L_Layout8 L_Layout8b L_Layout8c L_Layout8d L_Layout8f L_QuantizeApply.
Open Scope string_scope.
Open Scope nat_scope.

Theorem cbr_fused sch gen ik ueq n prefix already m ls st conv bn relu :
  model_ok m -> fresh_naming gen (layer_names_of m) -> quantize_apply sch gen ik ueq n prefix already m = Some (Ok (ls, st)) ->
  conv_bn_relu m conv bn relu -> already (lc_name conv) = false -> already (lc_name bn) = false ->
  (exists l', In (Wrapped (prefix ++ lc_name bn) l' (Use NoOpCfg)) ls /\ carried_over m st bn l') /\
  (exists l' u, In (Wrapped (prefix ++ lc_name conv) l' (Use u)) ls /\ carried_over m st conv l' /\ assoc "activation" (lc_cfg l') = Some "NoOpActivation").
Proof.
  intros OK FN Q [KD (A1 & A2 & A3) ((C1 & C2 & C3) & B1 & R1) ((c & I1 & I2) & (c' & J1 & J2)) ((F1 & F2) & (G1 & G2))] AC AB.
  set (st0 := initial_state m) in *.
  assert (NI : lc_class conv <> "InputLayer" /\ lc_class bn <> "InputLayer" /\ lc_class relu <> "InputLayer").
  { split; [|split]; [destruct C1 as [<-|[<-|[<-|[]]]]|destruct B1 as [<-|[<-|[]]]|destruct R1 as [->|[-> _]]]; discriminate. }
  destruct NI as (N1 & N2 & N3).
  assert (IN : forall l a, In (l, a) (am_layers m) -> In l (s_layers st0)) by (intros l a H; apply in_layers; eauto).
  assert (CA : forall l, In (l, Some None) (am_layers m) -> In (lc_name l) (s_cand st0)).
  { intros l H. cbn. apply map_keys. right. apply annotated_names_iff. exists l. split; auto. now exists None. }
  assert (ME : forall l, In (l, Some None) (am_layers m) -> lc_class l <> "InputLayer" -> meta_config (get_meta st0 (lc_name l)) = None).
  { intros l H H2. unfold get_meta. cbn. rewrite (meta_init m OK l None H H2). reflexivity. }
  assert (CH : chain (lc_name conv) (lc_name bn) (lc_name relu) conv bn relu st0).
  { constructor.
    - exists conv. split; [repeat split; eauto|auto].
    - exists bn, c. split; [repeat split; eauto|auto].
    - exists relu, c'. split; [repeat split; eauto|auto].
    - intros l L X. apply in_layers in L as (a & L). eauto.
    - intros l L X. apply in_layers in L as (a & L). eauto.
    - intros o O. cbn in O. auto.
    - intros x [<-|[<-|[<-|[]]]]; auto.
    - intros x [<-|[<-|[<-|[]]]]; auto. }
  pose proof (apply_inv _ _ _ _ _ _ _ _ _ _ Q) as (_ & _ & L & _). unfold layout in L. rewrite KD in L.
  assert (W0 : wf_model Functional st0) by (rewrite <- KD; apply OK).
  assert (FN0 : fresh_naming gen (names st0)) by (unfold st0; rewrite names_init; exact FN).
  pose proof (live (lc_name conv) (lc_name bn) (lc_name relu) conv bn relu eq_refl eq_refl eq_refl C1 C2 B1 R1 sch gen ik (default_meq sch ueq) st0 W0 (init_ok m OK) FN0 (cand_init _ _ _ _ _ _ _ _ _ _ Q) (IN _ _ A1) (IN _ _ A2) (IN _ _ A3) CH n) as LV.
  unfold st0 in LV. rewrite L in LV. destruct LV as [(lv & V1 & V2 & V3) FM].
  assert (O1 : ordinary bn) by (unfold ordinary, sepconv; destruct B1 as [<-|[<-|[]]]; repeat split; try discriminate; intros [X|X]; discriminate).
  assert (O2 : ordinary conv) by (unfold ordinary, sepconv; destruct C1 as [<-|[<-|[<-|[]]]]; repeat split; try discriminate; intros [X|X]; discriminate).
  split.
  - destruct (apply_annotated m OK sch gen ik ueq n prefix already FN ls st Q bn None A2 O1 AB) as (l' & u & P1 & P2 & P3 & _). exists l'. split; auto. unfold meta_config in P3. rewrite FM in P3. destruct P3 as [(_ & _ & P3)|P3]; [discriminate|]. injection P3 as <-. exact P1.
  - destruct (apply_annotated m OK sch gen ik ueq n prefix already FN ls st Q conv None A1 O2 AC) as (l' & u & P1 & P2 & _). exists l', u. split; auto. split; auto.
    pose proof (apply_layers m sch gen ik ueq n prefix already ls st Q _ P1) as X. cbn in X. destruct P2 as (E1 & E2 & _). destruct (apply_run m OK sch gen ik ueq n prefix already FN ls st Q) as (cc & IV).
    rewrite (by_name st l' lv); auto; [|congruence]. eapply wf_model_names. eapply i_wf. exact IV.
Qed.
