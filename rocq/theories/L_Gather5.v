(** The flat interface simulates the Encoder. *)
From Coq Require Import Ascii Permutation Sorted Lia.
From Verif Require Import Base M_Encoder L_Encoder M_Dicts S_Dicts L_Dicts L_Keys M_Gather S_Gather L_Gather L_Gather2 L_Gather3 L_Gather4.

Section G5.
Context {V Sp M W : Type} (spec : V -> Sp) (compatible : Sp -> V -> bool).
Hypothesis Eager : forall x y, compatible (spec x) y = true <-> spec x = spec y.
Notation dval := (dval V).
Notation alike := (alike spec).
Context (c : @core V M W) (tspec : Sp) (zeros : V) (f : @frame V).
Hypothesis BK : by_key c.
Hypothesis FS : fixed_structure spec compatible c tspec f.
Hypothesis Zc : compatible tspec zeros = true.

Definition slot_for (v : dval) (s : slot) : Prop := exists py t, split_dict_py_tf v = Ok (py, t) /\ s = mkSlot (blank t) py (map spec (values t)).

Lemma tf_part_alike (v w pv tv pw tw : dval) : alike v w -> at_path [] v = ADict -> split_dict_py_tf v = Ok (pv, tv) -> split_dict_py_tf w = Ok (pw, tw) -> alike tv tw /\ only_tensors tv.
Proof.
  intros A D Ev Ew. pose proof A as (Wv & Ww & Al). destruct (split_parts v Wv D) as (a & b & E & _ & Wb & _ & Pb). rewrite Ev in E. injection E as <- <-.
  destruct (split_parts w Ww) as (a' & b' & E & _ & Wb' & _ & Pb'); [now apply (alike_adict spec _ _ [] A)|]. rewrite Ew in E. injection E as <- <-. split.
  - split; [exact Wb|]. split; [exact Wb'|]. intros p. rewrite Pb, Pb'. specialize (Al p). destruct (at_path p v), (at_path p w); cbn in *; tauto.
  - intros p x H. rewrite Pb in H. destruct (at_path p v); discriminate.
Qed.
(** The flat TensorFlow values of a dictionary. *)
Lemma tf_values_lists (v : dval) : wf_dval v -> at_path [] v = ADict -> exists l, tf_values v = Ok l /\ lists v l.
Proof.
  intros W0 D. destruct (split_parts v W0 D) as (a & b & E & _ & Wb & _ & Pb). unfold tf_values. rewrite E. cbn [bind]. exists (values b). split; [reflexivity|].
  apply lists_ext with b; [intros p x; rewrite Pb; destruct (at_path p v); split; congruence|]. apply lists_values; [exact Wb| |reflexivity]. intros p x H. rewrite Pb in H. destruct (at_path p v); discriminate.
Qed.
Lemma lists_tf (v py t : dval) l : wf_dval v -> at_path [] v = ADict -> split_dict_py_tf v = Ok (py, t) -> lists v l -> l = values t.
Proof.
  intros W0 D E L. destruct (split_parts v W0 D) as (a & b & E' & _ & Wb & _ & Pb). rewrite E in E'. injection E' as <- <-. apply lists_values; [exact Wb| |].
  - intros p x H. rewrite Pb in H. destruct (at_path p v); discriminate.
  - eapply lists_ext; [|exact L]. intros p x. rewrite Pb. destruct (at_path p v); split; congruence.
Qed.
Lemma slot_of_ok (v : dval) : wf_dval v -> at_path [] v = ADict -> exists s, slot_of spec v = Ok s /\ slot_for v s.
Proof.
  intros W0 D. destruct (split_parts v W0 D) as (a & b & E & _). unfold slot_of. rewrite E. cbn [bind]. eexists. split; [reflexivity|]. exists a, b. auto.
Qed.
Lemma use_ok (v0 v : dval) s l : slot_for v0 s -> alike v0 v -> at_path [] v0 = ADict -> lists v l ->
  check_list compatible (sl_spec s) l = Ok tt /\ exists v', rebuild (sl_struct s) (sl_py s) l = Ok v' /\ same v' v.
Proof.
  intros (py & t & E & ->) A D L. cbn [sl_spec sl_struct sl_py]. pose proof A as (W0 & Wv & _). assert (Dv : at_path [] v = ADict) by now apply (alike_adict spec _ _ [] A).
  split; [|now apply (rebuild_spec spec v0)]. destruct (split_parts v Wv Dv) as (a & b & E' & _). rewrite (lists_tf v a b l Wv Dv E' L). apply (check_values spec compatible Eager). now apply (tf_part_alike v0 v py t a b).
Qed.

(** ** What construction leaves behind *)
Record built (g : @gather V Sp M W) : Prop := {
  b_core : g_core g = c; b_tspec : g_tspec g = tspec; b_zeros : g_zeros g = zeros;
  b_state : exists st0, alike (f_st f) st0 /\ g_state g = blank st0 /\ g_state_spec g = map spec (values st0);
  b_ep : exists v, slot_for v (g_ep g) /\ alike (f_ep f) v;
  b_bp : exists v, slot_for v (g_bp g) /\ alike (f_bp f) v;
  b_ap : exists v, slot_for v (g_ap g) /\ alike (with_shapes_after (f_ap f) (f_sha f)) v;
  b_es : exists v t, alike (with_shapes_before (f_enc f) (f_shb f)) v /\ split_dict_py_tf v = Ok (g_enc_py g, t) /\ g_enc g = blank t /\
           g_enc_spec g = map (fun kv => (fst kv, spec (snd kv))) (joined_values t);
  b_upd : exists u, alike (f_upd f) u /\ g_upd g = blank u;
  b_part : exists p, alike (f_part f) p /\ g_part g = blank p /\ g_part_spec g = spec_of_part spec (to_part p)
}.
Lemma ps_ne : "params" <> "shapes". Proof. discriminate. Qed.
Lemma ts_ne : "tensors" <> "shapes". Proof. discriminate. Qed.
Lemma dict_of (v w : dval) : alike v w -> at_path [] v = ADict -> at_path [] w = ADict. Proof. intros A. apply (alike_adict spec _ _ [] A). Qed.
Lemma wf_r (v w : dval) : alike v w -> wf_dval w. Proof. intros (_ & H & _); exact H. Qed.
Lemma wf_l (v w : dval) : alike v w -> wf_dval v. Proof. intros (H & _ & _); exact H. Qed.

Lemma nested_params_ok w st st' : alike (f_st f) st -> same st' st -> exists ep bp ap sha ep' bp' ap', core_params c zeros w st ep bp ap sha /\
  nested_params c zeros w st' = Ok (ep', bp', ap') /\ same ep' ep /\ same bp' bp /\ same ap' (with_shapes_after ap sha) /\
  alike (f_ep f) ep /\ alike (f_bp f) bp /\ alike (f_ap f) ap /\ alike (f_sha f) sha.
Proof.
  intros A Sm. destruct (fs_params _ _ _ _ _ FS w st A) as (ep & dp & E1 & A1 & A2). destruct (fs_split_params _ _ _ _ _ FS dp A2) as (bp & ap & E2 & A3 & A4).
  destruct (fs_encode _ _ _ _ _ FS w zeros ep Zc A1) as (enc & upd & sh & E3 & A5 & A6 & A7). destruct (fs_split_shapes _ _ _ _ _ FS sh A7) as (shb & sha & E4 & A8 & A9).
  unfold nested_params. pose proof (bk_params c BK w st' st Sm) as B1. rewrite E1 in B1. destruct (k_params c w st') as [[ep' dp']|] eqn:F1; [|destruct B1]. destruct B1 as [B1 B1']. cbn [fst snd] in *.
  pose proof (bk_split_params c BK dp' dp B1') as B2. rewrite E2 in B2. cbn [bind]. destruct (k_split_params c dp') as [[bp' ap']|] eqn:F2; [|destruct B2]. destruct B2 as [B2 B2']. cbn [fst snd bind] in *.
  pose proof (bk_encode c BK w zeros ep' ep B1) as B3. rewrite E3 in B3. destruct (k_encode c w zeros ep') as [[[enc' upd'] sh']|] eqn:F3; [|destruct B3]. destruct B3 as [_ B3]. cbn [fst snd bind] in *.
  pose proof (bk_split_shapes c BK sh' sh B3) as B4. rewrite E4 in B4. destruct (k_split_shapes c sh') as [[shb' sha']|] eqn:F4; [|destruct B4]. destruct B4 as [_ B4]. cbn [fst snd bind] in *.
  exists ep, bp, ap, sha, ep', bp', (DDict [("params", ap'); ("shapes", sha')]). split; [exists dp, enc, upd, sh, shb; auto|]. split; [reflexivity|]. split; [exact B1|]. split; [exact B2|].
  split; [apply two_same; [exact ps_ne|exact B2'|exact B4]|]. auto.
Qed.
Lemma nested_encode_ok w x ep ep' : compatible tspec x = true -> alike (f_ep f) ep -> same ep' ep -> exists enc upd shb es' upd', core_encode c w x ep enc upd shb /\
  nested_encode c w x ep' = Ok (es', upd') /\ same es' (with_shapes_before enc shb) /\ same upd' upd /\ alike (f_enc f) enc /\ alike (f_upd f) upd /\ alike (f_shb f) shb.
Proof.
  intros Cx A Sm. destruct (fs_encode _ _ _ _ _ FS w x ep Cx A) as (enc & upd & sh & E3 & A5 & A6 & A7). destruct (fs_split_shapes _ _ _ _ _ FS sh A7) as (shb & sha & E4 & A8 & A9).
  unfold nested_encode. pose proof (bk_encode c BK w x ep' ep Sm) as B3. rewrite E3 in B3. destruct (k_encode c w x ep') as [[[enc' upd'] sh']|] eqn:F3; [|destruct B3]. destruct B3 as [[B3 B3'] B3'']. cbn [fst snd bind] in *.
  pose proof (bk_split_shapes c BK sh' sh B3'') as B4. rewrite E4 in B4. destruct (k_split_shapes c sh') as [[shb' sha']|] eqn:F4; [|destruct B4]. destruct B4 as [B4 _]. cbn [fst snd bind] in *.
  exists enc, upd, shb, (DDict [("tensors", enc'); ("shapes", shb')]), upd'. split; [exists sh, sha; auto|]. split; [reflexivity|]. split; [now apply two_same; [exact ts_ne| |]|]. auto.
Qed.
Lemma nested_before_ok es enc shb bp bp' : same es (with_shapes_before enc shb) -> same bp' bp -> alike (f_enc f) enc -> alike (f_shb f) shb -> alike (f_bp f) bp ->
  exists p p', k_before c enc bp shb = Ok p /\ nested_before c es bp' = Ok p' /\ same p' p /\ alike (f_part f) p.
Proof.
  intros Se Sb Ae As Ab. destruct (fs_before _ _ _ _ _ FS enc bp shb Ae Ab As) as (p & E & Ap). destruct (two_item _ _ _ _ _ ts_ne Se (wf_r _ _ Ae) (wf_r _ _ As)) as (enc' & shb' & I1 & I2 & S1 & S2).
  unfold nested_before. rewrite I1. cbn [bind]. rewrite I2. cbn [bind]. pose proof (bk_before c BK enc' enc bp' bp shb' shb S1 Sb S2) as B. rewrite E in B. destruct (k_before c enc' bp' shb') as [p'|]; [|destruct B].
  exists p, p'. auto.
Qed.
Lemma nested_after_ok q p ap' ap sha n : same q p -> same ap' (with_shapes_after ap sha) -> alike (f_part f) p -> alike (f_ap f) ap -> alike (f_sha f) sha ->
  exists y, k_after c p ap n sha = Ok y /\ nested_after c q ap' n = Ok y /\ compatible tspec y = true.
Proof.
  intros Sq Sa Ap Aa As. destruct (fs_after _ _ _ _ _ FS p ap n sha Ap Aa As) as (y & E & Cy). destruct (two_item _ _ _ _ _ ps_ne Sa (wf_r _ _ Aa) (wf_r _ _ As)) as (a' & sha' & I1 & I2 & S1 & S2).
  unfold nested_after. rewrite I1. cbn [bind]. rewrite I2. cbn [bind]. pose proof (bk_after c BK q p a' ap n sha' sha Sq S1 S2) as B. rewrite E in B. destruct (k_after c q a' n sha') as [y'|]; [|destruct B]. cbn [both] in B. subst y'. exists y. auto.
Qed.
Lemma es_safe : slash_safe (with_shapes_before (f_enc f) (f_shb f)).
Proof.
  clear Eager BK Zc zeros.
  destruct (fs_keys _ _ _ _ _ FS) as (S1 & S2 & _). intros p k k' ch r H H' E. unfold with_shapes_before in *. change (DDict [("tensors", f_enc f); ("shapes", f_shb f)]) with (two "tensors" "shapes" (f_enc f) (f_shb f)) in *.
  rewrite two_at in H, H'. destruct p as [|k0 p]; cbn [app] in H, H'.
  - destruct (String.eqb_spec k "tensors") as [-> | N1].
    + destruct (String.eqb_spec k' "tensors") as [-> | N2]; [exfalso; apply (f_equal (@List.length _)) in E; rewrite app_length in E; cbn in E; lia|].
      destruct (String.eqb_spec k' "shapes") as [-> | N3]; [|congruence]. vm_compute in E. discriminate.
    + destruct (String.eqb_spec k "shapes") as [-> | N2]; [|discriminate]. destruct (String.eqb_spec k' "tensors") as [-> | N3]; [vm_compute in E; discriminate|].
      destruct (String.eqb_spec k' "shapes") as [-> | N4]; [|congruence]. exfalso; apply (f_equal (@List.length _)) in E; rewrite app_length in E; cbn in E; lia.
  - destruct (String.eqb k0 "tensors"); [apply (S1 p k k' ch r); auto|]. destruct (String.eqb k0 "shapes"); [apply (S2 p k k' ch r); auto|discriminate].
Qed.
Lemma tf_part_safe (v py t : dval) : wf_dval v -> at_path [] v = ADict -> split_dict_py_tf v = Ok (py, t) -> slash_safe v -> slash_safe t.
Proof.
  clear.
  intros W0 D E Sf. destruct (split_parts v W0 D) as (a & b & E' & _ & Wb & _ & Pb). rewrite E in E'. injection E' as <- <-. intros p k k' ch r H H' Ec. rewrite Pb in H, H'.
  apply (Sf p k k' ch r); [destruct (at_path (p ++ [k]) v); congruence|destruct (at_path (p ++ [k']) v); congruence|exact Ec].
Qed.

(** ** Each method *)
Section Methods.
Context (g : @gather V Sp M W) (B : built g).
Lemma get_params_ok w st fs : alike (f_st f) st -> lists st fs -> exists ep bp ap sha e b a, core_params c zeros w st ep bp ap sha /\
  g_get_params compatible g w fs = Ok (e, b, a) /\ lists ep e /\ lists bp b /\ lists (with_shapes_after ap sha) a /\
  alike (f_ep f) ep /\ alike (f_bp f) bp /\ alike (f_ap f) ap /\ alike (f_sha f) sha.
Proof.
  intros A L. destruct B as [Bc Bt Bz (st0 & A0 & E1 & E2) _ _ _ _ _ _]. unfold g_get_params. rewrite E1, E2, Bc, Bz.
  assert (A' : alike st0 st) by (eapply alike_trans; [apply alike_sym; exact A0|exact A]).
  assert (O0 : only_tensors st0) by (apply (alike_only spec _ _ A0), (fs_initial _ _ _ _ _ FS)). pose proof (wf_r _ _ A) as Ws.
  assert (El : fs = values st) by (apply lists_values; [exact Ws|exact (alike_only spec _ _ A' O0)|exact L]).
  assert (Ck : check_list compatible (map spec (values st0)) fs = Ok tt) by (rewrite El; exact (check_values spec compatible Eager _ _ A')). rewrite Ck. cbn [bind]. destruct (pack_alike spec st0 st fs A' O0 L) as (st' & P & Sm). rewrite P. cbn [bind].
  destruct (nested_params_ok w st st' A Sm) as (ep & bp & ap & sha & ep' & bp' & ap' & CP & N & S1 & S2 & S3 & A1 & A2 & A3 & A4). rewrite N. cbn [bind].
  destruct (fs_dicts _ _ _ _ _ FS) as (D1 & D2 & D3 & _).
  pose proof (dict_of _ _ A1 D1) as Dep. pose proof (dict_of _ _ A2 D2) as Dbp.
  destruct (tf_values_lists ep') as (e & Ee & Le); [apply S1|destruct S1 as (_ & _ & S1); now rewrite S1|]. destruct (tf_values_lists bp') as (b & Eb & Lb); [apply S2|destruct S2 as (_ & _ & S2); now rewrite S2|].
  destruct (tf_values_lists ap') as (a & Ea & La); [apply S3|destruct S3 as (_ & _ & S3); now rewrite S3|]. rewrite Ee, Eb, Ea. cbn [bind].
  exists ep, bp, ap, sha, e, b, a. split; [exact CP|]. split; [reflexivity|]. split; [exact (lists_same _ _ _ S1 Le)|]. split; [exact (lists_same _ _ _ S2 Lb)|]. split; [exact (lists_same _ _ _ S3 La)|]. auto.
Qed.
Lemma encode_ok w x ep e : compatible tspec x = true -> alike (f_ep f) ep -> lists ep e -> exists enc upd shb d u, core_encode c w x ep enc upd shb /\
  g_encode compatible g w x e = Ok (d, u) /\ holds (with_shapes_before enc shb) d /\ lists upd u /\ alike (f_enc f) enc /\ alike (f_upd f) upd /\ alike (f_shb f) shb.
Proof.
  intros Cx A L. destruct B as [Bc Bt Bz _ (v & Sv & Av) _ _ _ _ _]. unfold g_encode. rewrite Bt, Cx, Bc. unfold use.
  destruct (fs_dicts _ _ _ _ _ FS) as (D1 & D2 & D3 & D4 & D5 & _).
  destruct (use_ok v ep (g_ep g) e Sv) as (C & v' & R & Sm); [eapply alike_trans; [apply alike_sym; exact Av|exact A]|exact (dict_of _ _ Av D1)|exact L|]. rewrite C. cbn [bind]. rewrite R. cbn [bind].
  destruct (nested_encode_ok w x ep v' Cx A Sm) as (enc & upd & shb & es' & upd' & CE & N & S1 & S2 & A1 & A2 & A3). rewrite N. cbn [bind].
  assert (Dx : at_path [] es' = ADict) by (destruct S1 as (_ & _ & S1); now rewrite S1). assert (Wx : wf_dval es') by apply S1.
  destruct (split_parts es' Wx Dx) as (py & t & E & _ & Wt & _ & Pt). rewrite E. cbn [bind].
  exists enc, upd, shb, (joined_values t), (values upd'). split; [exact CE|]. split; [reflexivity|].
  assert (Al : alike (with_shapes_before (f_enc f) (f_shb f)) es').
  { eapply alike_same; [|apply same_sym; exact S1]. apply two_alike; [exact ts_ne|exact A1|exact A3]. }
  assert (Ox : only_tensors t) by (intros p y H; rewrite Pt in H; destruct (at_path p es'); discriminate).
  split.
  { apply holds_ext with t; [|apply jv_holds; [exact Wt|apply (tf_part_safe es' py); auto; apply (alike_safe spec _ _ Al), es_safe|exact Ox]].
    intros p y. rewrite Pt. destruct S1 as (_ & _ & S1). rewrite <- S1. destruct (at_path p es'); split; congruence. }
  split; [|auto]. apply (lists_same upd' upd _ S2). apply lists_values; [apply S2| |reflexivity]. apply (same_only upd upd'); [now apply same_sym|]. apply (alike_only spec _ _ A2). apply (fs_tensors _ _ _ _ _ FS).
Qed.
Lemma before_ok enc shb bp d b : alike (f_enc f) enc -> alike (f_shb f) shb -> alike (f_bp f) bp -> holds (with_shapes_before enc shb) d -> lists bp b ->
  exists p q, k_before c enc bp shb = Ok p /\ g_decode_before_sum compatible g d b = Ok q /\ part_of p q /\ alike (f_part f) p.
Proof.
  intros A1 A2 A3 H L. destruct B as [Bc Bt Bz _ _ (v & Sv & Av) _ (es0 & t0 & A0 & E0 & Ee & Es) _ _]. unfold g_decode_before_sum. rewrite Ee, Es, Bc. destruct (fs_dicts _ _ _ _ _ FS) as (D1 & D2 & D3 & D4 & D5 & _).
  assert (Al0 : alike es0 (with_shapes_before enc shb)).
  { eapply alike_trans; [apply alike_sym; exact A0|]. apply two_alike; [exact ts_ne|exact A1|exact A2]. }
  assert (D0 : at_path [] es0 = ADict) by exact (dict_of _ _ A0 eq_refl). pose proof (wf_r _ _ A0) as W0. pose proof (wf_r _ _ Al0) as W1.
  destruct (split_parts (with_shapes_before enc shb) W1 eq_refl) as (py & t & E & _ & Wt & _ & Pt). destruct (tf_part_alike _ _ _ _ _ _ Al0 D0 E0 E) as [At Ot].
  assert (St0 : slash_safe t0) by (apply (tf_part_safe es0 (g_enc_py g)); auto; apply (alike_safe spec _ _ A0), es_safe).
  assert (Ht : holds t d).
  { eapply holds_ext; [|exact H]. intros p x. rewrite Pt. destruct (at_path p (with_shapes_before enc shb)); split; congruence. }
  rewrite (check_joined spec compatible Eager t0 t d At St0 Ot Ht). cbn [bind].
  destruct (use_ok v bp (g_bp g) b Sv) as (C & v' & R & Sm); [eapply alike_trans; [apply alike_sym; exact Av|exact A3]|exact (dict_of _ _ Av D2)|exact L|]. rewrite C. cbn [bind].
  assert (Lt : lists (with_shapes_before enc shb) (nest_flatten_flat d)).
  { rewrite (holds_flat t d Wt (alike_safe spec _ _ At St0) (alike_only spec _ _ At Ot) Ht). apply lists_ext with t; [intros p x; rewrite Pt; destruct (at_path p (with_shapes_before enc shb)); split; congruence|].
    apply lists_values; [exact Wt|exact (alike_only spec _ _ At Ot)|reflexivity]. }
  destruct (rebuild_spec spec es0 (with_shapes_before enc shb) (g_enc_py g) t0 _ Al0 D0 E0 Lt) as (es & Re & Se). rewrite Re. cbn [bind]. rewrite R. cbn [bind].
  destruct (nested_before_ok es enc shb bp v' Se Sm A1 A2 A3) as (p & p' & E1 & E2 & Sp' & Ap). rewrite E2. cbn [bind]. exists p, (to_part p'). split; [exact E1|]. split; [reflexivity|]. split; [|exact Ap].
  destruct (fs_tensors _ _ _ _ _ FS) as (_ & _ & O3). destruct (fs_keys _ _ _ _ _ FS) as (_ & _ & S3).
  assert (Al : alike (f_part f) p') by (eapply alike_same; [exact Ap|now apply same_sym]).
  pose proof (to_part_of p' (wf_r _ _ Al) (alike_safe spec _ _ Al S3) (alike_only spec _ _ Al O3)) as TP. destruct Sp' as (_ & _ & Sp'). destruct (to_part p') as [x|dd]; cbn [part_of] in *; rewrite <- Sp'; [exact TP|].
  destruct TP as [T1 T2]. split; [exact T1|]. eapply holds_ext; [|exact T2]. intros r x. now rewrite Sp'.
Qed.
Lemma after_ok p q ap sha a n : alike (f_part f) p -> alike (f_ap f) ap -> alike (f_sha f) sha -> part_of p q -> lists (with_shapes_after ap sha) a ->
  exists y, k_after c p ap n sha = Ok y /\ g_decode_after_sum compatible g q a n = Ok y /\ compatible tspec y = true.
Proof.
  intros A1 A2 A3 H L. destruct B as [Bc Bt Bz _ _ _ (v & Sv & Av) _ _ (p0 & Ap0 & Ep & Es)]. unfold g_decode_after_sum. rewrite Ep, Es, Bc.
  destruct (fs_tensors _ _ _ _ _ FS) as (_ & _ & O3). destruct (fs_keys _ _ _ _ _ FS) as (_ & _ & S3).
  assert (Al : alike p0 p) by (eapply alike_trans; [apply alike_sym; exact Ap0|exact A1]). pose proof (alike_safe spec _ _ Ap0 S3) as S0. pose proof (alike_only spec _ _ Ap0 O3) as O0.
  rewrite (check_parts spec compatible Eager p0 p q Al S0 O0 H). cbn [bind].
  destruct (use_ok v (with_shapes_after ap sha) (g_ap g) a Sv) as (C & v' & R & Sm); [|exact (dict_of _ _ Av eq_refl)|exact L|].
  { eapply alike_trans; [apply alike_sym; exact Av|]. apply two_alike; [exact ps_ne|exact A2|exact A3]. }
  rewrite C. cbn [bind]. destruct (pack_alike spec p0 p (part_values q) Al O0) as (q' & P & Sq).
  { apply part_lists; [exact (wf_r _ _ Al)|exact (alike_safe spec _ _ Al S0)|exact (alike_only spec _ _ Al O0)|exact H]. }
  rewrite P. cbn [bind]. rewrite R. cbn [bind]. apply nested_after_ok; auto.
Qed.
Lemma update_ok st fs u us : alike (f_st f) st -> lists st fs -> arranged (f_upd f) u -> lists u us ->
  exists st' fs', k_update c st u = Ok st' /\ g_update_state compatible g fs us = Ok fs' /\ lists st' fs' /\ alike (f_st f) st'.
Proof.
  intros A L Au Lu. destruct B as [Bc Bt Bz (st0 & A0 & E1 & E2) _ _ _ _ (u0 & Au0 & Eu) _]. unfold g_update_state. rewrite E1, E2, Bc, Eu.
  assert (A' : alike st0 st) by (eapply alike_trans; [apply alike_sym; exact A0|exact A]).
  assert (O0 : only_tensors st0) by (apply (alike_only spec _ _ A0), (fs_initial _ _ _ _ _ FS)). pose proof (wf_r _ _ A) as Ws.
  assert (El : fs = values st) by (apply lists_values; [exact Ws|exact (alike_only spec _ _ A' O0)|exact L]).
  assert (Ck : check_list compatible (map spec (values st0)) fs = Ok tt) by (rewrite El; exact (check_values spec compatible Eager _ _ A')). rewrite Ck. cbn [bind]. destruct (pack_alike spec st0 st fs A' O0 L) as (st' & P & Sm). rewrite P. cbn [bind].
  assert (Ar : arranged u0 u).
  { destruct Au as (W1 & W2 & Au). destruct Au0 as (_ & W3 & Au0). split; [exact W3|]. split; [exact W2|]. intros p. specialize (Au p). specialize (Au0 p). destruct (at_path p (f_upd f)), (at_path p u), (at_path p u0); cbn in *; tauto. }
  destruct (pack_arranged u0 u us Ar Lu) as (u' & Pu & Su). rewrite Pu. cbn [bind]. destruct (fs_update _ _ _ _ _ FS st u A Au) as (st1 & F1 & F2).
  pose proof (bk_update c BK st' st u' u Sm Su) as BU. rewrite F1 in BU. destruct (k_update c st' u') as [st2|]; [|destruct BU]. cbn [bind]. exists st1, (values st2). split; [exact F1|]. split; [reflexivity|]. split; [|exact F2].
  cbn [both] in BU. apply (lists_same st2 st1); [exact BU|]. apply lists_values; [apply BU| |reflexivity]. apply (same_only st1 st2); [now apply same_sym|]. apply (alike_only spec _ _ F2), (fs_initial _ _ _ _ _ FS).
Qed.
End Methods.

(** ** Construction *)
Theorem creates w : exists g, from_encoder spec compatible c tspec zeros w = Ok g /\ built g.
Proof.
  destruct (fs_initial _ _ _ _ _ FS) as [A0 O0]. unfold from_encoder. set (st := tensors (k_initial c)) in *.
  destruct (nested_params_ok w st st A0 (same_refl _ (wf_r _ _ A0))) as (ep0 & bp0 & ap0 & sha0 & ep & bp & ap & _ & N & S1 & S2 & S3 & A1 & A2 & A3 & A4). rewrite N. cbn [bind].
  assert (Aep : alike (f_ep f) ep) by (eapply alike_same; [exact A1|now apply same_sym]). assert (Abp : alike (f_bp f) bp) by (eapply alike_same; [exact A2|now apply same_sym]).
  assert (Aap : alike (with_shapes_after (f_ap f) (f_sha f)) ap) by (eapply alike_same; [|apply same_sym; exact S3]; apply two_alike; [exact ps_ne|exact A3|exact A4]).
  destruct (fs_dicts _ _ _ _ _ FS) as (D1 & D2 & D3 & D4 & D5 & _). pose proof (dict_of _ _ Aep D1) as Dep. pose proof (dict_of _ _ Abp D2) as Dbp. pose proof (dict_of _ _ Aap eq_refl) as Dap.
  destruct (slot_of_ok ep (wf_r _ _ Aep) Dep) as (se & Ese & Sse). destruct (slot_of_ok bp (wf_r _ _ Abp) Dbp) as (sb & Esb & Ssb). destruct (slot_of_ok ap (wf_r _ _ Aap) Dap) as (sa & Esa & Ssa).
  rewrite Ese, Esb, Esa. cbn [bind]. destruct (tf_values_lists ep (wf_r _ _ Aep) Dep) as (pe & Epe & Lpe). destruct (tf_values_lists bp (wf_r _ _ Abp) Dbp) as (pb & Epb & Lpb). destruct (tf_values_lists ap (wf_r _ _ Aap) Dap) as (pa & Epa & Lpa).
  rewrite Epe, Epb, Epa. cbn [bind]. unfold use. destruct (use_ok ep ep se pe Sse (alike_refl spec _ (wf_r _ _ Aep)) Dep Lpe) as (C1 & ep' & R1 & Sm1). rewrite C1. cbn [bind]. rewrite R1. cbn [bind].
  destruct (nested_encode_ok w zeros ep ep' Zc Aep Sm1) as (enc & upd0 & shb & es & upd & _ & N2 & S4 & S5 & A5 & A6 & A7). rewrite N2. cbn [bind].
  assert (Aes : alike (with_shapes_before (f_enc f) (f_shb f)) es) by (eapply alike_same; [|apply same_sym; exact S4]; apply two_alike; [exact ts_ne|exact A5|exact A7]).
  assert (Des : at_path [] es = ADict) by exact (dict_of _ _ Aes eq_refl). pose proof (wf_r _ _ Aes) as Wes.
  destruct (split_parts es Wes Des) as (py & t & Et & _ & Wt & _ & Pt). rewrite Et. cbn [bind].
  assert (Ot : only_tensors t) by (intros p y H; rewrite Pt in H; destruct (at_path p es); discriminate).
  assert (St : slash_safe t) by (apply (tf_part_safe es py); auto; apply (alike_safe spec _ _ Aes), es_safe).
  assert (Lt : lists es (nest_flatten_flat (joined_values t))).
  { rewrite (holds_flat t _ Wt St Ot (jv_holds t Wt St Ot)). apply lists_ext with t; [intros p x; rewrite Pt; destruct (at_path p es); split; congruence|]. now apply lists_values. }
  destruct (rebuild_spec spec es es py t _ (alike_refl spec _ Wes) Des Et Lt) as (es' & R2 & Sm2). rewrite R2. cbn [bind].
  destruct (use_ok bp bp sb pb Ssb (alike_refl spec _ (wf_r _ _ Abp)) Dbp Lpb) as (C3 & bp' & R3 & Sm3). rewrite C3. cbn [bind]. rewrite R3. cbn [bind].
  destruct (nested_before_ok es' enc shb bp bp' (same_trans _ _ _ Sm2 S4) Sm3 A5 A7 Abp) as (p0 & pd & _ & N3 & S6 & A8). rewrite N3. cbn [bind].
  assert (Apd : alike (f_part f) pd) by (eapply alike_same; [exact A8|now apply same_sym]).
  assert (Aupd : alike (f_upd f) upd) by (eapply alike_same; [exact A6|now apply same_sym]).
  match goal with |- context [g_decode_after_sum compatible ?gg] => set (g := gg) end.
  assert (B : built g).
  { constructor; cbn; try reflexivity.
    - exists st. auto. - exists ep. auto. - exists bp. auto. - exists ap. auto. - exists es, t. auto. - exists upd. auto. - exists pd. auto. }
  destruct (fs_tensors _ _ _ _ _ FS) as (_ & O2 & O3). destruct (fs_keys _ _ _ _ _ FS) as (_ & _ & S3').
  destruct (after_ok g B pd (to_part pd) ap0 sha0 pa 1) as (y & _ & E & Cy); [exact Apd|exact A3|exact A4|apply to_part_of; [exact (wf_r _ _ Apd)|exact (alike_safe spec _ _ Apd S3')|exact (alike_only spec _ _ Apd O3)]|exact (lists_same _ _ _ S3 Lpa)|].
  rewrite E. cbn [bind]. rewrite Cy.
  destruct (update_ok g B st (values st) upd (values upd)) as (st' & fs' & _ & E2 & L2 & A9); [exact A0|apply lists_values; [exact (wf_r _ _ A0)|exact (alike_only spec _ _ A0 O0)|reflexivity]|
    apply (alike_arranged spec); [exact Aupd|exact O2]|apply lists_values; [exact (wf_r _ _ Aupd)|exact (alike_only spec _ _ Aupd O2)|reflexivity]|].
  rewrite E2. cbn [bind]. assert (Ln : List.length fs' = List.length (values st)).
  { apply lists_values in L2; [|exact (wf_r _ _ A9)|exact (alike_only spec _ _ A9 O0)]. subst fs'. unfold values, nflatten. rewrite !map_length, <- (map_length fst (flatten_with_path (to_struct st'))), <- (map_length fst (flatten_with_path (to_struct st))).
    f_equal. apply (alike_paths spec). eapply alike_trans; [apply alike_sym; exact A9|exact A0]. }
  rewrite Ln, Nat.eqb_refl. exists g. auto.
Qed.
Lemma initial_ok g : built g -> lists (tensors (k_initial c)) (g_initial_state g) /\ alike (f_st f) (tensors (k_initial c)).
Proof.
  intros B. unfold g_initial_state. rewrite (b_core _ B). destruct (fs_initial _ _ _ _ _ FS) as [A0 O0]. split; [|exact A0]. apply lists_values; [exact (wf_r _ _ A0)|exact (alike_only spec _ _ A0 O0)|reflexivity].
Qed.
End G5.
