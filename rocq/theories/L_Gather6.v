(** SimpleEncoder simulates the Encoder. *)
From Coq Require Import Ascii Permutation Sorted Lia.
From Verif Require Import Base M_Encoder L_Encoder M_Dicts S_Dicts L_Dicts L_Keys M_Gather S_Gather L_Gather L_Gather2 L_Gather3 L_Gather4.

Section G6.
Context {V Sp M W : Type} (spec : V -> Sp) (compatible : Sp -> V -> bool).
Notation dval := (dval V).
Notation alike := (alike spec).
Context (c : @core V M W) (tspec : Sp) (f : @frame V).
Hypothesis BK : by_key c.
Hypothesis FX : fixed_simple spec compatible c tspec f.
Notation wf_r := (fun v w (A : alike v w) => proj1 (proj2 A)).

Lemma three_at enc dp sh p : at_path p (encoded_parts enc dp sh) = match p with [] => ADict | k :: q =>
  if String.eqb k "encoded_tensors" then at_path q enc else if String.eqb k "params" then at_path q dp else if String.eqb k "shapes" then at_path q sh else Nothing (V := V) end.
Proof. destruct p as [|k q]; [reflexivity|]. cbn. destruct (String.eqb k "encoded_tensors"); [reflexivity|]. destruct (String.eqb k "params"); [reflexivity|]. destruct (String.eqb k "shapes"); reflexivity. Qed.
Lemma three_wf (enc dp sh : dval) : wf_dval enc -> wf_dval dp -> wf_dval sh -> wf_dval (encoded_parts enc dp sh).
Proof. intros. apply wf_inv. split; [cbn; repeat constructor; cbn; intuition discriminate|]. intros k v [[= <- <-]|[[= <- <-]|[[= <- <-]|[]]]]; auto. Qed.
Lemma three_alike enc dp sh enc' dp' sh' : alike enc enc' -> alike dp dp' -> alike sh sh' -> alike (encoded_parts enc dp sh) (encoded_parts enc' dp' sh').
Proof.
  intros (W1 & W1' & A) (W2 & W2' & B) (W3 & W3' & C). split; [now apply three_wf|]. split; [now apply three_wf|]. intros p. rewrite !three_at. destruct p as [|k q]; [exact I|].
  destruct (String.eqb k _); [apply A|]. destruct (String.eqb k _); [apply B|]. destruct (String.eqb k _); [apply C|exact I].
Qed.
Lemma three_same (enc dp sh enc' dp' sh' : dval) : same enc enc' -> same dp dp' -> same sh sh' -> same (encoded_parts enc dp sh) (encoded_parts enc' dp' sh').
Proof.
  intros (W1 & W1' & A) (W2 & W2' & B) (W3 & W3' & C). split; [now apply three_wf|]. split; [now apply three_wf|]. intros p. rewrite !three_at. destruct p as [|k q]; [reflexivity|].
  destruct (String.eqb k _); [apply A|]. destruct (String.eqb k _); [apply B|]. destruct (String.eqb k _); [apply C|reflexivity].
Qed.
Lemma item_same (v w : dval) k x : same v w -> dict_item k w = Ok x -> exists x', dict_item k v = Ok x' /\ same x' x.
Proof.
  intros (W1 & W2 & E) H. destruct w as [| |d']; try discriminate. destruct v as [y|y|d]; [specialize (E []); discriminate|specialize (E []); discriminate|].
  cbn [dict_item] in *. unfold dindex in *. destruct (dget k d') as [x0|] eqn:G; [|discriminate]. injection H as ->. apply wf_inv in W1, W2. destruct W1 as [_ W1], W2 as [_ W2].
  pose proof (E [k]) as E1. cbn [at_path] in E1. rewrite G in E1. destruct (dget k d) as [x'|] eqn:G'; [|destruct x; discriminate]. exists x'. split; [reflexivity|].
  split; [apply (W1 k); now apply dget_in|]. split; [apply (W2 k); now apply dget_in|]. intros p. specialize (E (k :: p)). cbn [at_path] in E. now rewrite G, G' in E.
Qed.
Lemma safe_f : slash_safe (encoded_parts (f_enc f) (f_dp f) (f_sh f)).
Proof.
  destruct (fx_keys _ _ _ _ _ FX) as (S1 & S2 & S3). intros p k k' ch r H H' E. rewrite three_at in H, H'. destruct p as [|k0 p]; cbn [app] in H, H'.
  - assert (Self : codes k <> codes k ++ ch :: r) by (intros X; apply (f_equal (@List.length _)) in X; rewrite app_length in X; cbn in X; lia).
    destruct (String.eqb_spec k "encoded_tensors") as [-> | _], (String.eqb_spec k' "encoded_tensors") as [-> | _]; try (exfalso; apply Self; exact E);
    try (destruct (String.eqb_spec k' "params") as [-> | _]); try (destruct (String.eqb_spec k' "shapes") as [-> | _]); try congruence; try (vm_compute in E; discriminate);
    (destruct (String.eqb_spec k "params") as [-> | _]; [|destruct (String.eqb_spec k "shapes") as [-> | _]; [|congruence]]); try (exfalso; apply Self; exact E); vm_compute in E; discriminate.
  - destruct (String.eqb k0 "encoded_tensors"); [apply (S1 p k k' ch r); auto|]. destruct (String.eqb k0 "params"); [apply (S2 p k k' ch r); auto|]. destruct (String.eqb k0 "shapes"); [apply (S3 p k k' ch r); auto|discriminate].
Qed.
(** One call of encode. *)
Lemma full_ok w x st st' : compatible tspec x = true -> alike (f_st f) st -> same st' st -> exists ep dp enc upd sh st1 full st2, k_params c w st = Ok (ep, dp) /\ k_encode c w x ep = Ok (enc, upd, sh) /\
  k_update c st upd = Ok st1 /\ full_structure c w x st' = Ok (full, st2) /\ same full (encoded_parts enc dp sh) /\ same st2 st1 /\ alike (f_st f) st1 /\
  alike (f_enc f) enc /\ alike (f_dp f) dp /\ alike (f_sh f) sh.
Proof.
  intros Cx A Sm. destruct (fx_params _ _ _ _ _ FX w st A) as (ep & dp & E1 & A1 & A2). destruct (fx_encode _ _ _ _ _ FX w x ep Cx A1) as (enc & upd & sh & E2 & A3 & A4 & A5). destruct (fx_update _ _ _ _ _ FX st upd A A4) as (st1 & E3 & A6).
  unfold full_structure. pose proof (bk_params c BK w st' st Sm) as B1. rewrite E1 in B1. destruct (k_params c w st') as [[ep' dp']|]; [|destruct B1]. destruct B1 as [B1 B1']. cbn [fst snd bind] in *.
  pose proof (bk_encode c BK w x ep' ep B1) as B2. rewrite E2 in B2. destruct (k_encode c w x ep') as [[[enc' upd'] sh']|]; [|destruct B2]. destruct B2 as [[B2 B2'] B2'']. cbn [fst snd bind] in *.
  pose proof (bk_update c BK st' st upd' upd Sm B2') as B3. rewrite E3 in B3. destruct (k_update c st' upd') as [st2|]; [|destruct B3]. cbn [both bind] in *.
  exists ep, dp, enc, upd, sh, st1, (encoded_parts enc' dp' sh'), st2. repeat (split; [first [reflexivity|assumption|now apply three_same]|]). exact A5.
Qed.

Lemma full_leaf (v : dval) k l : wf_dval v -> slash_safe v -> (In (k, l) (joined v) <-> exists p, k = slash_path p /\ leaf_at p v = Some l).
Proof.
  intros Wv Sf. destruct (joined_eq v Wv Sf) as [-> _]. unfold flatten_with_joined_string_paths. rewrite in_map_iff. split.
  - intros ([p l'] & [= <- <-] & H). pose proof H as H'. unfold to_struct in H. apply (in_struct _ v Wv) in H. destruct H as (q & _ & _ & -> & _). exists q. split; [reflexivity|]. now apply leaf_flat.
  - intros (p & -> & H). exists (map codes p, l). split; [reflexivity|]. now apply leaf_flat.
Qed.
Lemma nd_filter {A} (P : key * A -> bool) (l : list (key * A)) : NoDup (map fst l) -> NoDup (map fst (filter P l)).
Proof.
  induction l as [|a l IH]; cbn; intros N; [constructor|]. inversion N as [|? ? N1 N2]; subst. destruct (P a); [cbn; constructor; auto|auto]. intros H. apply N1. apply in_map_iff in H. destruct H as (y & E & H). apply filter_In in H. apply in_map_iff. exists y. tauto.
Qed.
Lemma nd_app {A} (l l' : list A) : NoDup l -> NoDup l' -> (forall k, In k l -> In k l' -> False) -> NoDup (l ++ l').
Proof.
  induction l as [|a l IH]; intros N N2 D; cbn; [exact N2|]. inversion N as [|? ? N1 N3]; subst. constructor; [|apply IH; auto; intros k Hk; apply D; now right].
  intros H. apply in_app_iff in H. destruct H as [H|H]; [tauto|]. apply (D a); [now left|exact H].
Qed.
Lemma tf_items_holds (v : dval) : wf_dval v -> slash_safe v -> holds v (map (fun kl => (fst kl, snd (snd kl))) (tf_items (joined v))).
Proof.
  intros Wv Sf. destruct (joined_eq v Wv Sf) as [_ Ss]. split; [rewrite map_map; cbn [fst]; apply nd_filter; now apply ssorted_nodup|]. intros k x. rewrite in_map_iff. split.
  - intros ([k' [b y]] & [= <- <-] & H). unfold tf_items in H. apply filter_In in H. destruct H as [H E]. cbn in E. subst b. apply (full_leaf v _ _ Wv Sf) in H. destruct H as (p & -> & H). exists p. split; [reflexivity|].
    unfold leaf_at in H. destruct (at_path p v); try discriminate. now injection H as <-.
  - intros (p & -> & H). exists (slash_path p, (true, x)). split; [reflexivity|]. unfold tf_items. apply filter_In. split; [|reflexivity]. apply (full_leaf v _ _ Wv Sf). exists p. split; [reflexivity|]. unfold leaf_at. now rewrite H.
Qed.
Lemma decode_flat (v0 v : dval) d : alike v0 v -> slash_safe v0 -> holds v d -> nest_flatten_flat (map (fun kv => (fst kv, tf (snd kv))) d ++ py_items (joined v0)) = nflatten v.
Proof.
  intros A Sf [Nd H]. pose proof A as (W0 & Wv & Al). pose proof (alike_safe spec _ _ A Sf) as Sv. destruct (joined_eq v Wv Sv) as [E Ss]. destruct (joined_eq v0 W0 Sf) as [_ S0].
  assert (P0 : forall k l, In (k, l) (py_items (joined v0)) <-> exists p x, k = slash_path p /\ l = (false, x) /\ at_path p v = APy x).
  { intros k [b x]. unfold py_items. rewrite filter_In, (full_leaf v0 _ _ W0 Sf). cbn [snd fst]. split.
    - intros [(p & -> & L) Eb]. destruct b; [discriminate|]. exists p, x. split; [reflexivity|]. split; [reflexivity|]. unfold leaf_at in L. specialize (Al p). destruct (at_path p v0); try discriminate. injection L as <-. destruct (at_path p v); cbn in Al; try tauto. now subst.
    - intros (p & x' & -> & [= -> ->] & L). split; [|reflexivity]. exists p. split; [reflexivity|]. unfold leaf_at. specialize (Al p). rewrite L in Al. destruct (at_path p v0); cbn in Al; try tauto. now subst. }
  assert (Disj : forall k, In k (map fst d) -> In k (map fst (py_items (joined v0))) -> False).
  { intros k H1 H2. apply in_map_iff in H1, H2. destruct H1 as ([k1 x1] & E1 & H1), H2 as ([k2 l2] & E2 & H2). cbn in E1, E2. subst k1 k2. apply H in H1. destruct H1 as (p & -> & A1). apply P0 in H2. destruct H2 as (p2 & x2 & E2 & -> & A2).
    pose proof (ssorted_nodup _ Ss) as N. assert (I1 : In (slash_path p, (true, x1)) (joined v)) by (apply (full_leaf v _ _ Wv Sv); exists p; split; [reflexivity|]; unfold leaf_at; now rewrite A1).
    assert (I2 : In (slash_path p, (false, x2)) (joined v)) by (apply (full_leaf v _ _ Wv Sv); exists p2; split; [exact E2|]; unfold leaf_at; now rewrite A2).
    clear - N I1 I2. induction (joined v) as [|a l IH]; cbn in *; [tauto|]. inversion N as [|? ? N1 N2]; subst. destruct I1 as [-> | I1], I2 as [E | I2].
    - discriminate. - apply N1. apply in_map_iff. exists (slash_path p, (false, x2)). auto.
    - subst a. apply N1. apply in_map_iff. exists (slash_path p, (true, x1)). auto. - auto. }
  assert (K : ksort (map (fun kv => (fst kv, tf (snd kv))) d ++ py_items (joined v0)) = joined v).
  { apply kunique; [apply ksort_sorted|exact Ss|].
    - rewrite map_app, map_map. cbn [fst]. apply nd_app; [exact Nd|apply nd_filter; now apply ssorted_nodup|exact Disj].
    - intros [k l]. assert (Q : In (k, l) (ksort (map (fun kv => (fst kv, tf (snd kv))) d ++ py_items (joined v0))) <-> In (k, l) (map (fun kv => (fst kv, tf (snd kv))) d ++ py_items (joined v0))).
      { split; intros G; [eapply Permutation_in; [apply Permutation_sym, ksort_perm|exact G]|eapply Permutation_in; [apply ksort_perm|exact G]]. }
      rewrite Q, in_app_iff, P0, (full_leaf v _ _ Wv Sv), in_map_iff. split.
      + intros [([k' x] & [= <- <-] & G)|(p & x & -> & -> & L)].
        * apply H in G. destruct G as (p & -> & L). exists p. split; [reflexivity|]. unfold leaf_at. now rewrite L.
        * exists p. split; [reflexivity|]. unfold leaf_at. now rewrite L.
      + intros (p & -> & L). unfold leaf_at in L. destruct (at_path p v) as [| |x|x] eqn:F; try discriminate; injection L as <-.
        * right. exists p, x. auto. * left. exists (slash_path p, x). split; [reflexivity|]. apply H. exists p. auto. }
  unfold nest_flatten_flat. rewrite K, E. unfold flatten_with_joined_string_paths, nflatten. rewrite map_map. reflexivity.
Qed.

Section Made.
Context (m : @simple V Sp M W) (x0 : V) (w0 : W).
Hypothesis C0 : compatible tspec x0 = true.
Hypothesis Made : make_simple c tspec x0 w0 = Ok m.
Lemma made_inv : exists st0 full0, m = mkSimple c tspec (blank st0) (blank full0) (py_items (joined full0)) /\ alike (f_st f) st0 /\ alike (encoded_parts (f_enc f) (f_dp f) (f_sh f)) full0.
Proof.
  unfold make_simple in Made. destruct (fx_initial _ _ _ _ _ FX) as [A0 O0].
  destruct (full_ok w0 x0 _ _ C0 A0 (same_refl _ (proj1 (proj2 A0)))) as (ep & dp & enc & upd & sh & st1 & full & st2 & _ & _ & _ & E & S1 & _ & _ & A1 & A2 & A3). rewrite E in Made. cbn [bind] in Made. injection Made as <-.
  do 2 eexists. split; [reflexivity|]. split; [exact A0|]. eapply alike_same; [|apply same_sym; exact S1]. now apply three_alike.
Qed.
Lemma simple_encode_ok w x st fs : compatible tspec x = true -> alike (f_st f) st -> lists st fs -> exists ep dp enc upd sh st' d fs', k_params c w st = Ok (ep, dp) /\ k_encode c w x ep = Ok (enc, upd, sh) /\
  k_update c st upd = Ok st' /\ m_encode compatible m w x fs = Ok (d, fs') /\ holds (encoded_parts enc dp sh) d /\ lists st' fs' /\ alike (f_st f) st' /\
  forall d', holds (encoded_parts enc dp sh) d' -> both eq (m_decode m d') (k_decode c enc dp sh).
Proof.
  intros Cx A L. destruct made_inv as (st0 & full0 & -> & A0 & Af). destruct (fx_initial _ _ _ _ _ FX) as [_ O0]. unfold m_encode. cbn [m_tspec m_state m_core]. rewrite Cx.
  assert (A' : alike st0 st) by (eapply alike_trans; [apply alike_sym; exact A0|exact A]). assert (Os : only_tensors st0) by exact (alike_only spec _ _ A0 O0).
  destruct (pack_alike spec st0 st fs A' Os L) as (st' & P & Sm). rewrite P. cbn [bind].
  destruct (full_ok w x st st' Cx A Sm) as (ep & dp & enc & upd & sh & st1 & full & st2 & E1 & E2 & E3 & E & S1 & S2 & A1 & A2 & A3 & A4). rewrite E. cbn [bind].
  assert (Al : alike (encoded_parts (f_enc f) (f_dp f) (f_sh f)) (encoded_parts enc dp sh)) by now apply three_alike.
  assert (Sf : slash_safe full) by (apply (alike_safe spec (encoded_parts enc dp sh)); [apply same_alike; now apply same_sym|]; exact (alike_safe spec _ _ Al safe_f)).
  exists ep, dp, enc, upd, sh, st1, (map (fun kl => (fst kl, snd (snd kl))) (tf_items (joined full))), (values st2). repeat (split; [first [reflexivity|assumption]|]). split.
  { apply (holds_ext full); [intros p y; destruct S1 as (_ & _ & S1); now rewrite S1|]. apply tf_items_holds; [apply S1|exact Sf]. }
  split; [apply (lists_same st2 st1 _ S2); apply lists_values; [apply S2|apply (same_only st1 st2); [now apply same_sym|exact (alike_only spec _ _ A1 O0)]|reflexivity]|]. split; [exact A1|].
  intros d' H. unfold m_decode. cbn [m_full m_py m_core].
  assert (Al' : alike full0 (encoded_parts enc dp sh)) by (eapply alike_trans; [apply alike_sym; exact Af|exact Al]).
  rewrite (decode_flat full0 (encoded_parts enc dp sh) d' Al' (alike_safe spec _ _ Af safe_f) H).
  pose proof Al' as (Wf0 & Wp & _). destruct (pack_flatten (blank full0) (encoded_parts enc dp sh)) as (v & Pv & Sv).
  - now apply blank_wf. - exact Wp.
  - intros q. rewrite <- (alike_leaf spec _ _ q Al'). unfold leaf_at. rewrite blank_at. destruct (at_path q full0); split; intros [? ?]; try discriminate; eauto.
  - intros q. rewrite <- (alike_adict spec _ _ q Al'), blank_at. destruct (at_path q full0); split; congruence.
  - rewrite Pv. cbn [bind]. destruct (item_same _ _ "encoded_tensors" enc Sv eq_refl) as (e' & -> & Se). destruct (item_same _ _ "params" dp Sv eq_refl) as (p' & -> & Sp'). destruct (item_same _ _ "shapes" sh Sv eq_refl) as (s' & -> & Ss'). cbn [bind].
    now apply (bk_decode c BK).
Qed.
End Made.
Lemma simple_creates x0 w0 : compatible tspec x0 = true -> exists m, make_simple c tspec x0 w0 = Ok m.
Proof.
  intros C0. unfold make_simple. destruct (fx_initial _ _ _ _ _ FX) as [A0 O0].
  destruct (full_ok w0 x0 _ _ C0 A0 (same_refl _ (proj1 (proj2 A0)))) as (ep & dp & enc & upd & sh & st1 & full & st2 & _ & _ & _ & E & _). rewrite E. cbn [bind]. eauto.
Qed.
End G6.
