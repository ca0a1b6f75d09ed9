(** What passes the checks is the flat view of a dictionary of the recorded structure. *)
From Coq Require Import Ascii Permutation Sorted Lia.
From Verif Require Import Base M_Encoder L_Encoder M_Dicts S_Dicts L_Dicts L_Keys M_Gather S_Gather L_Gather L_Gather2 L_Gather3 L_Gather4 L_Gather5.

Lemma in_combine_key {K A B} (l : list (K * A)) (l' : list (K * B)) p a b : map fst l = map fst l' -> NoDup (map fst l) -> In (p, a) l -> In (p, b) l' -> In ((p, a), (p, b)) (combine l l').
Proof.
  revert l'. induction l as [|[q x] l IH]; intros [|[q' y] l'] E N H H'; cbn in *; try tauto; try discriminate. injection E as <- E. inversion N as [|? ? N1 N2]; subst. destruct H as [H|H], H' as [H'|H'].
  - injection H as -> ->. injection H' as ->. now left.
  - injection H as -> ->. exfalso. apply N1. rewrite E. apply in_map_iff. exists (p, b). auto.
  - injection H' as -> ->. exfalso. apply N1. apply in_map_iff. exists (p, a). auto.
  - right. auto.
Qed.

Section G7.
Context {V Sp M W : Type} (spec : V -> Sp) (compatible : Sp -> V -> bool).
Hypothesis Eager : forall x y, compatible (spec x) y = true <-> spec x = spec y.
Notation dval := (dval V).
Notation alike := (alike spec).
Notation check_list := (check_list compatible).
Notation check_dict := (check_dict compatible).

Lemma listed_any (v0 : dval) l : wf_dval v0 -> only_tensors v0 -> List.length l = List.length (values v0) -> exists v, arranged v0 v /\ lists v l /\ pack (blank v0) (map tf l) = Ok v.
Proof.
  intros W0 O0 L. assert (P0 : map fst (flatten_with_path (structure (fun _ _ => tt) (blank v0))) = map fst (flatten_with_path (to_struct v0))).
  { apply same_paths; [now apply blank_wf|exact W0|]. intros q. unfold leaf_at. rewrite blank_at. destruct (at_path q v0); split; intros [? ?]; try discriminate; eauto. }
  destruct (pack_list (blank v0) (map tf l)) as (v & E & Wv & Nf & Sv & Dv); [now apply blank_wf| |].
  - rewrite map_length, L. unfold values, nflatten. rewrite !map_length, <- (map_length fst (flatten_with_path (to_struct v0))), <- P0. apply map_length.
  - assert (Ov : only_tensors v).
    { intros q x H. assert (Hl : leaf_at q v = Some (false, x)) by (unfold leaf_at; now rewrite H). apply leaf_flat in Hl; [|exact Wv]. apply (in_map snd) in Hl. change (map snd (flatten_with_path (to_struct v))) with (nflatten v) in Hl.
      rewrite Nf in Hl. apply in_map_iff in Hl. destruct Hl as (y & Hy & _). discriminate. }
    exists v. split; [|split; [|exact E]].
    + split; [exact W0|]. split; [exact Wv|]. intros q. specialize (Sv q). specialize (Dv q). unfold leaf_at in Sv. rewrite blank_at in Sv, Dv. pose proof (O0 q) as Oq. pose proof (Ov q) as Oq'.
      destruct (at_path q v0) as [| |x|x]; [| |now destruct (Oq x)|]; destruct (at_path q v) as [| |y|y]; cbn; try tauto; try (now destruct (Oq' y)); destruct Dv as [D1 D2], Sv as [S1 S2]; try (specialize (D1 eq_refl); discriminate); try (specialize (D2 eq_refl); discriminate);
        try (destruct S1; [eauto|discriminate]); destruct S2; [eauto|discriminate].
    + apply lists_values; [exact Wv|exact Ov|]. unfold values. rewrite Nf, map_map. symmetry. apply map_id.
Qed.
Lemma listed (v0 : dval) l : wf_dval v0 -> only_tensors v0 -> check_list (map spec (values v0)) l = Ok tt -> exists v, alike v0 v /\ lists v l.
Proof.
  intros W0 O0 C. unfold M_Gather.check_list in C. destruct (Nat.eqb_spec (List.length (map spec (values v0))) (List.length l)) as [L|]; [|discriminate]. rewrite map_length in L. cbn [andb] in C.
  destruct (forallb _ _) eqn:F; [|discriminate]. clear C. rewrite forallb_forall in F. destruct (listed_any v0 l W0 O0 (eq_sym L)) as (v & A & Ll & _). exists v. split; [|exact Ll]. pose proof A as (_ & Wv & Sh).
  assert (Ov : only_tensors v) by exact (arranged_only _ _ A).
  assert (P : map fst (flatten_with_path (to_struct v0)) = map fst (flatten_with_path (to_struct v))) by (apply same_paths; [exact W0|exact Wv|]; intros q; now apply arranged_leaf).
  apply lists_values in Ll; [|exact Wv|exact Ov]. split; [exact W0|]. split; [exact Wv|]. intros q. specialize (Sh q). destruct (at_path q v0) as [| |x|x] eqn:E0, (at_path q v) as [| |y|y] eqn:E1; cbn in *; try tauto.
  apply Eager. apply (F (spec x, y)). subst l. unfold values, nflatten. rewrite !map_map. apply in_combine_map. exists (map codes q, (true, x)), (map codes q, (true, y)). split; [|reflexivity].
  apply in_combine_key; [exact P|apply (ss_nodup plt _ plt_irrefl); now apply flatten_psorted, struct_distinct| |]; apply leaf_flat; auto; unfold leaf_at; rewrite ?E0, ?E1; reflexivity.
Qed.
(** With Python values. *)
Lemma slotted (v0 : dval) s l : wf_dval v0 -> at_path [] v0 = ADict -> slot_for spec v0 s -> check_list (sl_spec s) l = Ok tt -> exists v, alike v0 v /\ lists v l.
Proof.
  intros W0 D (py & t0 & E & ->). cbn [sl_spec]. intros C. destruct (split_parts v0 W0 D) as (a & b & E' & Wp & Wt & Pp & Pt). rewrite E in E'. injection E' as <- <-.
  assert (Ot : only_tensors t0) by (intros p x H; rewrite Pt in H; destruct (at_path p v0); discriminate).
  destruct (listed t0 l Wt Ot C) as (t & A & L). pose proof A as (_ & Wt' & Al). pose proof (alike_only spec _ _ A Ot) as Ot'.
  assert (Co : corresponding t py).
  { apply corresponding_at; [exact Wt'|exact Wp|apply (alike_adict spec _ _ [] A); rewrite Pt, D; reflexivity|rewrite Pp, D; reflexivity| |].
    - intros p. specialize (Al p). rewrite Pt in Al. rewrite Pp. destruct (at_path p v0), (at_path p t); cbn in Al; try tauto; split; intros; try discriminate; auto.
    - intros p. specialize (Al p). rewrite Pt in Al. rewrite Pp. destruct (at_path p v0), (at_path p t); cbn in Al; try tauto; congruence. }
  apply merge_ok_iff in Co; [|exact Wt'|exact Wp]. destruct (merge_dicts t py) as [m|] eqn:Me; [|discriminate]. pose proof (merge_values _ _ _ Wt' Wp Me) as MV. exists m. split.
  - split; [exact W0|]. split; [exact (merge_wf _ _ _ Wt' Wp Me)|]. intros p. rewrite MV, Pp. specialize (Al p). rewrite Pt in Al. destruct (at_path p v0), (at_path p t); cbn in *; tauto.
  - eapply lists_ext; [|exact L]. intros p x. rewrite MV, Pp. specialize (Al p). rewrite Pt in Al. destruct (at_path p v0), (at_path p t); cbn in *; try tauto; split; congruence.
Qed.
(** Slash-joined dictionaries. *)
Lemma held (v0 : dval) d : wf_dval v0 -> only_tensors v0 -> slash_safe v0 -> NoDup (map fst d) ->
  check_dict (map (fun kv => (fst kv, spec (snd kv))) (joined_values v0)) d = Ok tt -> exists v, alike v0 v /\ holds v d.
Proof.
  intros W0 O0 S0 N C. unfold M_Gather.check_dict in C. rewrite ksort_id in C by (rewrite map_map; cbn [fst]; change (map (fun x => fst x) (joined_values v0)) with (map fst (joined_values v0)); rewrite jv_keys; now apply joined_eq).
  destruct (path_eqb _ _) eqn:K; [|discriminate]. apply path_eqb_iff in K. rewrite map_map in K. cbn [fst] in K. rewrite map_map in C. cbn [snd] in C. rewrite <- (map_map snd spec), jv_snd in C by assumption.
  destruct (listed v0 _ W0 O0 C) as (v & A & L). exists v. split; [exact A|]. pose proof A as (_ & Wv & _). pose proof (alike_only spec _ _ A O0) as Ov. pose proof (alike_safe spec _ _ A S0) as Sv.
  apply lists_values in L; [|exact Wv|exact Ov]. assert (E : ksort d = joined_values v).
  { rewrite <- (combine_fst_snd (ksort d)), <- (combine_fst_snd (joined_values v)). rewrite jv_snd, <- L by assumption. f_equal. rewrite <- K. change (map (fun x => fst x) (joined_values v0)) with (map fst (joined_values v0)).
    rewrite !jv_keys. destruct (joined_eq v0 W0 S0) as [-> _], (joined_eq v Wv Sv) as [-> _]. unfold flatten_with_joined_string_paths. rewrite !map_map. cbn [fst].
    rewrite <- (map_map fst (join 47)), <- (map_map fst (join 47) (flatten_with_path (to_struct v))). f_equal. now apply (alike_paths spec). }
  destruct (jv_holds v Wv Sv Ov) as [_ H]. split; [exact N|]. intros k x. rewrite <- H, <- E. split; intros G; [eapply Permutation_in; [apply ksort_perm|exact G]|eapply Permutation_in; [apply Permutation_sym, ksort_perm|exact G]].
Qed.
Lemma check_list_err ss vs : check_list ss vs = Ok tt \/ check_list ss vs = Err ValueError.
Proof. unfold M_Gather.check_list. destruct (_ && _)%bool; auto. Qed.
Lemma check_dict_err ss vs : check_dict ss vs = Ok tt \/ check_dict ss vs = Err ValueError.
Proof. unfold M_Gather.check_dict. destruct (path_eqb _ _); [apply check_list_err|auto]. Qed.

(** ** The methods *)
Context (c : @core V M W) (tspec : Sp) (zeros : V) (f : @frame V).
Hypothesis FS : fixed_structure spec compatible c tspec f.
Section Methods.
Context (g : @gather V Sp M W) (B : built spec c tspec zeros f g).
Lemma state_view fs : check_list (g_state_spec g) fs = Ok tt -> exists st, alike (f_st f) st /\ lists st fs.
Proof.
  destruct (b_state _ _ _ _ _ _ B) as (st0 & A0 & _ & ->). intros C. destruct (fs_initial _ _ _ _ _ FS) as [_ O]. pose proof (alike_only spec _ _ A0 O) as O0. destruct (listed st0 fs (proj1 (proj2 A0)) O0 C) as (st & A & L).
  exists st. split; [exact (alike_trans spec _ _ _ A0 A)|exact L].
Qed.
Lemma rejects_state w fs : (exists st, alike (f_st f) st /\ lists st fs) \/ g_get_params compatible g w fs = Err ValueError /\ forall us, g_update_state compatible g fs us = Err ValueError.
Proof.
  unfold g_get_params, g_update_state. destruct (check_list_err (g_state_spec g) fs) as [C | ->]; [|right; auto]. left. now apply state_view.
Qed.
Lemma rejects_encode w x ps : (compatible tspec x = true /\ exists ep, alike (f_ep f) ep /\ lists ep ps) \/ g_encode compatible g w x ps = Err ValueError.
Proof.
  unfold g_encode. rewrite (b_tspec _ _ _ _ _ _ B). destruct (compatible tspec x); [|auto]. unfold use. destruct (check_list_err (sl_spec (g_ep g)) ps) as [C | ->]; [|auto]. left. split; [reflexivity|].
  destruct (b_ep _ _ _ _ _ _ B) as (v & S & A). destruct (fs_dicts _ _ _ _ _ FS) as (D1 & _). destruct (slotted v (g_ep g) ps (proj1 (proj2 A)) (proj1 (alike_adict spec _ _ [] A) D1) S C) as (v' & A' & L). exists v'. split; [exact (alike_trans spec _ _ _ A A')|exact L].
Qed.
Lemma rejects_before d ps : NoDup (map fst d) ->
  ((exists es, alike (with_shapes_before (f_enc f) (f_shb f)) es /\ holds es d) /\ exists bp, alike (f_bp f) bp /\ lists bp ps) \/ g_decode_before_sum compatible g d ps = Err ValueError.
Proof.
  intros N. unfold g_decode_before_sum. destruct (check_dict_err (g_enc_spec g) d) as [C | ->]; [|auto]. rewrite C. cbn [bind]. destruct (check_list_err (sl_spec (g_bp g)) ps) as [C2 | ->]; [|auto]. left. split.
  - destruct (b_es _ _ _ _ _ _ B) as (es0 & t0 & A0 & E0 & _ & Es). rewrite Es in C. pose proof (proj1 (proj2 A0)) as W0. assert (D0 : at_path [] es0 = ADict) by exact (proj1 (alike_adict spec _ _ [] A0) eq_refl).
    destruct (split_parts es0 W0 D0) as (a & b & E' & Wp & Wt & Pp & Pt). rewrite E0 in E'. injection E' as <- <-. assert (Ot : only_tensors t0) by (intros p x H; rewrite Pt in H; destruct (at_path p es0); discriminate).
    assert (St : slash_safe t0) by (apply (tf_part_safe es0 (g_enc_py g)); auto; apply (alike_safe spec _ _ A0); exact (es_safe spec compatible c tspec f FS)).
    destruct (held t0 d Wt Ot St N C) as (t & A & H). pose proof A as (_ & Wt' & Al).
    assert (Co : corresponding t (g_enc_py g)).
    { apply corresponding_at; [exact Wt'|exact Wp|apply (alike_adict spec _ _ [] A); rewrite Pt, D0; reflexivity|rewrite Pp, D0; reflexivity| |].
      - intros p. specialize (Al p). rewrite Pt in Al. rewrite Pp. destruct (at_path p es0), (at_path p t); cbn in Al; try tauto; split; intros; try discriminate; auto.
      - intros p. specialize (Al p). rewrite Pt in Al. rewrite Pp. destruct (at_path p es0), (at_path p t); cbn in Al; try tauto; congruence. }
    apply merge_ok_iff in Co; [|exact Wt'|exact Wp]. destruct (merge_dicts t (g_enc_py g)) as [m|] eqn:Me; [|discriminate]. pose proof (merge_values _ _ _ Wt' Wp Me) as MV. exists m. split.
    + eapply alike_trans; [exact A0|]. split; [exact W0|]. split; [exact (merge_wf _ _ _ Wt' Wp Me)|]. intros p. rewrite MV, Pp. specialize (Al p). rewrite Pt in Al. destruct (at_path p es0), (at_path p t); cbn in *; tauto.
    + eapply holds_ext; [|exact H]. intros p x. rewrite MV, Pp. specialize (Al p). rewrite Pt in Al. destruct (at_path p es0), (at_path p t); cbn in *; try tauto; split; congruence.
  - destruct (b_bp _ _ _ _ _ _ B) as (v & S & A). destruct (fs_dicts _ _ _ _ _ FS) as (_ & D1 & _). destruct (slotted v (g_bp g) ps (proj1 (proj2 A)) (proj1 (alike_adict spec _ _ [] A) D1) S C2) as (v' & A' & L). exists v'. split; [exact (alike_trans spec _ _ _ A A')|exact L].
Qed.
Lemma rejects_after p ps n : match p with PD d => NoDup (map fst d) | _ => True end ->
  ((exists v, alike (f_part f) v /\ part_of v p) /\ exists ap, alike (with_shapes_after (f_ap f) (f_sha f)) ap /\ lists ap ps) \/ g_decode_after_sum compatible g p ps n = Err ValueError.
Proof.
  intros N. unfold g_decode_after_sum. destruct (b_part _ _ _ _ _ _ B) as (p0 & A0 & _ & Es). rewrite Es.
  destruct (fs_tensors _ _ _ _ _ FS) as (_ & _ & O3). destruct (fs_keys _ _ _ _ _ FS) as (_ & _ & S3). pose proof (alike_only spec _ _ A0 O3) as O0. pose proof (alike_safe spec _ _ A0 S3) as S0. pose proof (proj1 (proj2 A0)) as W0.
  assert (G : (exists v, alike (f_part f) v /\ part_of v p) \/ check_part compatible (spec_of_part spec (to_part p0)) p = Err ValueError).
  { destruct p0 as [x|x|d0]; cbn [to_part spec_of_part]; destruct p as [y|d]; cbn [M_Gather.check_part]; auto.
    - now destruct (O0 [] x).
    - destruct (check_list_err [spec x] [y]) as [C | ->]; [|auto]. left. unfold M_Gather.check_list in C. cbn in C. destruct (compatible (spec x) y) eqn:Cx; [|discriminate]. apply Eager in Cx. exists (DTf y). split; [|reflexivity].
      eapply alike_trans; [exact A0|]. repeat split. intros [|k q]; [exact Cx|exact I].
    - destruct (check_dict_err (map (fun kv => (fst kv, spec (snd kv))) (joined_values (DDict d0))) d) as [C | ->]; [|auto]. left. destruct (held (DDict d0) d W0 O0 S0 N C) as (v & A & H). exists v.
      split; [exact (alike_trans spec _ _ _ A0 A)|]. cbn [part_of]. split; [exact (proj1 (alike_adict spec _ _ [] A) eq_refl)|exact H]. }
  destruct G as [G | ->]; [|auto]. destruct (check_part _ _ _) as [[]|e] eqn:C.
  - cbn [bind]. destruct (check_list_err (sl_spec (g_ap g)) ps) as [C2 | ->]; [|auto]. left. split; [exact G|].
    destruct (b_ap _ _ _ _ _ _ B) as (v & S & A). destruct (slotted v (g_ap g) ps (proj1 (proj2 A)) (proj1 (alike_adict spec _ _ [] A) eq_refl) S C2) as (v' & A' & L). exists v'. split; [exact (alike_trans spec _ _ _ A A')|exact L].
  - right. cbn [bind]. assert (e = ValueError) as ->; [|reflexivity]. revert C. clear - G. destruct (to_part p0), p; cbn; try congruence.
    + destruct (check_list_err [spec v] [v0]) as [-> | ->]; congruence. + destruct (check_dict_err (map (fun kv => (fst kv, spec (snd kv))) d) d0) as [-> | ->]; congruence.
Qed.
Lemma rejects_updates fs us : (exists u, arranged (f_upd f) u /\ lists u us) \/ g_update_state compatible g fs us = Err ValueError.
Proof.
  destruct (b_upd _ _ _ _ _ _ B) as (u0 & A0 & Eu). destruct (b_state _ _ _ _ _ _ B) as (st0 & As & E1 & E2). destruct (fs_tensors _ _ _ _ _ FS) as (_ & O2 & _). pose proof (alike_only spec _ _ A0 O2) as O0.
  destruct (Nat.eq_dec (List.length us) (List.length (values u0))) as [L|L].
  - left. destruct (listed_any u0 us (proj1 (proj2 A0)) O0 L) as (u & Au & Lu & _). exists u. split; [|exact Lu]. pose proof (alike_arranged spec _ _ A0 O2) as (W1 & _ & X). destruct Au as (W2 & W3 & Y). split; [exact W1|]. split; [exact W3|].
    intros p. specialize (X p). specialize (Y p). destruct (at_path p (f_upd f)), (at_path p u0), (at_path p u); cbn in *; tauto.
  - right. unfold g_update_state. rewrite E1, E2, Eu. destruct (check_list_err (map spec (values st0)) fs) as [C | ->]; [|reflexivity]. rewrite C. cbn [bind].
    destruct (fs_initial _ _ _ _ _ FS) as [_ O]. pose proof (alike_only spec _ _ As O) as Os.
    assert (Ls : List.length fs = List.length (values st0)) by (unfold M_Gather.check_list in C; destruct (Nat.eqb_spec (List.length (map spec (values st0))) (List.length fs)) as [X|]; [rewrite map_length in X; auto|discriminate]).
    destruct (listed_any st0 fs (proj1 (proj2 As)) Os Ls) as (st & _ & _ & ->). cbn [bind]. unfold pack, pack_sequence_as.
    assert (P0 : List.length (flatten_with_path (structure (fun _ _ => tt) (blank u0))) = List.length (values u0)).
    { unfold values, nflatten. rewrite !map_length, <- (map_length fst (flatten_with_path (to_struct u0))), <- (map_length fst (flatten_with_path (structure _ (blank u0)))). f_equal. apply same_paths; [apply blank_wf, A0|apply A0|].
      intros q. unfold leaf_at. rewrite blank_at. destruct (at_path q u0); split; intros [? ?]; try discriminate; eauto. }
    rewrite P0, map_length. destruct (Nat.eqb_spec (List.length (values u0)) (List.length us)) as [X|X]; [congruence|reflexivity].
Qed.
End Methods.
End G7.
