(** Listing, splitting and joining: the flat values of a nested dictionary and back. *)
From Coq Require Import Ascii Permutation Sorted Lia.
From Verif Require Import Base M_Encoder L_Encoder M_Dicts S_Dicts L_Dicts L_Keys M_Gather S_Gather L_Gather L_Gather2.

Section G3.
Context {V Sp : Type} (spec : V -> Sp) (compatible : Sp -> V -> bool).
Hypothesis Eager : forall x y, compatible (spec x) y = true <-> spec x = spec y.
Notation dval := (dval V).
Notation alike := (alike spec).
Notation like := (like spec).

(** ** Equivalences *)
Lemma like_refl f : like f f. Proof. destruct f; cbn; auto. Qed.
Lemma like_sym f g : like f g -> like g f. Proof. destruct f, g; cbn; auto. Qed.
Lemma like_trans f g h : like f g -> like g h -> like f h. Proof. destruct f, g, h; cbn; try tauto; congruence. Qed.
Lemma alike_refl v : wf_dval v -> alike v v. Proof. intros W. repeat split; auto. intros p. apply like_refl. Qed.
Lemma alike_sym v w : alike v w -> alike w v. Proof. intros (A & B & H). repeat split; auto. intros p. now apply like_sym. Qed.
Lemma alike_trans u v w : alike u v -> alike v w -> alike u w. Proof. intros (A & B & H) (A' & B' & H'). repeat split; auto. intros p. eapply like_trans; eauto. Qed.
Lemma same_refl (v : dval) : wf_dval v -> same v v. Proof. intros W. repeat split; auto. Qed.
Lemma same_sym (v w : dval) : same v w -> same w v. Proof. intros (A & B & H). repeat split; auto. Qed.
Lemma same_trans (u v w : dval) : same u v -> same v w -> same u w. Proof. intros (A & B & H) (A' & B' & H'). repeat split; auto. intros p. now rewrite H. Qed.
Lemma same_alike (v w : dval) : same v w -> alike v w. Proof. intros (A & B & H). repeat split; auto. intros p. rewrite H. apply like_refl. Qed.
Lemma alike_same u v w : alike u v -> same v w -> alike u w. Proof. intros H H'. eapply alike_trans; [exact H|now apply same_alike]. Qed.
Lemma same_only (v w : dval) : same v w -> only_tensors v -> only_tensors w. Proof. intros (_ & _ & E) O p x H. rewrite <- E in H. now apply O in H. Qed.
Lemma alike_only v w : alike v w -> only_tensors v -> only_tensors w.
Proof. intros (_ & _ & E) O p x H. specialize (E p). rewrite H in E. destruct (at_path p v) eqn:A; cbn in E; try tauto. now apply O in A. Qed.
Lemma alike_adict v w p : alike v w -> (at_path p v = ADict <-> at_path p w = ADict).
Proof. intros (_ & _ & E). specialize (E p). destruct (at_path p v), (at_path p w); cbn in E; try tauto; split; congruence. Qed.
Lemma alike_nothing v w p : alike v w -> (at_path p v = Nothing <-> at_path p w = Nothing).
Proof. intros (_ & _ & E). specialize (E p). destruct (at_path p v), (at_path p w); cbn in E; try tauto; split; congruence. Qed.
Lemma alike_safe v w : alike v w -> slash_safe v -> slash_safe w.
Proof. intros A S p k k' ch r H H' E. apply (S p k k' ch r); [now apply (alike_adict _ _ _ A)|intros N; apply H'; now apply (alike_nothing _ _ _ A)|exact E]. Qed.
Lemma alike_leaf v w q : alike v w -> (exists x, leaf_at q v = Some x) <-> (exists x, leaf_at q w = Some x).
Proof. intros (_ & _ & E). specialize (E q). unfold leaf_at. destruct (at_path q v), (at_path q w); cbn in E; try tauto; split; intros [? ?]; eauto; discriminate. Qed.
Lemma arranged_leaf (v w : dval) q : arranged v w -> (exists x, leaf_at q v = Some x) <-> (exists x, leaf_at q w = Some x).
Proof. intros (_ & _ & E). specialize (E q). unfold leaf_at. destruct (at_path q v), (at_path q w); cbn in E; try tauto; split; intros [? ?]; eauto; discriminate. Qed.
Lemma arranged_adict (v w : dval) p : arranged v w -> (at_path p v = ADict <-> at_path p w = ADict).
Proof. intros (_ & _ & E). specialize (E p). destruct (at_path p v), (at_path p w); cbn in E; try tauto; split; congruence. Qed.
Lemma arranged_only (v w : dval) : arranged v w -> only_tensors w.
Proof. intros (_ & _ & E) p x H. specialize (E p). rewrite H in E. destruct (at_path p v); exact E. Qed.
Lemma alike_arranged v w : alike v w -> only_tensors v -> arranged v w.
Proof. intros (A & B & E) O. repeat split; auto. intros p. specialize (E p). destruct (at_path p v) eqn:F, (at_path p w); cbn in *; try tauto. now apply O in F. Qed.

(** ** Listing *)
Lemma lists_ext (v w : dval) l : (forall p x, at_path p v = ATf x <-> at_path p w = ATf x) -> lists v l -> lists w l.
Proof. intros E (ps & S & L & H). exists ps. repeat split; auto; intros; [apply E|apply H, E]; now try apply H. Qed.
Lemma lists_same (v w : dval) l : same v w -> lists v l -> lists w l.
Proof. intros (_ & _ & E). apply lists_ext. intros p x. now rewrite E. Qed.
Lemma strings_of (l : list (list key)) : (forall p, In p l -> exists q, p = map codes q) -> exists qs, l = map (map codes) qs.
Proof.
  induction l as [|p l IH]; intros H; [now exists []|]. destruct (H p (or_introl eq_refl)) as [q ->]. destruct IH as [qs ->]; [intros p Hp; apply H; now right|]. now exists (q :: qs).
Qed.
Lemma ss_map {A B} (f : A -> B) (R : B -> B -> Prop) l : StronglySorted R (map f l) <-> StronglySorted (fun x y => R (f x) (f y)) l.
Proof.
  induction l as [|a l IH]; cbn; split; intros S; try constructor; inversion S as [|? ? S1 F]; subst; try (now apply IH).
  - rewrite Forall_forall in *. intros y Hy. apply F. now apply in_map.
  - rewrite Forall_forall in *. intros y Hy. apply in_map_iff in Hy. destruct Hy as (z & <- & Hz). now apply F.
Qed.
Lemma ss_impl {A} (R R' : A -> A -> Prop) l : (forall x y, R x y -> R' x y) -> StronglySorted R l -> StronglySorted R' l.
Proof. intros H. induction 1 as [|a l S IH F]; constructor; auto. rewrite Forall_forall in *. auto. Qed.
Lemma in_combine_map {A B C D} (f : A -> C) (g : B -> D) (la : list A) (lb : list B) z : In z (combine (map f la) (map g lb)) <-> exists a b, In (a, b) (combine la lb) /\ z = (f a, g b).
Proof.
  revert lb. induction la as [|a la IH]; intros [|b lb]; cbn; try (split; [tauto|intros (? & ? & [] & _)]). rewrite IH. split.
  - intros [<-|(x & y & H & ->)]; [exists a, b; auto|exists x, y; auto].
  - intros (x & y & [[= <- <-]|H] & ->); [now left|right; eauto].
Qed.
Lemma only_leaf (v : dval) q l : only_tensors v -> leaf_at q v = Some l -> exists x, l = tf x /\ at_path q v = ATf x.
Proof. intros O. unfold leaf_at. destruct (at_path q v) eqn:E; try discriminate; intros [= <-]; [now apply O in E|]. eexists; split; reflexivity. Qed.
Lemma nflatten_tf (v : dval) : wf_dval v -> only_tensors v -> nflatten v = map tf (values v).
Proof.
  intros W O. unfold values, nflatten. rewrite !map_map. apply map_ext_in. intros [p l] Hp. unfold to_struct in Hp. apply (in_struct _ v W) in Hp. destruct Hp as (q & b & y & -> & Lf & ->).
  destruct (only_leaf _ _ _ O Lf) as (z & E & _). injection E as -> ->. reflexivity.
Qed.
Lemma lists_values (v : dval) l : wf_dval v -> only_tensors v -> (lists v l <-> l = values v).
Proof.
  intros W O. assert (FS : StronglySorted plt (map fst (flatten_with_path (to_struct v)))) by now apply flatten_psorted, struct_distinct. split.
  - intros (ps & S & L & H). assert (E : combine (map (map codes) ps) (map tf l) = flatten_with_path (to_struct v)).
    { apply pairs_unique; [|exact FS|].
      - rewrite map_fst_combine by now rewrite !map_length. apply ss_map. eapply ss_impl; [|exact S]. intros x y. apply path_lt_plt.
      - intros [p x]. rewrite in_combine_map. unfold to_struct. rewrite (in_struct _ v W). split.
        + intros (q & y & Hq & [= -> ->]). apply H in Hq. exists q, true, y. unfold leaf_at. now rewrite Hq.
        + intros (q & b & y & -> & Lf & ->). destruct (only_leaf _ _ _ O Lf) as (z & E & A). injection E as -> ->. exists q, z. split; [now apply H|reflexivity]. }
    unfold values, nflatten. rewrite <- E. rewrite map_snd_combine by now rewrite !map_length. rewrite map_map. cbn. symmetry. apply map_id.
  - intros ->. destruct (strings_of (map fst (flatten_with_path (to_struct v)))) as [qs E].
    { intros p Hp. apply in_map_iff in Hp. destruct Hp as ([p' x] & <- & Hp). unfold to_struct in Hp. apply (in_struct _ v W) in Hp. destruct Hp as (q & _ & _ & -> & _). now exists q. }
    exists qs. split; [|split].
    + rewrite E in FS. apply (ss_map (map codes) plt) in FS. eapply ss_impl; [|exact FS]. intros x y. apply path_lt_plt.
    + apply (f_equal (@List.length _)) in E. rewrite !map_length in E. unfold values, nflatten. now rewrite !map_length.
    + intros p x. assert (F : flatten_with_path (to_struct v) = combine (map (map codes) qs) (map tf (values v))) by (rewrite <- E, <- nflatten_tf by assumption; symmetry; apply combine_fst_snd).
      assert (G : In (map codes p, tf x) (flatten_with_path (to_struct v)) <-> at_path p v = ATf x).
      { rewrite <- leaf_flat by assumption. unfold leaf_at, tf. destruct (at_path p v); split; intros HH; try discriminate HH; injection HH as ->; reflexivity. }
      rewrite <- G, F, in_combine_map. split.
      * intros H. exists p, x. auto.
      * intros (a & b & H & [= Ea Eb]). apply map_codes_inj in Ea. now subst.
Qed.
Lemma values_same (v w : dval) : same v w -> values v = values w.
Proof. intros H. unfold values, nflatten. now rewrite (same_flat _ _ H). Qed.

(** ** Splitting and merging *)
Lemma split_parts (v : dval) : wf_dval v -> at_path [] v = ADict -> exists py t, split_dict_py_tf v = Ok (py, t) /\ wf_dval py /\ wf_dval t /\
  (forall p, at_path p py = match at_path p v with ATf _ => Nothing | x => x end) /\ (forall p, at_path p t = match at_path p v with APy _ => Nothing | x => x end).
Proof.
  intros W D. destruct v as [x|x|d]; try discriminate. unfold split_dict_py_tf. rewrite split_unfold. destruct (split_go d) as [a b] eqn:E. exists (DDict a), (DDict b).
  assert (ES : split_items (DDict d) = (Some (DDict a), Some (DDict b))) by (rewrite split_unfold, E; reflexivity).
  pose proof (split_wf _ W) as [Wa Wb]. rewrite ES in Wa, Wb. cbn [fst snd] in *. split; [reflexivity|]. split; [now apply Wa|]. split; [now apply Wb|].
  pose proof (split_at _ W) as S. rewrite ES in S. cbn [fst snd] in S. split; intros p; apply S.
Qed.
Lemma corresponding_at (a : dval) : forall b, wf_dval a -> wf_dval b -> at_path [] a = ADict -> at_path [] b = ADict ->
  (forall p, at_path p a = ADict <-> at_path p b = ADict) -> (forall p, at_path p a <> Nothing -> at_path p b <> Nothing -> at_path p a = ADict) -> corresponding a b.
Proof.
  induction a as [x|x|d IH] using dval_ind2; intros b Wa Wb Da Db E N; try discriminate. destruct b as [x|x|e]; try discriminate.
  assert (G : forall (k : string) x, dget k d = Some (DDict x) -> exists y, dget k e = Some (DDict y)).
  { intros k x H. specialize (E [k]). cbn [at_path] in E. rewrite H in E. destruct E as [E _]. specialize (E eq_refl). destruct (dget k e) as [[| |y]|]; try discriminate. eauto. }
  apply wf_inv in Wa, Wb. destruct Wa as [Na Wa], Wb as [Nb Wb]. constructor.
  - intros k x H. destruct (G k x H) as [y Hy]. exists y. split; [exact Hy|]. apply (IH k (DDict x)); [now apply dget_in|apply (Wa k); now apply dget_in|apply (Wb k); now apply dget_in|reflexivity|reflexivity| |].
    + intros p. specialize (E (k :: p)). cbn [at_path] in E. now rewrite H, Hy in E.
    + intros p. specialize (N (k :: p)). cbn [at_path] in N. now rewrite H, Hy in N.
  - intros k y H. specialize (E [k]). cbn [at_path] in E. rewrite H in E. destruct E as [_ E]. specialize (E eq_refl). destruct (dget k d) as [[| |x]|]; try discriminate. eauto.
  - intros k a b Ha Hb. specialize (N [k]). cbn [at_path] in N. rewrite Ha, Hb in N. destruct a as [| |]; [| |reflexivity]; (destruct b; (now discriminate N) || (specialize (N ltac:(discriminate) ltac:(discriminate)); discriminate)).
Qed.
Lemma dkeys_app (a b : dict dval) : dkeys (a ++ b) = dkeys a ++ dkeys b.
Proof. unfold dkeys. apply map_app. Qed.
Lemma second_wf (d1 d2 : dict dval) : forall m m', merge_second d1 d2 m = Ok m' -> NoDup (dkeys m) -> (forall k v, In (k, v) m -> wf_dval v) -> (forall k v, In (k, v) d2 -> wf_dval v) ->
  NoDup (dkeys m') /\ forall k v, In (k, v) m' -> wf_dval v.
Proof.
  induction d2 as [|[k v] r IH]; intros m m' E N W W2; cbn in E; [injection E as <-; auto|]. destruct (is_dict v) eqn:D.
  - destruct (dget k d1) as [[| |x]|]; try discriminate. apply (IH m m'); auto. intros; apply (W2 k0); now right.
  - destruct (dget k m) eqn:G; [discriminate|]. apply (IH _ _ E).
    + rewrite dkeys_app. cbn. apply (Permutation_NoDup (Permutation_cons_append _ _)). constructor; [|exact N]. intros H. unfold dkeys in H. apply in_map_iff in H. destruct H as ([k' c] & E' & H). cbn in E'. subst k'.
      apply (dget_nodup _ _ _ N) in H. congruence.
    + intros k' c H. apply in_app_iff in H. destruct H as [H|[[= <- <-]|[]]]; [eauto|]. apply (W2 k); now left.
    + intros; apply (W2 k0); now right.
Qed.
Lemma first_keys (d2 d m : dict dval) : first_loop d2 d = Ok m -> dkeys m = dkeys d.
Proof.
  revert m; induction d as [|[k v] r IH]; intros m E; cbn in E; [now injection E as <-|]. destruct v as [x|x|x]; cbn [bind] in E.
  - fold (first_loop d2) in E. destruct (first_loop d2 r) as [m'|]; cbn [bind] in E; [|discriminate]. injection E as <-. cbn [dkeys map fst]. unfold dkeys in *. cbn [map fst]. f_equal. now apply IH.
  - fold (first_loop d2) in E. destruct (first_loop d2 r) as [m'|]; cbn [bind] in E; [|discriminate]. injection E as <-. cbn [dkeys map fst]. unfold dkeys in *. cbn [map fst]. f_equal. now apply IH.
  - destruct (dget k d2) as [[| |e]|]; try discriminate. destruct (merge_dicts _ _) as [w|]; cbn [bind] in E; [|discriminate].
    fold (first_loop d2) in E. destruct (first_loop d2 r) as [m'|]; cbn [bind] in E; [|discriminate]. injection E as <-. cbn [dkeys map fst]. unfold dkeys in *. cbn [map fst]. f_equal. now apply IH.
Qed.
Lemma merge_wf (a : dval) : forall b m, wf_dval a -> wf_dval b -> merge_dicts a b = Ok m -> wf_dval m.
Proof.
  induction a as [x|x|d1 IH] using dval_ind2; intros b m Wa Wb; [discriminate|discriminate|]. destruct b as [y|y|d2]; try discriminate. rewrite merge_unfold. apply wf_inv in Wa, Wb.
  destruct Wa as [Na Wa], Wb as [Nb Wb]. destruct (first_loop d2 d1) as [m1|] eqn:F; cbn [bind]; [|discriminate]. destruct (merge_second d1 d2 m1) as [m2|] eqn:S2; cbn [bind]; [|discriminate].
  intros [= <-]. apply wf_inv. pose proof (first_keys _ _ _ F) as K. assert (N1 : NoDup (dkeys m1)) by now rewrite K. apply (second_wf _ _ _ _ S2); auto.
  intros k v H. apply (dget_nodup _ _ _ N1) in H. pose proof (first_inv d2 d1 m1 F k) as Fi. destruct (dget k d1) as [[x|x|x]|] eqn:G.
  - rewrite Fi in H. injection H as <-. exact I. - rewrite Fi in H. injection H as <-. exact I.
  - destruct Fi as (e & w & E1 & E2 & E3). rewrite E3 in H. injection H as <-. apply (IH k (DDict x)) with (b := DDict e); [now apply dget_in|apply (Wa k); now apply dget_in|apply (Wb k); now apply dget_in|exact E2].
  - congruence.
Qed.
(** A recorded structure with the recorded Python values, filled with the tensors of a dictionary like it, is that dictionary. *)
Lemma rebuild_spec (v0 v py0 t0 : dval) (l : list V) : alike v0 v -> at_path [] v0 = ADict -> split_dict_py_tf v0 = Ok (py0, t0) -> lists v l ->
  exists v', rebuild (blank t0) py0 l = Ok v' /\ same v' v.
Proof.
  intros A D S L. pose proof A as (W0 & Wv & Al). destruct (split_parts v0 W0 D) as (py0' & t0' & S' & Wp0 & Wt0 & Pp0 & Pt0). rewrite S in S'. injection S' as <- <-.
  assert (Dv : at_path [] v = ADict) by now apply (alike_adict _ _ [] A). destruct (split_parts v Wv Dv) as (py & t & Sv & Wp & Wt & Pp & Pt).
  assert (Ot : only_tensors t) by (intros p x H; rewrite Pt in H; destruct (at_path p v); discriminate).
  assert (l = values t) as ->.
  { apply lists_values; [exact Wt|exact Ot|]. eapply lists_ext; [|exact L]. intros p x. rewrite Pt. destruct (at_path p v); split; congruence. }
  unfold rebuild. rewrite <- nflatten_tf by assumption.
  destruct (pack_flatten (blank t0) t) as (t' & E & Wt' & _ & St).
  - now apply blank_wf. - exact Wt.
  - intros q. unfold leaf_at. rewrite blank_at, Pt, Pt0. specialize (Al q). destruct (at_path q v0), (at_path q v); cbn in Al; try tauto; split; intros [? ?]; try discriminate; eauto.
  - intros q. rewrite blank_at, Pt, Pt0. specialize (Al q). destruct (at_path q v0), (at_path q v); cbn in Al; try tauto; split; intros; try discriminate; auto.
  - rewrite E. cbn [bind]. assert (C : corresponding t' py0).
    { apply corresponding_at; [exact Wt'|exact Wp0|rewrite St, Pt, Dv; reflexivity|rewrite Pp0, D; reflexivity| |].
      - intros p. rewrite St, Pt, Pp0. specialize (Al p). destruct (at_path p v0), (at_path p v); cbn in Al; try tauto; split; intros; try discriminate; auto.
      - intros p. rewrite St, Pt, Pp0. specialize (Al p). destruct (at_path p v0), (at_path p v); cbn in Al; try tauto; congruence. }
    apply merge_ok_iff in C; [|exact Wt'|exact Wp0]. destruct (merge_dicts t' py0) as [m|] eqn:M; [|discriminate]. exists m. split; [reflexivity|].
    pose proof (merge_values _ _ _ Wt' Wp0 M) as MV. split; [exact (merge_wf _ _ _ Wt' Wp0 M)|]. split; [exact Wv|].
    intros p. rewrite MV, St, Pt, Pp0. specialize (Al p). destruct (at_path p v0), (at_path p v); cbn in *; try tauto; congruence.
Qed.
End G3.
