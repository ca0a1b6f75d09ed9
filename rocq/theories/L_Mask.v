From Verif Require Import Base M_Num L_Num M_Tensor L_Tensor M_Mask S_Mask L_Sort.
From Coq Require Import Sorting.Permutation.
Open Scope Q_scope.

Lemma round_is x : is_round_half_even x (round_half_even x).
Proof.
  split; [apply round_error|]. intros H.
  unfold round_half_even in *. pose proof (floor_bounds x) as [A B].
  set (f := Qfloor x) in *.
  destruct (Qle_bool (1#2) (x - inject_Z f)) eqn:E1; cbn [negb] in *.
  - apply Qle_bool_iff in E1. destruct (Qle_bool (x - inject_Z f) (1#2)) eqn:E2; cbn [negb] in *.
    + destruct (Z.even f) eqn:E; auto. rewrite Z.add_1_r, Z.even_succ, <- Z.negb_even, E. auto.
    + apply Qle_bool_false in E2. exfalso. rewrite inject_Z_plus, inj_1 in H.
      revert H. apply Qabs_case; intros; lra.
  - apply Qle_bool_false in E1. exfalso. revert H. apply Qabs_case; intros; lra.
Qed.

Lemma mask_k_is size s : is_keep_count size s (mask_k size s).
Proof. exists (round_half_even (inject_Z (Z.of_nat size) * (1 - s))). split; auto. apply round_is. Qed.

Lemma mask_k_pos size s : (1 <= mask_k size s)%Z.
Proof. unfold mask_k. lia. Qed.
Lemma mask_k_le size s : (0 < size)%nat -> 0 <= s -> (mask_k size s <= Z.of_nat size)%Z.
Proof.
  intros H Hs. unfold mask_k. apply Z.max_lub; [|lia].
  rewrite <- (round_inject (Z.of_nat size)) at 2. apply round_le.
  assert (0 <= inject_Z (Z.of_nat size)) by (rewrite <- inj_0, inj_le; lia). nra.
Qed.

Lemma update_mask_ok s w :
  (0 < length (data w))%nat -> 0 <= s -> exists thr mask, update_mask s w = Ok (thr, mask).
Proof.
  intros H Hs. unfold update_mask. rewrite map_length.
  pose proof (mask_k_le (length (data w)) s H Hs). pose proof (mask_k_pos (length (data w)) s).
  destruct (nth_error_top_k_exists (map Qabs (data w)) (Z.to_nat (mask_k (length (data w)) s - 1))) as (t & p & E).
  { rewrite map_length. lia. }
  rewrite E. eauto.
Qed.

Lemma update_mask_spec s w thr mask :
  update_mask s w = Ok (thr, mask) ->
  shape mask = shape w /\ length (data mask) = length (data w) /\
  exists k, is_keep_count (length (data w)) s (Z.of_nat k) /\
    kth_largest (magnitudes w) k thr /\
    forall i, (i < length (data w))%nat ->
      nth i (data mask) 0 = (if Qle_bool thr (Qabs (nth i (data w) 0)) then 1 else 0).
Proof.
  unfold update_mask. rewrite map_length.
  set (k := mask_k (length (data w)) s).
  destruct (nth_error (top_k_all (map Qabs (data w))) (Z.to_nat (k - 1))) as [[t p]|] eqn:E; [|discriminate].
  intros H. injection H as <- <-. cbn [shape data].
  assert (Hlen : length (map b2q (map (fun p0 => Qle_bool t (fst p0) || (snd p0 =? p)%nat)
                          (indexed (map Qabs (data w))))) = length (data w)).
  { rewrite !map_length, indexed_length, map_length. auto. }
  repeat split; auto.
  exists (Z.to_nat k). pose proof (mask_k_pos (length (data w)) s) as Hk. fold k in Hk.
  apply sort_kth in E as [HK [Hp Hv]].
  repeat split.
  - rewrite Z2Nat.id by lia. apply mask_k_is.
  - unfold magnitudes. destruct HK as [HK _]; auto.
  - replace (Z.to_nat k) with (S (Z.to_nat (k - 1))) by lia. apply HK.
  - replace (Z.to_nat k) with (S (Z.to_nat (k - 1))) by lia. apply HK.
  - intros i Hi.
    rewrite nth_indep with (d' := b2q (Qle_bool t (fst (0, 0%nat)) || (snd (0, 0%nat) =? p)%nat)) by lia.
    rewrite map_map.
    change (b2q (Qle_bool t (fst (0, 0%nat)) || (snd (0, 0%nat) =? p)%nat)) with
      ((fun x : Q * nat => b2q (Qle_bool t (fst x) || (snd x =? p)%nat)) (0, 0%nat)).
    rewrite map_nth. rewrite indexed_nth by (rewrite map_length; auto). cbn [fst snd].
    assert (Ei : nth i (map Qabs (data w)) 0 = Qabs (nth i (data w) 0)).
    { rewrite nth_indep with (d' := Qabs 0) by (rewrite map_length; auto). apply map_nth. }
    rewrite Ei. destruct (Nat.eqb_spec i p) as [->|Hn].
    + rewrite orb_true_r. rewrite <- Ei, Hv.
      assert (Qle_bool t t = true) as -> by (apply Qle_bool_iff; lra). auto.
    + rewrite orb_false_r. destruct (Qle_bool t (Qabs (nth i (data w) 0))); auto.
Qed.

Lemma update_mask_separates s w thr mask :
  update_mask s w = Ok (thr, mask) ->
  forall i j, (i < length (data w))%nat -> (j < length (data w))%nat ->
    nth i (data mask) 0 == 1 -> nth j (data mask) 0 == 0 ->
    Qabs (nth j (data w) 0) < Qabs (nth i (data w) 0).
Proof.
  intros H i j Hi Hj A B. apply update_mask_spec in H as (_ & _ & k & _ & _ & H).
  rewrite (H i Hi) in A. rewrite (H j Hj) in B.
  destruct (Qle_bool thr (Qabs (nth i (data w) 0))) eqn:E1; [|lra].
  destruct (Qle_bool thr (Qabs (nth j (data w) 0))) eqn:E2; [lra|].
  apply Qle_bool_iff in E1. apply Qle_bool_false in E2. lra.
Qed.

(** counting kept weights *)
Lemma count_nth {A} (d : A) (p q : A -> bool) l l' :
  length l = length l' -> (forall i, (i < length l)%nat -> p (nth i l d) = q (nth i l' d)) ->
  count_if p l = count_if q l'.
Proof.
  revert l'. induction l as [|a l IH]; intros [|a' l'] HL H; cbn in HL; try discriminate; auto.
  unfold count_if in *. cbn [filter].
  pose proof (H 0%nat ltac:(cbn; lia)) as H0. cbn in H0. rewrite H0.
  assert (length (filter p l) = length (filter q l')) as E.
  { apply IH; [lia|]. intros i Hi. apply (H (S i)). cbn; lia. }
  destruct (q a'); cbn; auto.
Qed.

Lemma ones_count s w thr mask :
  update_mask s w = Ok (thr, mask) -> ones mask = count_if (fun x => Qle_bool thr x) (magnitudes w).
Proof.
  intros H. apply update_mask_spec in H as (_ & HL & k & _ & _ & H).
  unfold ones, magnitudes. rewrite count_map.
  apply (count_nth 0); auto. intros i Hi. rewrite HL in Hi. rewrite (H i Hi).
  destruct (Qle_bool thr _); auto.
Qed.

Lemma ones_at_least s w thr mask :
  update_mask s w = Ok (thr, mask) ->
  exists k, is_keep_count (length (data w)) s (Z.of_nat k) /\ (1 <= k)%nat /\ (k <= ones mask)%nat.
Proof.
  intros H. rewrite (ones_count _ _ _ _ H).
  apply update_mask_spec in H as (_ & _ & k & Hk & (Hin & H1 & H2) & _).
  exists k. repeat split; auto. lia.
Qed.

(** in a list with pairwise distinct entries at most one entry equals t *)
Lemma distinct_tail a l : pairwise_distinct (a :: l) -> pairwise_distinct l.
Proof.
  intros H i j Hi Hj E. assert (S i = S j); [|lia]. apply (H (S i) (S j)); cbn; try lia. auto.
Qed.
Lemma distinct_count l t : pairwise_distinct l -> (count_if (fun x => Qeq_bool x t) l <= 1)%nat.
Proof.
  induction l as [|a l IH]; intros H; [cbn; lia|].
  unfold count_if. cbn [filter]. destruct (Qeq_bool a t) eqn:E.
  - cbn [length]. fold (count_if (fun x => Qeq_bool x t) l).
    assert (count_if (fun x => Qeq_bool x t) l = 0%nat) as ->; [|lia].
    apply count_none. intros x Hx. destruct (Qeq_bool x t) eqn:F; auto. exfalso.
    apply Qeq_bool_iff in E, F. apply (In_nth _ _ 0) in Hx as [n [Hn Hx]].
    assert (0%nat = S n); [|lia]. apply (H 0%nat (S n)); cbn; try lia. rewrite Hx, E, F. reflexivity.
  - apply IH. eapply distinct_tail; eauto.
Qed.
Lemma count_split_eq l t :
  count_if (fun x => Qle_bool t x) l =
  (count_if (fun x => negb (Qle_bool x t)) l + count_if (fun x => Qeq_bool x t) l)%nat.
Proof.
  induction l as [|a l IH]; auto. unfold count_if in *. cbn [filter].
  destruct (Qle_bool t a) eqn:E1.
  - apply Qle_bool_iff in E1. destruct (Qle_bool a t) eqn:E2; cbn [negb].
    + apply Qle_bool_iff in E2. assert (Qeq_bool a t = true) as -> by (apply Qeq_bool_iff; lra). cbn. lia.
    + apply Qle_bool_false in E2. destruct (Qeq_bool a t) eqn:E3.
      * apply Qeq_bool_iff in E3. lra.
      * cbn. lia.
  - apply Qle_bool_false in E1. assert (Qle_bool a t = true) as -> by (apply Qle_bool_iff; lra). cbn [negb].
    destruct (Qeq_bool a t) eqn:E3.
    + apply Qeq_bool_iff in E3. lra.
    + auto.
Qed.

Lemma ones_exact s w thr mask :
  update_mask s w = Ok (thr, mask) -> pairwise_distinct (magnitudes w) ->
  is_keep_count (length (data w)) s (Z.of_nat (ones mask)).
Proof.
  intros H HD. rewrite (ones_count _ _ _ _ H).
  apply update_mask_spec in H as (_ & _ & k & Hk & (Hin & H1 & H2) & _).
  pose proof (distinct_count _ thr HD) as Hc. rewrite count_split_eq in *.
  assert ((count_if (fun x => negb (Qle_bool x thr)) (magnitudes w) +
          count_if (fun x => Qeq_bool x thr) (magnitudes w))%nat = k) as -> by lia. auto.
Qed.

Lemma keep_count_unique size s k k' : is_keep_count size s k -> is_keep_count size s k' -> k = k'.
Proof.
  intros (r & (A1 & A2) & ->) (r' & (B1 & B2) & ->).
  assert (r = r'); [|congruence]. set (x := inject_Z (Z.of_nat size) * (1 - s)) in *.
  pose proof A1 as A1'. pose proof B1 as B1'.
  apply Qabs_Qle_condition in A1', B1'.
  destruct (Z_lt_le_dec r r') as [L|G].
  - assert (inject_Z (r + 1) <= inject_Z r') by (rewrite inj_le; lia). rewrite inject_Z_plus, inj_1 in H.
    assert (inject_Z r - x == -(1#2)) by lra. assert (inject_Z r' - x == 1#2) by lra.
    rewrite H1 in B2. rewrite H0 in A2. specialize (A2 ltac:(reflexivity)). specialize (B2 ltac:(reflexivity)).
    assert (inject_Z r' == inject_Z (r + 1)) by (rewrite inject_Z_plus, inj_1; lra).
    rewrite inject_Z_injective in H2. subst r'. rewrite Z.add_1_r, Z.even_succ, <- Z.negb_even, A2 in B2. discriminate.
  - destruct (Z_lt_le_dec r' r) as [L|G']; [|lia].
    assert (inject_Z (r' + 1) <= inject_Z r) by (rewrite inj_le; lia). rewrite inject_Z_plus, inj_1 in H.
    assert (inject_Z r' - x == -(1#2)) by lra. assert (inject_Z r - x == 1#2) by lra.
    rewrite H1 in A2. rewrite H0 in B2. specialize (A2 ltac:(reflexivity)). specialize (B2 ltac:(reflexivity)).
    assert (inject_Z r == inject_Z (r' + 1)) by (rewrite inject_Z_plus, inj_1; lra).
    rewrite inject_Z_injective in H2. subst r. rewrite Z.add_1_r, Z.even_succ, <- Z.negb_even, B2 in A2. discriminate.
Qed.

Lemma update_mask_keep_all_zero w thr mask : update_mask 0 w = Ok (thr, mask) ->
  forall i, (i < length (data w))%nat -> nth i (data mask) 0 = 1.
Proof.
  intros H i Hi. pose proof (update_mask_spec _ _ _ _ H) as (_ & _ & k & Hk & (Hin & H1 & H2) & HM).
  assert (Z.of_nat k = Z.of_nat (length (data w))).
  { eapply keep_count_unique; eauto. exists (Z.of_nat (length (data w))). split; [|lia].
    assert (inject_Z (Z.of_nat (length (data w))) - inject_Z (Z.of_nat (length (data w))) * (1 - 0) == 0) as E by lra.
    split; rewrite E; cbn; [discriminate|]. intros K. discriminate. }
  rewrite (HM i Hi). destruct (Qle_bool thr (Qabs (nth i (data w) 0))) eqn:E; auto. exfalso.
  assert (count_if (fun x => Qle_bool thr x) (magnitudes w) < length (magnitudes w))%nat.
  { unfold magnitudes in *. rewrite count_map. clear - E Hi. revert i E Hi.
    induction (data w) as [|a l IH]; intros i E Hi; [cbn in Hi; lia|].
    unfold count_if in *. cbn [filter map length]. destruct i as [|i]; cbn in E.
    - rewrite E. pose proof (count_le (fun x => Qle_bool thr (Qabs x)) l). unfold count_if in *.
      rewrite map_length in *. lia.
    - cbn in Hi. specialize (IH i E ltac:(lia)). rewrite map_length in *.
      destruct (Qle_bool thr (Qabs a)); cbn; lia. }
  unfold magnitudes in *. rewrite map_length in *. lia.
Qed.
