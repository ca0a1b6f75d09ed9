From Verif Require Import Base M_Num L_Num M_Tensor L_Tensor M_Mask S_Mask L_Sort L_Mask L_Block.
From Coq Require Import Sorting.Permutation.
Open Scope nat_scope.

(** ** Rearranging (C12) *)
Lemma list_nat_eqb_refl l : list_nat_eqb l l = true.
Proof. induction l; cbn; auto. rewrite Nat.eqb_refl. auto. Qed.

Lemma rearrange2 {A} (d : A) w r c : shape w = [r; c] ->
  weights_rearrange d w = Ok (transpose d [1;0] w).
Proof. intros H. unfold weights_rearrange. rewrite H. auto. Qed.

Lemma transpose4_shape {A} (d : A) w h x ci co : shape w = [h; x; ci; co] ->
  shape (transpose d [3;0;1;2] w) = [co; h; x; ci].
Proof. intros H. unfold transpose. rewrite tab_shape, H. auto. Qed.

Lemma rearrange4 {A} (d : A) w h x ci co : wf w -> shape w = [h; x; ci; co] ->
  exists p, weights_rearrange d w = Ok p /\ wf p /\ shape p = [co * h * x; ci] /\
    forall o a b i, o < co -> a < h -> b < x -> i < ci ->
      tget d p [(o * h + a) * x + b; i] = tget d w [a; b; i; o].
Proof.
  intros W H. unfold weights_rearrange. rewrite H.
  rewrite reshape_ok by (try apply transpose_wf; rewrite (transpose4_shape d w h x ci co) by auto; cbn; lia).
  eexists. split; [reflexivity|]. split.
  { unfold wf. cbn [shape data]. pose proof (transpose_wf d [3;0;1;2] w) as K. unfold wf in K.
    rewrite K, (transpose4_shape d w h x ci co) by auto. cbn; lia. }
  split; auto. intros o a b i Ho Ha Hb Hi.
  erewrite tget_reshape; [|reflexivity|].
  2:{ rewrite (transpose4_shape d w h x ci co) by auto. instantiate (1 := [o; a; b; i]). cbn [ravel prod]. nia. }
  unfold transpose. rewrite tget_tab.
  - reflexivity.
  - rewrite H. cbn. apply valid4. auto.
Qed.

Lemma prepare2 {A} (d : A) m r c : wf m -> shape m = [c; r] ->
  m_by_n_sparsity_mask_prepare d m [r; c] = Ok (transpose d [1;0] m).
Proof.
  intros W S. unfold m_by_n_sparsity_mask_prepare, rank. unfold wf in W. rewrite W, S.
  replace (prod [c; r]) with (prod [r; c]) by (cbn; lia). rewrite Nat.eqb_refl. cbn [negb length Nat.eqb bind].
  rewrite (transpose2_shape d m c r) by auto. rewrite list_nat_eqb_refl. auto.
Qed.

Lemma prepare4 {A} (d : A) m h x ci co : wf m -> shape m = [co * h * x; ci] ->
  exists p, m_by_n_sparsity_mask_prepare d m [h; x; ci; co] = Ok p /\ wf p /\ shape p = [h; x; ci; co] /\
    forall o a b i, o < co -> a < h -> b < x -> i < ci ->
      tget d p [a; b; i; o] = tget d m [(o * h + a) * x + b; i].
Proof.
  intros W S. unfold m_by_n_sparsity_mask_prepare, rank. pose proof W as W'. unfold wf in W'. rewrite W', S.
  replace (prod [co * h * x; ci]) with (prod [h; x; ci; co]) by (cbn; lia). rewrite Nat.eqb_refl.
  cbn [negb length Nat.eqb].
  rewrite reshape_ok by (auto; rewrite S; cbn; lia). cbn [bind].
  set (m' := mkT [co; h; x; ci] (data m)).
  assert (S' : shape (transpose d [1; 2; 3; 0] m') = [h; x; ci; co]) by reflexivity.
  rewrite S', list_nat_eqb_refl. eexists. split; [reflexivity|]. split; [apply transpose_wf|]. split; auto.
  intros o a b i Ho Ha Hb Hi. unfold transpose. rewrite tget_tab by (cbn; apply valid4; auto).
  cbn [unperm map seq length index_of Nat.eqb nth]. unfold m'. apply tget_reshape; auto.
  rewrite S. cbn [ravel prod]. nia.
Qed.

Lemma split3 co h x k : k < co * h * x -> exists o a b, o < co /\ a < h /\ b < x /\ k = (o * h + a) * x + b.
Proof.
  intros H. assert (x <> 0) by nia. assert (h <> 0) by nia.
  exists (k / x / h), ((k / x) mod h), (k mod x).
  pose proof (Nat.div_mod k x ltac:(auto)). pose proof (Nat.div_mod (k / x) h ltac:(auto)).
  pose proof (Nat.mod_upper_bound k x ltac:(auto)). pose proof (Nat.mod_upper_bound (k / x) h ltac:(auto)).
  repeat split; auto; try lia.
  apply Nat.div_lt_upper_bound; auto. apply Nat.div_lt_upper_bound; auto. nia.
Qed.

Lemma prepare_rearrange {A} (d : A) w p :
  wf w -> weights_rearrange d w = Ok p -> m_by_n_sparsity_mask_prepare d p (shape w) = Ok w.
Proof.
  intros W H. destruct (shape w) as [|h [|x [|ci [|co [|y l]]]]] eqn:S;
    try (unfold weights_rearrange in H; rewrite S in H; discriminate).
  - rewrite (rearrange2 d w h x) in H by auto. injection H as <-.
    rewrite prepare2 by (try apply transpose_wf; apply transpose2_shape; auto).
    f_equal. apply (transpose2_invol d w h x); auto.
  - destruct (rearrange4 d w h x ci co W S) as (p' & E & Wp & Sp & Gp). rewrite E in H. injection H as <-.
    destruct (prepare4 d p' h x ci co Wp Sp) as (q & -> & Wq & Sq & Gq). f_equal.
    apply (tensor_ext d); auto; [congruence|]. rewrite Sq. intros idx Hv.
    apply valid4_inv in Hv as (a & b & i & o & -> & Ha & Hb & Hi & Ho). rewrite Gq, Gp by auto. auto.
Qed.

Lemma rearrange_prepare {A} (d : A) m s q :
  wf m -> (exists r c, shape m = [r; c] /\ ((s = [c; r]) \/ (exists h x co, s = [h; x; c; co] /\ r = co * h * x))) ->
  m_by_n_sparsity_mask_prepare d m s = Ok q -> shape q = s /\ wf q /\ weights_rearrange d q = Ok m.
Proof.
  intros W (r & c & S & [-> | (h & x & co & -> & ->)]) H.
  - rewrite (prepare2 d m c r) in H by auto. injection H as <-.
    pose proof (transpose2_shape d m r c S) as S'. split; auto. split; [apply transpose_wf|].
    rewrite (rearrange2 d _ c r) by auto. f_equal. apply (transpose2_invol d m r c); auto.
  - destruct (prepare4 d m h x c co W S) as (p & E & Wp & Sp & Gp). rewrite E in H. injection H as <-.
    split; auto. split; auto.
    destruct (rearrange4 d p h x c co Wp Sp) as (m' & -> & Wm' & Sm' & Gm'). f_equal.
    apply (tensor_ext d); auto; [congruence|]. rewrite Sm'. intros idx Hv.
    apply valid2_inv in Hv as (k & i & -> & Hk & Hi).
    destruct (split3 _ _ _ _ Hk) as (o & a & b & Ho & Ha & Hb & ->). rewrite Gm', Gp by auto. auto.
Qed.

Lemma rearrange_error {A} (d : A) w : rank w <> 2 -> rank w <> 4 -> weights_rearrange d w = Err ValueError.
Proof.
  unfold rank, weights_rearrange. destruct (shape w) as [|a [|b [|c [|e [|f l]]]]]; cbn; intros; auto; congruence.
Qed.

Lemma rearrange_ok {A} (d : A) w : wf w -> rank w = 2 \/ rank w = 4 ->
  exists p, weights_rearrange d w = Ok p /\ wf p /\
    exists r c, shape p = [r; c] /\
     ((shape w = [c; r]) \/ (exists h x co, shape w = [h; x; c; co] /\ r = co * h * x)).
Proof.
  intros W H. unfold rank in H.
  destruct (shape w) as [|h [|x [|ci [|co [|y l]]]]] eqn:S; cbn in H; try (destruct H; discriminate).
  - rewrite (rearrange2 d w h x) by auto. eexists. split; [reflexivity|]. split; [apply transpose_wf|].
    exists x, h. split; [apply transpose2_shape; auto|auto].
  - destruct (rearrange4 d w h x ci co W S) as (p' & E & Wp & Sp & Gp). rewrite E.
    exists p'. split; auto. split; auto. exists (co * h * x), ci. split; auto. right. exists h, x, co. auto.
Qed.

(** ** The m-by-n mask (C10) *)
Definition padblock (w : tensor Q) (c n i g : nat) : list Q :=
  map (fun x => if g * n + x <? c then Qabs (tget 0%Q w [i; g * n + x]) else 0%Q) (seq 0 n).

Lemma padblock_length w c n i g : length (padblock w c n i g) = n.
Proof. unfold padblock. rewrite map_length, seq_length. auto. Qed.
Lemma padblock_nth w c n i g x : x < n ->
  nth x (padblock w c n i g) 0%Q = if g * n + x <? c then Qabs (tget 0%Q w [i; g * n + x]) else 0%Q.
Proof. intros H. unfold padblock. rewrite nth_map_seq by auto. auto. Qed.

Lemma generate_spec w r c m n : wf w -> shape w = [r; c] -> m < n ->
  exists mask, generate_m_by_n_mask w m n = Ok mask /\ wf mask /\ shape mask = [r; c] /\
    forall i j, i < r -> j < c ->
      tget 0%Q mask [i; j] =
      b2q (existsb (Nat.eqb (j mod n)) (top_k_indices (n - m) (padblock w c n i (j / n)))).
Proof.
  intros W S Hmn. unfold generate_m_by_n_mask. rewrite S.
  replace (m <? n) with true by lia. cbn [negb].
  set (pad := n - c mod n). set (P := c + pad).
  pose proof (Nat.div_mod c n ltac:(lia)) as Dc. pose proof (Nat.mod_upper_bound c n ltac:(lia)) as Mc.
  assert (HP : P = (c / n + 1) * n) by (unfold P, pad; nia).
  set (K := c / n + 1) in *.
  set (padded := tab [r; P] _).
  assert (Lp : length (data padded) = r * K * n).
  { pose proof (tab_wf [r; P] (fun idx => match idx with
           | [i; j] => if Nat.ltb j c then tget 0%Q (tmap Qabs w) [i; j] else 0%Q | _ => 0%Q end)) as Wp.
    unfold wf in Wp. rewrite tab_shape in Wp. unfold padded. rewrite Wp. cbn [prod]. nia. }
  rewrite Lp, Nat.div_mul by lia.
  unfold reshape at 1. rewrite Lp. replace (prod [r * K; n]) with (r * K * n) by (cbn; lia).
  rewrite Nat.eqb_refl. cbn [bind].
  set (blocks := mkT [r * K; n] (data padded)).
  set (mp := tab [r * K; n] _).
  assert (Lmp : length (data mp) = r * K * n).
  { unfold mp, tab. cbn [data]. rewrite map_length, seq_length. cbn [prod]. lia. }
  unfold reshape at 1. rewrite Lmp. replace (prod [r; P]) with (r * K * n) by (cbn [prod]; nia).
  rewrite Nat.eqb_refl. cbn [bind].
  assert (Wr : wf (mkT [r; P] (data mp))) by (unfold wf; cbn [shape data]; rewrite Lmp; cbn [prod]; nia).
  destruct (slice2_spec (mkT [r; P] (data mp)) r P r c Wr eq_refl) as (mask & E & Wm & Sm & Gm); [lia|lia|].
  exists mask. split; auto. split; auto. split; auto.
  intros i j Hi Hj. rewrite Gm by auto.
  assert (Hjn : j / n < K).
  { apply Nat.div_lt_upper_bound; [lia|]. rewrite Nat.mul_comm. rewrite <- HP. unfold P. lia. }
  pose proof (Nat.div_mod j n ltac:(lia)) as Dj. pose proof (Nat.mod_upper_bound j n ltac:(lia)) as Mj.
  assert (HB : i * K + j / n < r * K) by nia.
  erewrite (tget_reshape 0%Q [r; P] (data mp) mp); [|reflexivity|].
  2:{ instantiate (1 := [i * K + j / n; j mod n]). unfold mp. rewrite tab_shape. cbn [ravel prod]. nia. }
  unfold mp. rewrite tget_tab by (apply valid2; auto).
  f_equal. f_equal. f_equal. unfold padblock. apply map_ext_in. intros x Hx. apply in_seq in Hx.
  unfold blocks. erewrite (tget_reshape 0%Q _ _ padded); [|reflexivity|].
  2:{ instantiate (1 := [i; j / n * n + x]). unfold padded. rewrite tab_shape. cbn [ravel prod]. nia. }
  unfold padded. rewrite tget_tab by (apply valid2; nia).
  destruct (Nat.ltb_spec (j / n * n + x) c); auto.
  apply (tget_tmap Qabs 0%Q 0%Q); auto. rewrite S. apply valid2. auto.
Qed.

Lemma generate_error w m n : n <= m -> generate_m_by_n_mask w m n = Err InvalidArgument.
Proof. intros H. unfold generate_m_by_n_mask. replace (m <? n) with false by lia. auto. Qed.

Lemma existsb_In x T : existsb (Nat.eqb x) T = true <-> In x T.
Proof.
  rewrite existsb_exists. split.
  - intros (y & Hy & E). apply Nat.eqb_eq in E. subst. auto.
  - intros H. exists x. rewrite Nat.eqb_refl. auto.
Qed.

Lemma count_in_prefix T L : NoDup T ->
  count_if (fun x => existsb (Nat.eqb x) T) (seq 0 L) = length (filter (fun x => x <? L) T).
Proof.
  intros H. unfold count_if. apply Permutation_length. apply NoDup_Permutation.
  - apply NoDup_filter. apply seq_NoDup.
  - apply NoDup_filter. auto.
  - intros x. rewrite !filter_In, in_seq, existsb_In. split; intros [A B]; split; auto; lia.
Qed.

Lemma seq_shift_map a n : seq a n = map (fun x => a + x) (seq 0 n).
Proof.
  revert a. induction n as [|n IH]; intros a; cbn; auto. f_equal; [lia|].
  rewrite IH, (IH 1), map_map. apply map_ext. intros; lia.
Qed.

(** In each group: exactly min(n-m, group size) kept; kept ones are at least as large as dropped ones. *)
Lemma generate_group w r c m n mask i g : wf w -> shape w = [r; c] ->
  generate_m_by_n_mask w m n = Ok mask -> i < r -> g * n < c ->
  count_if (fun j => Qeq_bool (tget 0%Q mask [i; j]) 1) (group_cols c n g) =
    Nat.min (n - m) (length (group_cols c n g)) /\
  forall j j', In j (group_cols c n g) -> In j' (group_cols c n g) ->
    (tget 0 mask [i; j] == 1)%Q -> (tget 0 mask [i; j'] == 0)%Q ->
    (Qabs (tget 0 w [i; j']) <= Qabs (tget 0 w [i; j]))%Q.
Proof.
  intros W S E Hi Hg.
  destruct (Nat.le_gt_cases n m) as [Hnm|Hmn].
  { rewrite generate_error in E by auto. discriminate. }
  destruct (generate_spec w r c m n W S Hmn) as (mask' & E' & Wm & Sm & G). rewrite E in E'. injection E' as <-.
  set (L := Nat.min n (c - g * n)).
  set (B := padblock w c n i g). set (T := top_k_indices (n - m) B).
  assert (LB : length B = n) by apply padblock_length.
  assert (LT : length T = n - m) by (unfold T; rewrite top_k_indices_length, LB; lia).
  assert (ND : NoDup T) by apply top_k_indices_NoDup.
  assert (HL : 0 < L /\ L <= n /\ g * n + L <= c) by (unfold L; lia).
  assert (Gx : forall x, x < L -> tget 0%Q mask [i; g * n + x] = b2q (existsb (Nat.eqb x) T)).
  { intros x Hx. rewrite G by lia.
    assert ((g * n + x) mod n = x) as ->.
    { rewrite Nat.add_comm, Nat.mod_add by lia. apply Nat.mod_small. lia. }
    assert ((g * n + x) / n = g) as ->.
    { rewrite Nat.div_add_l by lia. rewrite Nat.div_small by lia. lia. }
    auto. }
  assert (Bx : forall x, x < L -> nth x B 0%Q = Qabs (tget 0%Q w [i; g * n + x])).
  { intros x Hx. unfold B. rewrite padblock_nth by lia. replace (g * n + x <? c) with true by lia. auto. }
  split.
  - unfold group_cols. fold L. rewrite seq_length, (seq_shift_map (g * n) L), count_map.
    rewrite (count_ext _ (fun x => existsb (Nat.eqb x) T)).
    2:{ intros x Hx. apply in_seq in Hx. rewrite Gx by lia. destruct (existsb _ T); auto. }
    rewrite count_in_prefix by auto.
    destruct (forallb (fun x => x <? L) T) eqn:F.
    + rewrite forallb_forall in F. rewrite filter_keep by auto. rewrite LT.
      assert (length T <= L).
      { rewrite <- (seq_length L 0). apply NoDup_incl_length; auto. intros x Hx. apply in_seq.
        specialize (F x Hx). lia. }
      lia.
    + assert (exists p, In p T /\ L <= p) as (p & Hp & HpL).
      { apply Bool.not_true_iff_false in F. destruct (existsb (fun x => L <=? x) T) eqn:EX.
        - apply existsb_exists in EX as (p & Hp & HpL). exists p. split; auto. lia.
        - exfalso. apply F. apply forallb_forall. intros x Hx.
          destruct (Nat.ltb_spec x L); auto. assert (existsb (fun x => L <=? x) T = true); [|congruence].
          apply existsb_exists. exists x. split; auto. lia. }
      assert (All : forall x, x < L -> In x T).
      { intros x Hx. destruct (in_dec Nat.eq_dec x T) as [|Hn]; auto. exfalso.
        pose proof (top_k_indices_before (n - m) B p x Hp ltac:(lia) Hn) as Hb.
        pose proof (top_k_indices_lt _ _ _ Hp) as Hpn. rewrite LB in Hpn.
        unfold before in Hb. cbn [fst snd] in Hb. rewrite Bx in Hb by auto.
        assert (nth p B 0%Q = 0%Q) as E0.
        { unfold B. rewrite padblock_nth by lia. replace (g * n + p <? c) with false; auto.
          symmetry. apply Nat.ltb_ge. unfold L in HpL, Hpn. lia. }
        rewrite E0 in Hb. pose proof (Qabs_nonneg (tget 0%Q w [i; g * n + x])).
        destruct Hb as [Hb|[Hb Hb']]; [lra|lia]. }
      assert (length (filter (fun x => x <? L) T) = L) as ->.
      { transitivity (length (seq 0 L)); [|apply seq_length]. apply Permutation_length. apply NoDup_Permutation.
        - apply NoDup_filter; auto.
        - apply seq_NoDup.
        - intros x. rewrite filter_In, in_seq. split; [lia|]. intros Hx. split; [apply All; lia|lia]. }
      assert (L <= length T).
      { rewrite <- (seq_length L 0). apply NoDup_incl_length; [apply seq_NoDup|]. intros x Hx. apply in_seq in Hx.
        apply All. lia. }
      lia.
  - intros j j' Hj Hj' M M'. unfold group_cols in Hj, Hj'. fold L in Hj, Hj'. apply in_seq in Hj, Hj'.
    assert (exists x, j = g * n + x /\ x < L) as (x & -> & Hx) by (exists (j - g * n); lia).
    assert (exists x, j' = g * n + x /\ x < L) as (x' & -> & Hx') by (exists (j' - g * n); lia).
    rewrite Gx in M, M' by lia.
    destruct (existsb (Nat.eqb x) T) eqn:EX; [|cbn in M; lra].
    destruct (existsb (Nat.eqb x') T) eqn:EX'; [cbn in M'; lra|].
    apply existsb_In in EX.
    assert (~ In x' T) by (intro K; apply existsb_In in K; congruence).
    pose proof (top_k_indices_before (n - m) B x x' EX ltac:(lia) H) as Hb.
    unfold before in Hb. cbn [fst snd] in Hb. rewrite !Bx in Hb by auto. destruct Hb as [Hb|[Hb _]]; lra.
Qed.

Lemma generate_01 w r c m n mask i j : wf w -> shape w = [r; c] ->
  generate_m_by_n_mask w m n = Ok mask -> i < r -> j < c ->
  tget 0%Q mask [i; j] = 0%Q \/ tget 0%Q mask [i; j] = 1%Q.
Proof.
  intros W S E Hi Hj.
  destruct (Nat.le_gt_cases n m) as [Hnm|Hmn].
  { rewrite generate_error in E by auto. discriminate. }
  destruct (generate_spec w r c m n W S Hmn) as (mask' & E' & Wm & Sm & G). rewrite E in E'. injection E' as <-.
  rewrite G by auto. destruct (existsb _ _); auto.
Qed.

(** ** From the pruner to the checker (C11) *)
Lemma mbyn_ok w m n : wf w -> (rank w = 2 \/ rank w = 4) -> m < n ->
  exists p mask2 mask, weights_rearrange 0%Q w = Ok p /\ wf p /\ generate_m_by_n_mask p m n = Ok mask2 /\
    update_mask_m_by_n w m n = Ok mask /\ wf mask /\ shape mask = shape w /\
    weights_rearrange 0%Q mask = Ok mask2 /\ shape mask2 = shape p /\ wf mask2 /\
    exists r c, shape p = [r; c].
Proof.
  intros W H Hmn. destruct (rearrange_ok 0%Q w W H) as (p & E & Wp & r & c & Sp & HS).
  destruct (generate_spec p r c m n Wp Sp Hmn) as (mask2 & E2 & W2 & S2 & _).
  exists p, mask2. unfold update_mask_m_by_n. rewrite E. cbn [bind]. rewrite E2. cbn [bind].
  assert (exists q, m_by_n_sparsity_mask_prepare 0%Q mask2 (shape w) = Ok q) as (q & Eq).
  { destruct HS as [-> | (h & x & co & -> & Er)].
    - eexists. apply prepare2; auto.
    - subst r. destruct (prepare4 0%Q mask2 h x c co W2 S2) as (q & Eq & _). eauto. }
  exists q. destruct (rearrange_prepare 0%Q mask2 (shape w) q W2) as (Sq & Wq & Rq); auto.
  { exists r, c. split; auto. }
  repeat split; auto. congruence. exists r, c. auto.
Qed.

Lemma tmul_wf t u : wf t -> wf u -> shape t = shape u -> wf (tmul t u).
Proof.
  unfold wf, tmul. intros A B C. cbn [shape data]. rewrite map_length, combine_length, A, B, C. lia.
Qed.
Lemma tget_tmul t u idx : wf t -> wf u -> shape t = shape u -> valid (shape t) idx ->
  tget 0%Q (tmul t u) idx = (tget 0 t idx * tget 0 u idx)%Q.
Proof.
  intros A B C V. unfold tget, tmul. cbn [shape data]. rewrite <- C.
  pose proof (ravel_lt _ _ V) as L. unfold wf in *.
  rewrite nth_indep with (d' := (fun p : Q * Q => (fst p * snd p)%Q) (0%Q, 0%Q)).
  - rewrite (map_nth (fun p : Q * Q => (fst p * snd p)%Q)), combine_nth by congruence. reflexivity.
  - rewrite map_length, combine_length, A, B, C in *. lia.
Qed.

Lemma rearrange_get {A B} (d : A) (d' : B) w u p q : wf w -> wf u -> shape w = shape u ->
  weights_rearrange d w = Ok p -> weights_rearrange d' u = Ok q ->
  shape p = shape q /\
  forall idx, valid (shape p) idx -> exists idx', valid (shape w) idx' /\ tget d p idx = tget d w idx' /\ tget d' q idx = tget d' u idx'.
Proof.
  intros W U S E F. destruct (shape w) as [|h [|x [|ci [|co [|y l]]]]] eqn:Sw;
    try (unfold weights_rearrange in E; rewrite Sw in E; discriminate); symmetry in S.
  - rewrite (rearrange2 d w h x) in E by auto. rewrite (rearrange2 d' u h x) in F by auto.
    injection E as <-. injection F as <-.
    rewrite (transpose2_shape d w h x), (transpose2_shape d' u h x) by auto. split; auto.
    intros idx V. apply valid2_inv in V as (i & j & -> & Hi & Hj). exists [j; i]. split; [apply valid2; auto|].
    rewrite (transpose2_get d w h x), (transpose2_get d' u h x) by auto. auto.
  - destruct (rearrange4 d w h x ci co W Sw) as (p' & E' & Wp & Sp & Gp). rewrite E in E'. injection E' as <-.
    destruct (rearrange4 d' u h x ci co U S) as (q' & F' & Wq & Sq & Gq). rewrite F in F'. injection F' as <-.
    split; [congruence|]. rewrite Sp. intros idx V. apply valid2_inv in V as (k & i & -> & Hk & Hi).
    destruct (split3 _ _ _ _ Hk) as (o & a & b & Ho & Ha & Hb & ->). exists [a; b; i; o].
    split; [apply valid4; auto|]. rewrite Gp, Gq by auto. auto.
Qed.

Lemma rearrange_same_rank {A B} (d : A) (d' : B) w u p : wf w -> shape w = shape u -> wf u ->
  weights_rearrange d w = Ok p -> exists q, weights_rearrange d' u = Ok q.
Proof.
  intros W S U E. destruct (shape w) as [|h [|x [|ci [|co [|y l]]]]] eqn:Sw;
    try (unfold weights_rearrange in E; rewrite Sw in E; discriminate); symmetry in S.
  - eexists. apply (rearrange2 d' u h x). auto.
  - destruct (rearrange4 d' u h x ci co U S) as (q' & F' & _). eauto.
Qed.

Lemma ceil_div_lt c n g : 0 < n -> g < ceil_div c n -> g * n < c.
Proof.
  intros Hn H. unfold ceil_div in H.
  pose proof (Nat.div_mod (c + n - 1) n ltac:(lia)). pose proof (Nat.mod_upper_bound (c + n - 1) n ltac:(lia)).
  destruct (Nat.lt_ge_cases (g * n) c); auto. exfalso.
  assert ((c + n - 1) / n <= g); [|lia].
  assert (n * ((c + n - 1) / n) < n * (g + 1)) by nia.
  assert ((c + n - 1) / n < g + 1) by nia. lia.
Qed.

Lemma pruned_accepted w m n mask : wf w -> (rank w = 2 \/ rank w = 4) -> m < n ->
  update_mask_m_by_n w m n = Ok mask ->
  is_pruned_m_by_n (tmul w mask) m n C_OUT = Ok true.
Proof.
  intros W H Hmn E.
  destruct (mbyn_ok w m n W H Hmn) as (p & mask2 & mask' & Ep & Wp & Eg & E' & Wm & Sm & Rm & S2 & W2 & r & c & Sp).
  rewrite E in E'. injection E' as <-.
  assert (Wt : wf (tmul w mask)) by (apply tmul_wf; auto).
  destruct (rearrange_same_rank 0%Q 0%Q w (tmul w mask) p W eq_refl Wt Ep) as (q & Eq).
  unfold is_pruned_m_by_n. replace (n <? m) with false by lia. rewrite Eq. cbn [bind].
  destruct (rearrange_get 0%Q 0%Q w (tmul w mask) p q W Wt eq_refl Ep Eq) as (Sq & Gq).
  rewrite <- Sq, Sp. replace (n =? 0) with false by lia. f_equal.
  apply forallb_forall. intros row Hrow. apply in_seq in Hrow.
  apply forallb_forall. intros col Hcol. unfold group_starts in Hcol. apply in_map_iff in Hcol as (g & <- & Hg).
  apply in_seq in Hg. assert (Hgc : g * n < c) by (apply ceil_div_lt; lia).
  apply Nat.leb_le. pose proof (generate_group p r c m n mask2 row g Wp Sp Eg ltac:(lia) Hgc) as (HC & _).
  apply Nat.le_trans with (count_if (fun j => Qeq_bool (tget 0%Q mask2 [row; j]) 1) (group_cols c n g)).
  2:{ rewrite HC. lia. }
  unfold count_nonzero. fold (count_if (fun x => negb (Qeq_bool x 0)) (map (fun j => tget 0%Q q [row; j]) (seq (g * n) (Nat.min n (c - g * n))))).
  rewrite count_map. unfold group_cols. apply count_le_impl. intros j Hj Hnz. apply in_seq in Hj.
  assert (Hjc : j < c) by lia.
  destruct (Gq [row; j]) as (idx' & V' & A1 & A2). { rewrite Sp. apply valid2. lia. }
  rewrite A2, tget_tmul in Hnz by auto.
  destruct (rearrange_get 0%Q 0%Q (tmul w mask) mask q mask2 Wt Wm ltac:(rewrite Sm; auto) Eq Rm) as (_ & Gm).
  destruct (Gm [row; j]) as (idx'' & V'' & B1 & B2). { rewrite <- Sq, Sp. apply valid2. lia. }
  assert (Hnz' : negb (Qeq_bool (tget 0%Q q [row; j]) 0) = true) by (rewrite A2, tget_tmul by auto; auto).
  rewrite B1, tget_tmul in Hnz' by auto. rewrite B2.
  destruct (generate_01 p r c m n mask2 row j Wp Sp Eg) as [Z|Z]; [lia|lia| |].
  - rewrite B2 in Z. rewrite Z in Hnz'. exfalso. apply negb_true_iff in Hnz'.
    assert (Qeq_bool (tget 0%Q w idx'' * 0) 0 = true) by (apply Qeq_bool_iff; lra). congruence.
  - rewrite B2 in Z. rewrite Z. reflexivity.
Qed.
