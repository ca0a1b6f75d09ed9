From Verif Require Import Base M_Num L_Num M_Tensor L_Tensor M_Mask S_Mask L_Sort L_Mask.
Open Scope nat_scope.

Lemma valid2 r c i j : valid [r; c] [i; j] <-> i < r /\ j < c.
Proof. rewrite !valid_cons_iff, valid_nil_iff. tauto. Qed.
Lemma valid2_inv r c idx : valid [r; c] idx -> exists i j, idx = [i; j] /\ i < r /\ j < c.
Proof.
  intros H. apply valid_cons_inv in H as (i & x & -> & Hi & H).
  apply valid_cons_inv in H as (j & y & -> & Hj & H). inversion H; subst. eauto.
Qed.
Lemma valid4 a b c d i j k l : valid [a; b; c; d] [i; j; k; l] <-> i < a /\ j < b /\ k < c /\ l < d.
Proof. rewrite !valid_cons_iff, valid_nil_iff. tauto. Qed.
Lemma valid4_inv a b c d idx : valid [a; b; c; d] idx ->
  exists i j k l, idx = [i; j; k; l] /\ i < a /\ j < b /\ k < c /\ l < d.
Proof.
  intros H. apply valid_cons_inv in H as (i & x & -> & Hi & H).
  apply valid_cons_inv in H as (j & y & -> & Hj & H).
  apply valid_cons_inv in H as (k & z & -> & Hk & H).
  apply valid_cons_inv in H as (l & u & -> & Hl & H). inversion H; subst. repeat eexists; auto.
Qed.

Lemma tget_reshape {A} (d : A) s l t idx idx' :
  l = data t -> ravel s idx = ravel (shape t) idx' -> tget d (mkT s l) idx = tget d t idx'.
Proof. intros -> H. unfold tget. cbn. rewrite H. auto. Qed.

(** transposing a matrix *)
Lemma transpose2_shape {A} (d : A) t r c : shape t = [r; c] -> shape (transpose d [1;0] t) = [c; r].
Proof. intros H. unfold transpose. rewrite tab_shape, H. reflexivity. Qed.
Lemma transpose2_get {A} (d : A) t r c i j : shape t = [r; c] -> i < c -> j < r ->
  tget d (transpose d [1;0] t) [i; j] = tget d t [j; i].
Proof.
  intros H Hi Hj. unfold transpose. rewrite tget_tab.
  - reflexivity.
  - rewrite H. cbn. apply valid2. auto.
Qed.
Lemma transpose2_invol {A} (d : A) t r c : wf t -> shape t = [r; c] ->
  transpose d [1;0] (transpose d [1;0] t) = t.
Proof.
  intros Hw H. pose proof (transpose2_shape d t r c H) as H'.
  apply (tensor_ext d); auto using transpose_wf.
  - rewrite (transpose2_shape d _ c r); auto.
  - intros idx Hv. rewrite (transpose2_shape d _ c r) in Hv by auto.
    apply valid2_inv in Hv as (i & j & -> & Hi & Hj).
    rewrite (transpose2_get d _ c r) by auto. rewrite (transpose2_get d _ r c) by auto. auto.
Qed.

(** ** Kronecker product (C09) *)
Lemma kron_spec m1 m2 r1 c1 r2 c2 :
  wf m1 -> wf m2 -> shape m1 = [r1; c1] -> shape m2 = [r2; c2] ->
  exists k, kronecker_product m1 m2 = Ok k /\ wf k /\ shape k = [r1 * r2; c1 * c2] /\
    forall i j, i < r1 * r2 -> j < c1 * c2 ->
      tget 0%Q k [i; j] = (tget 0%Q m1 [i / r2; j / c2]%nat * tget 0%Q m2 [i mod r2; j mod c2]%nat)%Q.
Proof.
  intros W1 W2 S1 S2. unfold kronecker_product. rewrite S1, S2.
  rewrite !reshape_ok by (auto; rewrite ?S1, ?S2; cbn; lia). cbn [bind].
  rewrite reshape_ok by (try apply tab_wf; rewrite tab_shape; cbn; lia).
  eexists. split; [reflexivity|]. split.
  { unfold wf, tab. cbn [shape data]. rewrite map_length, seq_length. cbn [prod]. lia. }
  split; [reflexivity|]. intros i j Hi Hj.
  assert (r2 <> 0) by (intro; subst; lia). assert (c2 <> 0) by (intro; subst; lia).
  pose proof (Nat.div_mod i r2 ltac:(auto)) as Ei. pose proof (Nat.div_mod j c2 ltac:(auto)) as Ej.
  pose proof (Nat.mod_upper_bound i r2 ltac:(auto)). pose proof (Nat.mod_upper_bound j c2 ltac:(auto)).
  assert (i / r2 < r1) by (apply Nat.div_lt_upper_bound; lia).
  assert (j / c2 < c1) by (apply Nat.div_lt_upper_bound; lia).
  erewrite tget_reshape; [|reflexivity|].
  2:{ rewrite tab_shape. instantiate (1 := [i / r2; i mod r2; j / c2; j mod c2]). cbn [ravel prod]. nia. }
  rewrite tget_tab by (apply valid4; auto).
  f_equal.
  - apply tget_reshape; auto. rewrite S1. cbn. lia.
  - apply tget_reshape; auto. rewrite S2. cbn. lia.
Qed.

(** ** Expansion *)
Lemma Qplus_0_l' q : (0 + q)%Q = q.
Proof. destruct q as [a b]. unfold Qplus. cbn. f_equal. lia. Qed.
Lemma Qplus_0_r' q : (q + 0)%Q = q.
Proof. destruct q as [a b]. unfold Qplus. cbn. f_equal; lia. Qed.
Lemma sumQ_zero l : (forall x, In x l -> x = 0%Q) -> sumQ l = 0%Q.
Proof. induction l; cbn; auto. intros H. rewrite (H a), IHl by auto. reflexivity. Qed.
Lemma sum_single (f : nat -> Q) (p : nat -> bool) s n x :
  s <= x < s + n -> p x = true -> (forall y, s <= y < s + n -> p y = true -> y = x) ->
  sumQ (map (fun y => if p y then f y else 0%Q) (seq s n)) = f x.
Proof.
  revert s. induction n as [|n IH]; intros s Hx Hp Hu; [lia|]. cbn [seq map sumQ].
  destruct (Nat.eq_dec s x) as [->|Hn].
  - rewrite Hp. rewrite sumQ_zero, Qplus_0_r'; auto.
    intros y Hy. apply in_map_iff in Hy as [z [<- Hz]]. apply in_seq in Hz.
    destruct (p z) eqn:E; auto. assert (z = x) by (apply Hu; auto; lia). lia.
  - destruct (p s) eqn:E. { exfalso. apply Hn. apply Hu; auto. lia. }
    rewrite Qplus_0_l'. apply IH; auto; [lia|]. intros y Hy. apply Hu. lia.
Qed.

Lemma replicate_rows_spec t r c m : shape t = [r; c] -> 0 < m ->
  shape (replicate_rows t m) = [r * m; c] /\ wf (replicate_rows t m) /\
  forall i j, i < r * m -> j < c -> tget 0%Q (replicate_rows t m) [i; j] = tget 0%Q t [i / m; j].
Proof.
  intros H Hm. unfold replicate_rows. rewrite H. repeat split; [apply tab_wf|].
  intros i j Hi Hj. rewrite tget_tab by (apply valid2; auto).
  assert (Hr : 0 < r) by nia.
  pose proof (Nat.div_mod i m ltac:(lia)) as Ei. pose proof (Nat.mod_upper_bound i m ltac:(lia)).
  assert (i / m < r) by (apply Nat.div_lt_upper_bound; lia).
  set (x := (i mod m) * r + i / m).
  assert (Ex1 : x mod r = i / m).
  { unfold x. rewrite Nat.add_comm, Nat.mod_add by lia. apply Nat.mod_small; auto. }
  assert (Ex2 : x / r = i mod m).
  { unfold x. rewrite Nat.div_add_l by lia. rewrite Nat.div_small by auto. lia. }
  assert (Hx : x < r * m) by (unfold x; nia).
  rewrite (sum_single _ _ _ _ x); [| | |].
  - unfold tile_rows. rewrite H. rewrite tget_tab by (apply valid2; split; auto; nia).
    rewrite Ex1. auto.
  - lia.
  - apply Nat.eqb_eq. unfold generate_index. rewrite Ex1, Ex2. lia.
  - intros y Hy Ey. apply Nat.eqb_eq in Ey. unfold generate_index in Ey.
    assert (y / r < m) by (apply Nat.div_lt_upper_bound; lia).
    assert (Hd : y mod r = i / m /\ y / r = i mod m).
    { split.
      - rewrite <- Ey. rewrite Nat.div_add_l by lia. rewrite (Nat.div_small (y / r)) by auto. lia.
      - rewrite <- Ey. rewrite Nat.add_comm, Nat.mod_add by lia. rewrite Nat.mod_small by auto. auto. }
    pose proof (Nat.div_mod y r ltac:(lia)) as Dy. destruct Hd as [Hd1 Hd2]. unfold x. rewrite Hd1, Hd2 in Dy. lia.
Qed.

Lemma expand_spec t r c bh bw :
  wf t -> shape t = [r; c] -> 0 < bh -> 0 < bw ->
  exists e, expand_tensor t [bh; bw] = Ok e /\ wf e /\ shape e = [r * bh; c * bw] /\
    forall i j, i < r * bh -> j < c * bw -> tget 0%Q e [i; j] = tget 0%Q t [i / bh; j / bw].
Proof.
  intros W H Hh Hw. unfold expand_tensor, rank. rewrite H. cbn [length Nat.eqb negb].
  set (e1 := if 1 <? bh then replicate_rows t bh else t).
  assert (E1 : wf e1 /\ shape e1 = [r * bh; c] /\
               forall i j, i < r * bh -> j < c -> tget 0%Q e1 [i; j] = tget 0%Q t [i / bh; j]).
  { unfold e1. destruct (Nat.ltb_spec 1 bh).
    - destruct (replicate_rows_spec t r c bh H) as (A & B & C); auto.
    - assert (bh = 1) by lia. subst bh. rewrite Nat.mul_1_r. repeat split; auto.
      intros. rewrite Nat.div_1_r. auto. }
  destruct E1 as (W1 & S1 & G1).
  eexists. split; [reflexivity|].
  destruct (Nat.ltb_spec 1 bw).
  - pose proof (transpose2_shape 0%Q e1 _ _ S1) as S1'.
    destruct (replicate_rows_spec _ _ _ bw S1') as (A & B & C); auto.
    split; [apply transpose_wf|]. split; [apply (transpose2_shape 0%Q _ _ _ A)|].
    intros i j Hi Hj. rewrite (transpose2_get 0%Q _ _ _ i j A) by auto.
    rewrite C by auto. assert (j / bw < c) by (apply Nat.div_lt_upper_bound; lia).
    rewrite (transpose2_get 0%Q _ _ _ _ _ S1) by auto. apply G1; auto.
  - assert (bw = 1) by lia. subst bw. rewrite Nat.mul_1_r. repeat split; auto.
    intros. rewrite Nat.div_1_r. auto.
Qed.

Lemma expand_errors t bs : (rank t <> 2 \/ length bs <> 2) -> expand_tensor t bs = Err ValueError.
Proof.
  intros H. unfold expand_tensor. destruct (Nat.eqb_spec (rank t) 2) as [E|E]; cbn; auto.
  destruct bs as [|a [|b [|c l]]]; auto. destruct H as [H|H]; [congruence|cbn in H; congruence].
Qed.

(** expand is the Kronecker product with a block of ones *)
Lemma expand_kron t r c bh bw :
  wf t -> shape t = [r; c] -> 0 < bh -> 0 < bw ->
  expand_tensor t [bh; bw] = kronecker_product t (tab [bh; bw] (fun _ => 1%Q)).
Proof.
  intros W H Hh Hw.
  destruct (expand_spec t r c bh bw W H Hh Hw) as (e & -> & We & Se & Ge).
  destruct (kron_spec t (tab [bh; bw] (fun _ => 1%Q)) r c bh bw) as (k & -> & Wk & Sk & Gk); auto.
  { apply tab_wf. }
  f_equal. apply (tensor_ext 0%Q); auto; [congruence|]. rewrite Se. intros idx Hv.
  apply valid2_inv in Hv as (i & j & -> & Hi & Hj). rewrite Ge, Gk by auto.
  rewrite tget_tab. { destruct (tget 0%Q t [i / bh; j / bw]) as [a b]. unfold Qmult. cbn. f_equal; lia. }
  apply valid2. split; apply Nat.mod_upper_bound; lia.
Qed.

(** ** Pooling *)
Lemma ceil_div_mul k b : 0 < b -> ceil_div (k * b) b = k.
Proof.
  intros H. unfold ceil_div. replace (k * b + b - 1) with (k * b + (b - 1)) by lia.
  rewrite Nat.div_add_l by lia. rewrite Nat.div_small by lia. lia.
Qed.
Lemma pool_window_aligned k b i : 0 < b -> i < k -> pool_window (k * b) b i = seq (i * b) b.
Proof.
  intros Hb Hi. unfold pool_window, same_pad_before. rewrite ceil_div_mul by auto.
  rewrite Nat.sub_diag. cbn [Nat.div]. change (0 / 2) with 0.
  assert (forall l, (forall x, In x l -> x < k * b) ->
     map (fun x => x - 0) (filter (fun x => (0 <=? x) && (x - 0 <? k * b)) l) = l) as K.
  { induction l as [|a l IH]; [reflexivity|]. intros Hl. cbn [filter].
    pose proof (Hl a (or_introl eq_refl)) as Ha.
    replace ((0 <=? a) && (a - 0 <? k * b)) with true by lia.
    cbn [map]. rewrite IH by (intros x Hx; apply Hl; right; auto). f_equal. lia. }
  apply K. intros x Hx. apply in_seq in Hx. nia.
Qed.

Lemma pool_axis0_spec p b t r c : shape t = [r; c] ->
  shape (pool_axis0 p b t) = [ceil_div r b; c] /\ wf (pool_axis0 p b t) /\
  forall i j, i < ceil_div r b -> j < c ->
    tget 0%Q (pool_axis0 p b t) [i; j] = pool_agg p (map (fun x => tget 0%Q t [x; j]) (pool_window r b i)).
Proof.
  intros H. unfold pool_axis0. rewrite H. repeat split; [apply tab_wf|].
  intros i j Hi Hj. rewrite tget_tab by (apply valid2; auto). auto.
Qed.

(** Pooled value of one window: rows [R], columns [C]. *)
Definition pooled_value (p : pooling) (t : tensor Q) (R C : list nat) : Q :=
  pool_agg p (map (fun y => pool_agg p (map (fun x => tget 0%Q t [x; y]) R)) C).

Lemma filter_keep {A} (f : A -> bool) l : (forall x, In x l -> f x = true) -> filter f l = l.
Proof. induction l; cbn; auto. intros H. rewrite H by auto. f_equal. auto. Qed.

Lemma squeeze_id {A} (t : tensor A) : (forall d, In d (shape t) -> d <> 1) -> squeeze t = t.
Proof.
  intros H. unfold squeeze. rewrite filter_keep; [destruct t; auto|].
  intros x Hx. apply negb_true_iff, Nat.eqb_neq. auto.
Qed.

Lemma pool_window_lt n b i x : In x (pool_window n b i) -> x < n.
Proof.
  unfold pool_window. intros H. apply in_map_iff in H as [y [<- H]]. apply filter_In in H as [_ H]. lia.
Qed.

Lemma factorized_pool_spec t r c bh bw p :
  shape t = [r; c] -> ceil_div r bh <> 1 -> ceil_div c bw <> 1 ->
  exists q, factorized_pool t bh bw p = Ok q /\ wf q /\ shape q = [ceil_div r bh; ceil_div c bw] /\
    forall i j, i < ceil_div r bh -> j < ceil_div c bw ->
      tget 0%Q q [i; j] = pooled_value p t (pool_window r bh i) (pool_window c bw j).
Proof.
  intros H N1 N2. unfold factorized_pool, rank. rewrite H. cbn [length Nat.eqb negb].
  destruct (pool_axis0_spec p bh t r c H) as (S1 & W1 & G1).
  pose proof (transpose2_shape 0%Q _ _ _ S1) as S2.
  destruct (pool_axis0_spec p bw _ _ _ S2) as (S3 & W3 & G3).
  pose proof (transpose2_shape 0%Q _ _ _ S3) as S4.
  eexists. split; [reflexivity|]. rewrite squeeze_id.
  2:{ rewrite S4. intros d [<-|[<-|[]]]; auto. }
  split; [apply transpose_wf|]. split; auto.
  intros i j Hi Hj. rewrite (transpose2_get 0%Q _ _ _ _ _ S3) by auto.
  rewrite G3 by auto. unfold pooled_value. f_equal. apply map_ext_in. intros y Hy.
  apply pool_window_lt in Hy. rewrite (transpose2_get 0%Q _ _ _ _ _ S1) by auto. apply G1; auto.
Qed.

Lemma factorized_pool_thin t r c bh bw p :
  shape t = [r; c] -> (ceil_div r bh = 1 \/ ceil_div c bw = 1) ->
  exists q, factorized_pool t bh bw p = Ok q /\ rank q <= 1.
Proof.
  intros H N. unfold factorized_pool, rank. rewrite H. cbn [length Nat.eqb negb].
  destruct (pool_axis0_spec p bh t r c H) as (S1 & W1 & G1).
  pose proof (transpose2_shape 0%Q _ _ _ S1) as S2.
  destruct (pool_axis0_spec p bw _ _ _ S2) as (S3 & W3 & G3).
  pose proof (transpose2_shape 0%Q _ _ _ S3) as S4.
  eexists. split; [reflexivity|]. unfold squeeze. cbn [shape]. rewrite S4. cbn [filter].
  destruct N as [-> | ->]; cbn [Nat.eqb negb].
  - destruct (negb _); cbn; lia.
  - destruct (negb (ceil_div r bh =? 1)); cbn; lia.
Qed.

(** ** Block masks *)
Lemma squeeze_rank {A} (t : tensor A) : rank (squeeze t) <= rank t.
Proof.
  unfold rank, squeeze. cbn [shape]. generalize (shape t) as l.
  induction l; cbn; auto. destruct (negb (a =? 1)); cbn; lia.
Qed.
Lemma factorized_pool_size t r c bh bw p q :
  shape t = [r; c] -> factorized_pool t bh bw p = Ok q ->
  length (data q) = ceil_div c bw * ceil_div r bh.
Proof.
  intros H. unfold factorized_pool, rank. rewrite H. cbn [length Nat.eqb negb].
  destruct (pool_axis0_spec p bh t r c H) as (S1 & W1 & G1).
  pose proof (transpose2_shape 0%Q _ _ _ S1) as S2.
  destruct (pool_axis0_spec p bw _ _ _ S2) as (S3 & W3 & G3).
  intros K. injection K as <-. unfold squeeze. cbn [data].
  pose proof (transpose_wf 0%Q [1;0] (pool_axis0 p bw (transpose 0%Q [1;0] (pool_axis0 p bh t)))) as W.
  unfold wf in W. rewrite W. rewrite (transpose2_shape 0%Q _ _ _ S3). cbn [prod]. lia.
Qed.
Lemma slice2_spec t r' c' r c : wf t -> shape t = [r'; c'] -> r <= r' -> c <= c' ->
  exists s, slice2 t r c = Ok s /\ wf s /\ shape s = [r; c] /\
    forall i j, i < r -> j < c -> tget 0%Q s [i; j] = tget 0%Q t [i; j].
Proof.
  intros W H Hr Hc. unfold slice2. rewrite H.
  destruct (Nat.leb_spec r r'); [|lia]. destruct (Nat.leb_spec c c'); [|lia]. cbn [andb].
  eexists. split; [reflexivity|]. split; [apply tab_wf|]. split; auto.
  intros. apply tget_tab. apply valid2; auto.
Qed.

Lemma ceil_div_cover n b : 0 < b -> n <= ceil_div n b * b.
Proof.
  intros H. unfold ceil_div. pose proof (Nat.div_mod (n + b - 1) b ltac:(lia)).
  pose proof (Nat.mod_upper_bound (n + b - 1) b ltac:(lia)). lia.
Qed.
Lemma ceil_div_pos n b : 0 < b -> 0 < n -> 0 < ceil_div n b.
Proof. intros Hb Hn. pose proof (ceil_div_cover n b Hb). destruct (ceil_div n b); lia. Qed.

Lemma blk_cases pp bh bw : pp_m_by_n pp = None -> pp_block pp = [bh; bw] -> (bh, bw) <> (1, 1) ->
  forall s w, maybe_update_block_mask pp s w =
   (let squeezed := squeeze w in
          let absw := tmap Qabs squeezed in
          do pooled <- factorized_pool absw bh bw (pp_pool pp) ;;
          let pooled := if negb (Nat.eqb (rank pooled) 2) then squeeze pooled else pooled in
          do tm <- update_mask s pooled ;;
          let '(thr, new_mask) := tm in
          do updated <- expand_tensor new_mask [bh; bw] ;;
          match shape squeezed with
          | r :: c :: _ =>
              do sliced <- slice2 updated r c ;;
              do out <- reshape sliced (shape w) ;;
              Ok (thr, out)
          | _ => Err IndexError
          end).
Proof.
  intros H1 H2 H3 s w. unfold maybe_update_block_mask. rewrite H1, H2.
  destruct bh as [|[|bh]]; destruct bw as [|[|bw]]; try reflexivity. congruence.
Qed.

Lemma elementwise_case pp s w : pp_m_by_n pp = None -> pp_block pp = [1; 1] ->
  maybe_update_block_mask pp s w = update_mask s w.
Proof. intros H1 H2. unfold maybe_update_block_mask. rewrite H1, H2. reflexivity. Qed.

(** The pooled matrix of a weight. *)
Definition is_pooled (p : pooling) (bh bw : nat) (w q : tensor Q) : Prop :=
  match shape w with
  | [r; c] => wf q /\ shape q = [ceil_div r bh; ceil_div c bw] /\
      forall i j, i < ceil_div r bh -> j < ceil_div c bw ->
        tget 0%Q q [i; j] = pooled_value p (tmap Qabs w) (pool_window r bh i) (pool_window c bw j)
  | _ => False
  end.

Lemma block_mask_spec pp s w r c bh bw thr mask :
  pp_m_by_n pp = None -> pp_block pp = [bh; bw] -> (bh, bw) <> (1, 1) -> 0 < bh -> 0 < bw ->
  wf w -> shape w = [r; c] -> r <> 1 -> c <> 1 ->
  maybe_update_block_mask pp s w = Ok (thr, mask) ->
  wf mask /\ shape mask = [r; c] /\ ceil_div r bh <> 1 /\ ceil_div c bw <> 1 /\
  exists q qm, is_pooled (pp_pool pp) bh bw w q /\ update_mask s q = Ok (thr, qm) /\
    forall i j, i < r -> j < c -> tget 0%Q mask [i; j] = tget 0%Q qm [i / bh; j / bw].
Proof.
  intros H1 H2 H3 Hh Hw W S R1 C1. rewrite (blk_cases pp bh bw) by auto. cbn zeta.
  rewrite (squeeze_id w) by (rewrite S; intros d [<-|[<-|[]]]; auto).
  assert (Sa : shape (tmap Qabs w) = [r; c]) by auto.
  destruct (Nat.eq_dec (ceil_div r bh) 1) as [E|N1];
    [|destruct (Nat.eq_dec (ceil_div c bw) 1) as [E|N2]].
  { destruct (factorized_pool_thin _ _ _ bh bw (pp_pool pp) Sa (or_introl E)) as (q & -> & Hq).
    cbn [bind]. destruct (Nat.eqb_spec (rank q) 2); [lia|]. cbn [negb].
    destruct (update_mask s (squeeze q)) as [[t m]|] eqn:EU; cbn [bind]; [|discriminate].
    rewrite expand_errors; [discriminate|]. left.
    apply update_mask_spec in EU as (ES & _). pose proof (squeeze_rank q). unfold rank in *. rewrite ES. lia. }
  { destruct (factorized_pool_thin _ _ _ bh bw (pp_pool pp) Sa (or_intror E)) as (q & -> & Hq).
    cbn [bind]. destruct (Nat.eqb_spec (rank q) 2); [lia|]. cbn [negb].
    destruct (update_mask s (squeeze q)) as [[t m]|] eqn:EU; cbn [bind]; [|discriminate].
    rewrite expand_errors; [discriminate|]. left.
    apply update_mask_spec in EU as (ES & _). pose proof (squeeze_rank q). unfold rank in *. rewrite ES. lia. }
  destruct (factorized_pool_spec _ _ _ bh bw (pp_pool pp) Sa N1 N2) as (q & -> & Wq & Sq & Gq).
  cbn [bind]. assert (rank q = 2) as Rq by (unfold rank; rewrite Sq; auto). rewrite Rq. cbn [Nat.eqb negb].
  destruct (update_mask s q) as [[t m]|] eqn:EU; cbn [bind]; [|discriminate].
  pose proof (update_mask_spec _ _ _ _ EU) as (ES & EL & _). rewrite Sq in ES.
  assert (Wm : wf m) by (unfold wf in *; rewrite ES, <- Sq; lia).
  destruct (expand_spec m _ _ bh bw Wm ES Hh Hw) as (e & -> & We & Se & Ge). cbn [bind].
  rewrite S. pose proof (ceil_div_cover r bh Hh). pose proof (ceil_div_cover c bw Hw).
  destruct (slice2_spec e _ _ r c We Se) as (sl & -> & Wsl & Ssl & Gsl); auto. cbn [bind].
  rewrite reshape_ok by (auto; rewrite Ssl; auto). cbn [bind]. intros K. injection K as <- <-.
  split. { unfold wf in *. cbn [shape data]. rewrite <- Ssl. auto. }
  repeat split; auto.
  exists q, m. split; [|split; auto].
  - unfold is_pooled. rewrite S. auto.
  - intros i j Hi Hj. erewrite tget_reshape; [|reflexivity|rewrite Ssl; reflexivity].
    rewrite Gsl by auto. rewrite Ge by lia. auto.
Qed.

(** The update is rejected when a pooled dimension (or the weight itself) collapses to one. *)
Lemma block_mask_rejects pp s w r c bh bw :
  pp_m_by_n pp = None -> pp_block pp = [bh; bw] -> (bh, bw) <> (1, 1) -> 0 < bh -> 0 < bw ->
  wf w -> shape w = [r; c] -> (0 < r)%nat -> (0 < c)%nat -> (0 <= s)%Q ->
  (is_ok (maybe_update_block_mask pp s w) = true <-> ceil_div r bh <> 1 /\ ceil_div c bw <> 1) /\
  (forall e, maybe_update_block_mask pp s w = Err e -> e = ValueError).
Proof.
  intros H1 H2 H3 Hh Hw W S Hr Hc Hs.
  assert (D1 : r = 1 -> ceil_div r bh = 1).
  { intros ->. unfold ceil_div. replace (1 + bh - 1) with bh by lia. apply Nat.div_same. lia. }
  assert (D2 : c = 1 -> ceil_div c bw = 1).
  { intros ->. unfold ceil_div. replace (1 + bw - 1) with bw by lia. apply Nat.div_same. lia. }
  destruct (Nat.eq_dec r 1) as [R1|R1]; [|destruct (Nat.eq_dec c 1) as [C1|C1]].
  - assert (E : maybe_update_block_mask pp s w = Err ValueError).
    { rewrite (blk_cases pp bh bw) by auto. cbn zeta. unfold factorized_pool.
      replace (rank (tmap Qabs (squeeze w)) =? 2) with false; auto.
      symmetry. apply Nat.eqb_neq. unfold rank, tmap, squeeze. cbn [shape]. rewrite S, R1. cbn [filter Nat.eqb negb].
      destruct (negb (c =? 1)); cbn; lia. }
    rewrite E. split; [|congruence]. cbn. split; [discriminate|]. intros [K _]. tauto.
  - assert (E : maybe_update_block_mask pp s w = Err ValueError).
    { rewrite (blk_cases pp bh bw) by auto. cbn zeta. unfold factorized_pool.
      replace (rank (tmap Qabs (squeeze w)) =? 2) with false; auto.
      symmetry. apply Nat.eqb_neq. unfold rank, tmap, squeeze. cbn [shape]. rewrite S, C1. cbn [filter Nat.eqb negb].
      destruct (negb (r =? 1)); cbn; lia. }
    rewrite E. split; [|congruence]. cbn. split; [discriminate|]. intros [_ K]. tauto.
  - rewrite (blk_cases pp bh bw) by auto. cbn zeta.
    rewrite (squeeze_id w) by (rewrite S; intros d [<-|[<-|[]]]; auto).
    assert (Sa : shape (tmap Qabs w) = [r; c]) by auto.
    assert (Hthin : forall q, factorized_pool (tmap Qabs w) bh bw (pp_pool pp) = Ok q -> rank q <= 1 ->
      0 < length (data q) ->
      (do tm <- update_mask s (if negb (rank q =? 2) then squeeze q else q) ;;
       let '(thr, new_mask) := tm in
          do updated <- expand_tensor new_mask [bh; bw] ;;
          match shape w with
          | r :: c :: _ =>
              do sliced <- slice2 updated r c ;;
              do out <- reshape sliced (shape w) ;;
              Ok (thr, out)
          | _ => Err IndexError
          end) = Err ValueError).
    { intros q _ Hq Hl. destruct (Nat.eqb_spec (rank q) 2); [lia|]. cbn [negb].
      destruct (update_mask_ok s (squeeze q)) as (t & m & EU); auto.
      rewrite EU. cbn [bind]. rewrite expand_errors; auto. left.
      apply update_mask_spec in EU as (ES & _). pose proof (squeeze_rank q). unfold rank in *. rewrite ES. lia. }
    destruct (Nat.eq_dec (ceil_div r bh) 1) as [E|N1];
      [|destruct (Nat.eq_dec (ceil_div c bw) 1) as [E|N2]].
    + destruct (factorized_pool_thin _ _ _ bh bw (pp_pool pp) Sa (or_introl E)) as (q & EP & Hq).
      pose proof (factorized_pool_size _ _ _ bh bw (pp_pool pp) q Sa EP) as Hl. rewrite EP. cbn [bind].
      rewrite Hthin; auto.
      * cbn. split; [|congruence]. split; [discriminate|tauto].
      * rewrite Hl. pose proof (ceil_div_pos r bh). pose proof (ceil_div_pos c bw). nia.
    + destruct (factorized_pool_thin _ _ _ bh bw (pp_pool pp) Sa (or_intror E)) as (q & EP & Hq).
      pose proof (factorized_pool_size _ _ _ bh bw (pp_pool pp) q Sa EP) as Hl. rewrite EP. cbn [bind].
      rewrite Hthin; auto.
      * cbn. split; [|congruence]. split; [discriminate|tauto].
      * rewrite Hl. pose proof (ceil_div_pos r bh). pose proof (ceil_div_pos c bw). nia.
    + destruct (factorized_pool_spec _ _ _ bh bw (pp_pool pp) Sa N1 N2) as (q & -> & Wq & Sq & Gq).
      cbn [bind]. assert (rank q = 2) as Rq by (unfold rank; rewrite Sq; auto). rewrite Rq. cbn [Nat.eqb negb].
      destruct (update_mask_ok s q) as (t & m & EU); auto.
      { unfold wf in Wq. rewrite Wq, Sq. cbn [prod]. pose proof (ceil_div_pos r bh). pose proof (ceil_div_pos c bw). nia. }
      rewrite EU. cbn [bind].
      pose proof (update_mask_spec _ _ _ _ EU) as (ES & EL & _). rewrite Sq in ES.
      assert (Wm : wf m) by (unfold wf in *; rewrite ES, <- Sq; lia).
      destruct (expand_spec m _ _ bh bw Wm ES Hh Hw) as (e & -> & We & Se & Ge). cbn [bind].
      rewrite S. pose proof (ceil_div_cover r bh Hh). pose proof (ceil_div_cover c bw Hw).
      destruct (slice2_spec e _ _ r c We Se) as (sl & -> & Wsl & Ssl & Gsl); auto. cbn [bind].
      rewrite reshape_ok by (auto; rewrite Ssl; auto). cbn [bind is_ok].
      split; [|congruence]. tauto.
Qed.

(** ** Aligned blocks: the pooled value is the mean / the maximum of the block *)
Open Scope Q_scope.
Lemma sumQ_app l l' : sumQ (l ++ l') == sumQ l + sumQ l'.
Proof. induction l; cbn; [lra|]. rewrite IHl. lra. Qed.
Lemma sumQ_scale {A} (f : A -> Q) (g : A -> Q) (k : Q) l :
  (forall x, In x l -> f x == g x * k) -> sumQ (map f l) == sumQ (map g l) * k.
Proof. induction l; cbn; intros H; [lra|]. rewrite (H a), IHl by auto. lra. Qed.
Lemma sumQ_flat_map {A} (f : A -> list Q) l : sumQ (flat_map f l) == sumQ (map (fun x => sumQ (f x)) l).
Proof. induction l; cbn; [reflexivity|]. rewrite sumQ_app, IHl. reflexivity. Qed.

Lemma fold_qmax_spec l a : let m := fold_left qmax l a in
  (m = a \/ In m l) /\ a <= m /\ (forall x, In x l -> x <= m).
Proof.
  revert a. induction l as [|b l IH]; intros a; cbn; [repeat split; auto; [lra|tauto]|].
  specialize (IH (qmax a b)). cbn in IH. destruct IH as (I1 & I2 & I3).
  destruct (qmax_spec a b) as [[Hq Eq]|[Hq Eq]]; rewrite Eq in *.
  - repeat split.
    + destruct I1 as [->|I1]; auto.
    + lra.
    + intros x [<-|Hx]; auto.
  - repeat split.
    + destruct I1 as [->|I1]; auto.
    + lra.
    + intros x [<-|Hx]; auto. lra.
Qed.
Lemma qmax_list_spec l : l <> [] -> is_max l (qmax_list l).
Proof.
  destruct l as [|a l]; [congruence|]. intros _. unfold is_max, qmax_list.
  pose proof (fold_qmax_spec l a) as (H1 & H2 & H3). cbn zeta in *. split.
  - destruct H1 as [->|H1]; [left; auto|right; auto].
  - intros x [<-|Hx]; auto.
Qed.

Definition is_pool (p : pooling) (l : list Q) (v : Q) : Prop :=
  match p with AVG => is_mean l v | MAX => is_max l v end.

Lemma length_flat_map_const {A B} (f : A -> list B) n l :
  (forall x, In x l -> length (f x) = n) -> length (flat_map f l) = (length l * n)%nat.
Proof. induction l; cbn; auto. intros H. rewrite app_length, H, IHl by auto. auto. Qed.

Lemma pooled_aligned p w r c bh bw bi bj :
  wf w -> shape w = [r; c] -> (0 < bh)%nat -> (0 < bw)%nat ->
  (bi * bh + bh <= r)%nat -> (bj * bw + bw <= c)%nat ->
  is_pool p (block_magnitudes w bh bw bi bj)
    (pooled_value p (tmap Qabs w) (seq (bi * bh) bh) (seq (bj * bw) bw)).
Proof.
  intros W S Hh Hw Hi Hj.
  assert (G : forall x y, In x (seq (bi * bh) bh) -> In y (seq (bj * bw) bw) ->
     tget 0 (tmap Qabs w) [x; y] = Qabs (tget 0 w [x; y])).
  { intros x y Hx Hy. apply in_seq in Hx, Hy. apply (tget_tmap Qabs 0 0); auto. rewrite S. apply valid2. lia. }
  assert (E : pooled_value p (tmap Qabs w) (seq (bi * bh) bh) (seq (bj * bw) bw) =
    pool_agg p (map (fun y => pool_agg p (map (fun x => Qabs (tget 0 w [x; y])) (seq (bi * bh) bh))) (seq (bj * bw) bw))).
  { unfold pooled_value. f_equal. apply map_ext_in. intros y Hy. f_equal. apply map_ext_in. auto. }
  rewrite E. clear E G. destruct p; cbn [is_pool pool_agg].
  - unfold is_mean, block_magnitudes.
    rewrite (length_flat_map_const _ bh) by (intros; rewrite map_length, seq_length; auto).
    rewrite !map_length, !seq_length, sumQ_flat_map.
    assert (Hb : forall k : nat, (0 < k)%nat -> ~ inject_Z (Z.of_nat k) == 0).
    { intros k Hk K. rewrite <- inj_0 in K. rewrite inject_Z_injective in K. lia. }
    rewrite (sumQ_scale _ (fun y => sumQ (map (fun x => Qabs (tget 0 w [x; y])) (seq (bi * bh) bh)))
             (/ inject_Z (Z.of_nat bh))).
    2:{ intros y _. rewrite map_length, seq_length. reflexivity. }
    rewrite Nat2Z.inj_mul, inject_Z_mult. field. split; auto.
  - unfold block_magnitudes.
    set (col := fun y => map (fun x => Qabs (tget 0 w [x; y])) (seq (bi * bh) bh)).
    assert (NE : forall y, col y <> []).
    { intros y K. apply (f_equal (@length Q)) in K. unfold col in K. rewrite map_length, seq_length in K. cbn in K. lia. }
    assert (M : is_max (map (fun y => qmax_list (col y)) (seq (bj * bw) bw)) (qmax_list (map (fun y => qmax_list (col y)) (seq (bj * bw) bw)))).
    { apply qmax_list_spec. intros K. apply (f_equal (@length Q)) in K. rewrite map_length, seq_length in K. cbn in K. lia. }
    destruct M as [M1 M2]. split.
    + apply in_map_iff in M1 as [y [E Hy]]. apply in_flat_map. exists y. split; auto.
      fold (col y). unfold col in E at 2. fold (col y) in *. rewrite <- E. apply qmax_list_spec. auto.
    + intros v Hv. apply in_flat_map in Hv as [y [Hy Hv]].
      apply Qle_trans with (qmax_list (col y)).
      * apply (qmax_list_spec (col y)); auto.
      * apply M2. apply in_map_iff. exists y. auto.
Qed.

Lemma is_pool_nonneg p w bh bw bi bj v : (0 < bh)%nat -> (0 < bw)%nat ->
  is_pool p (block_magnitudes w bh bw bi bj) v -> 0 <= v.
Proof.
  intros Hh Hw. destruct p; cbn.
  - unfold is_mean. intros H.
    assert (L : (0 < length (block_magnitudes w bh bw bi bj))%nat).
    { unfold block_magnitudes.
      rewrite (length_flat_map_const _ bh) by (intros; rewrite map_length, seq_length; auto).
      rewrite seq_length. nia. }
    assert (P : 0 <= sumQ (block_magnitudes w bh bw bi bj)).
    { assert (forall l, (forall x, In x l -> 0 <= x) -> 0 <= sumQ l) as K.
      { induction l; cbn; intros HH; [lra|]. pose proof (HH a (or_introl eq_refl)).
        assert (0 <= sumQ l) by (apply IHl; auto). lra. }
      apply K. intros x Hx. unfold block_magnitudes in Hx. apply in_flat_map in Hx as [y [_ Hx]].
      apply in_map_iff in Hx as [z [<- _]]. apply Qabs_nonneg. }
    assert (0 < inject_Z (Z.of_nat (length (block_magnitudes w bh bw bi bj)))).
    { rewrite <- inj_0, inj_lt. lia. }
    nra.
  - intros [H _]. unfold block_magnitudes in H. apply in_flat_map in H as [y [_ Hx]].
    apply in_map_iff in Hx as [z [<- _]]. apply Qabs_nonneg.
Qed.

(** C08, weights whose sides are multiples of the block sides. *)
Lemma block_aligned pp s w kr kc bh bw thr mask :
  pp_m_by_n pp = None -> pp_block pp = [bh; bw] -> (bh, bw) <> (1, 1)%nat -> (0 < bh)%nat -> (0 < bw)%nat ->
  wf w -> shape w = [kr * bh; kc * bw]%nat -> (kr * bh <> 1)%nat -> (kc * bw <> 1)%nat ->
  maybe_update_block_mask pp s w = Ok (thr, mask) ->
  wf mask /\ shape mask = shape w /\
  exists q, wf q /\ shape q = [kr; kc] /\
    (forall bi bj, (bi < kr)%nat -> (bj < kc)%nat ->
       is_pool (pp_pool pp) (block_magnitudes w bh bw bi bj) (tget 0 q [bi; bj])) /\
    (exists k, is_keep_count (kr * kc) s (Z.of_nat k) /\ kth_largest (magnitudes q) k thr) /\
    (forall i j, (i < kr * bh)%nat -> (j < kc * bw)%nat ->
       tget 0 mask [i; j] = if Qle_bool thr (tget 0 q [i / bh; j / bw]%nat) then 1 else 0).
Proof.
  intros H1 H2 H3 Hh Hw W S R1 C1 E.
  pose proof (block_mask_spec pp s w _ _ bh bw thr mask H1 H2 H3 Hh Hw W S R1 C1 E)
    as (Wm & Sm & N1 & N2 & q & qm & Pq & EU & G).
  split; auto. split; [congruence|].
  unfold is_pooled in Pq. rewrite S in Pq. rewrite !ceil_div_mul in Pq by auto.
  destruct Pq as (Wq & Sq & Gq). exists q. split; auto. split; auto.
  assert (HP : forall bi bj, (bi < kr)%nat -> (bj < kc)%nat ->
       is_pool (pp_pool pp) (block_magnitudes w bh bw bi bj) (tget 0 q [bi; bj])).
  { intros bi bj Hi Hj. rewrite Gq by auto. rewrite !pool_window_aligned by auto.
    apply (pooled_aligned _ _ (kr * bh)%nat (kc * bw)%nat); auto; nia. }
  split; auto.
  pose proof (update_mask_spec _ _ _ _ EU) as (ES & EL & k & Hk & HK & HM).
  assert (Lq : length (data q) = (kr * kc)%nat). { unfold wf in Wq. rewrite Wq, Sq. cbn. lia. }
  split. { exists k. rewrite <- Lq. auto. }
  intros i j Hi Hj. rewrite G by auto.
  assert (i / bh < kr)%nat by (apply Nat.div_lt_upper_bound; lia).
  assert (j / bw < kc)%nat by (apply Nat.div_lt_upper_bound; lia).
  unfold tget at 1. rewrite ES, HM.
  2:{ rewrite Lq. pose proof (ravel_lt [kr; kc] [i / bh; j / bw]%nat). rewrite Sq. cbn [prod] in *.
      assert (valid [kr; kc] [i / bh; j / bw]%nat) by (apply valid2; auto). specialize (H4 H5). lia. }
  fold (tget 0 q [i / bh; j / bw]%nat).
  pose proof (is_pool_nonneg _ _ _ _ _ _ _ Hh Hw (HP (i / bh)%nat (j / bw)%nat ltac:(auto) ltac:(auto))) as Hn.
  rewrite (Qleb_comp _ _ (Qeq_refl thr) _ _ (Qabs_pos _ Hn)). auto.
Qed.

(** Whatever the shape, the mask is constant on aligned blocks and 0/1 valued. *)
Lemma block_constant pp s w r c bh bw thr mask :
  pp_m_by_n pp = None -> pp_block pp = [bh; bw] -> (bh, bw) <> (1, 1)%nat -> (0 < bh)%nat -> (0 < bw)%nat ->
  wf w -> shape w = [r; c] -> r <> 1%nat -> c <> 1%nat ->
  maybe_update_block_mask pp s w = Ok (thr, mask) ->
  shape mask = shape w /\
  (forall i j i' j', (i < r)%nat -> (j < c)%nat -> (i' < r)%nat -> (j' < c)%nat ->
     (i / bh = i' / bh)%nat -> (j / bw = j' / bw)%nat -> tget 0 mask [i; j] = tget 0 mask [i'; j']) /\
  (forall i j, (i < r)%nat -> (j < c)%nat -> tget 0 mask [i; j] = 0 \/ tget 0 mask [i; j] = 1).
Proof.
  intros H1 H2 H3 Hh Hw W S R1 C1 E.
  pose proof (block_mask_spec pp s w _ _ bh bw thr mask H1 H2 H3 Hh Hw W S R1 C1 E)
    as (Wm & Sm & N1 & N2 & q & qm & Pq & EU & G).
  split; [congruence|]. split.
  - intros i j i' j' Hi Hj Hi' Hj' E1 E2. rewrite !G by auto. rewrite E1, E2. auto.
  - intros i j Hi Hj. rewrite G by auto. unfold is_pooled in Pq. rewrite S in Pq.
    destruct Pq as (Wq & Sq & _).
    pose proof (update_mask_spec _ _ _ _ EU) as (ES & EL & k & Hk & HK & HM).
    unfold tget. rewrite ES, HM.
    + destruct (Qle_bool _ _); auto.
    + unfold wf in Wq. rewrite Wq, Sq. apply ravel_lt. apply valid2.
      pose proof (ceil_div_cover r bh Hh). pose proof (ceil_div_cover c bw Hw).
      split; apply Nat.div_lt_upper_bound; lia.
Qed.
