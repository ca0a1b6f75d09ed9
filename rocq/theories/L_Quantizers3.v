(** More lemmas about quantizers: channels, levels, usability, configurations, transposed weights. *)
From Verif Require Import Base M_Num L_Num M_Tensor L_Tensor M_Stages L_Stages M_Quant S_Quant L_Quant L_Quantizers L_Quantizers2.
Open Scope Q_scope.

(** * Channels *)
Lemma last_cons_ne {A} (a : A) l d : l <> [] -> last (a :: l) d = last l d.
Proof. destruct l; [congruence|reflexivity]. Qed.
Lemma prod_last s : s <> [] -> exists k, prod s = (k * last s 0)%nat.
Proof.
  induction s as [|d s IH]; [congruence|]. intros _. destruct s as [|e s]; [exists 1%nat; cbn; lia|].
  destruct IH as [k E]; [discriminate|]. exists (d * k)%nat. rewrite last_cons_ne by discriminate. cbn [prod] in *. rewrite E. lia.
Qed.
Lemma ravel_mod_last s : s <> [] -> forall idx, valid s idx -> (ravel s idx mod last s 0 = last idx 0)%nat.
Proof.
  induction s as [|d s IH]; [congruence|]. intros _ idx V. apply valid_cons_inv in V as (i & r & -> & I & V).
  destruct s as [|e s].
  - apply valid_nil_iff in V. subst. cbn. rewrite Nat.mul_1_r, Nat.add_0_r. now apply Nat.mod_small.
  - rewrite last_cons_ne by discriminate. assert (r <> []) by (intros ->; inversion V). rewrite (last_cons_ne i r) by auto.
    rewrite <- (IH ltac:(discriminate) r V). destruct (prod_last (e :: s)) as [k E]; [discriminate|].
    change (ravel (d :: e :: s) (i :: r)) with (i * prod (e :: s) + ravel (e :: s) r)%nat. rewrite E, Nat.mul_assoc, Nat.add_comm.
    destruct (Nat.eq_dec (last (e :: s) 0%nat) 0) as [Z|Z]; [rewrite Z; cbn; f_equal; lia|]. now apply Nat.mod_add.
Qed.
Lemma last_lt s idx : s <> [] -> valid s idx -> (last idx 0 < last s 0)%nat.
Proof.
  revert idx. induction s as [|d s IH]; [congruence|]. intros idx _ V. apply valid_cons_inv in V as (i & r & -> & I & V). destruct s as [|e s].
  - apply valid_nil_iff in V. subst. exact I.
  - assert (r <> []) by (intros ->; inversion V). rewrite !last_cons_ne by (auto; discriminate). apply IH; [discriminate|auto].
Qed.
Lemma agree_data c x y : wf x -> wf y -> shape x <> [] -> agree_on_channel c x y ->
  forall i, (i < length (data x))%nat -> (i mod channels x = c)%nat -> nth i (data x) 0 = nth i (data y) 0.
Proof.
  intros Wx Wy N [S A] i I M. rewrite Wx in I. pose proof (unravel_valid _ _ I) as V. specialize (A _ V).
  unfold tget in A. rewrite <- S, (ravel_unravel _ _ I) in A. apply A. rewrite <- (ravel_mod_last _ N _ V), (ravel_unravel _ _ I). exact M.
Qed.
Lemma channel_values_aux m c : forall (d d' : list Q) k, length d = length d' -> (forall i, (i < length d)%nat -> ((k + i) mod m = c)%nat -> nth i d 0 = nth i d' 0) ->
  map snd (filter (fun iv => (fst iv mod m =? c)%nat) (combine (seq k (length d)) d)) = map snd (filter (fun iv => (fst iv mod m =? c)%nat) (combine (seq k (length d')) d')).
Proof.
  induction d as [|a d IH]; intros [|a' d'] k L H; try discriminate; [reflexivity|]. cbn [length seq combine filter fst].
  assert (map snd (filter (fun iv => (fst iv mod m =? c)%nat) (combine (seq (S k) (length d)) d)) = map snd (filter (fun iv => (fst iv mod m =? c)%nat) (combine (seq (S k) (length d')) d'))) as E.
  { apply IH; [now injection L|]. intros i I M. apply (H (S i)); [cbn; lia|]. rewrite Nat.add_succ_r. exact M. }
  destruct (Nat.eqb_spec (k mod m) c) as [M|M]; cbn [map snd]; [|exact E].
  f_equal; [|exact E]. apply (H 0%nat); [cbn; lia|]. now rewrite Nat.add_0_r.
Qed.
Lemma agree_channel_values c x y : wf x -> wf y -> shape x <> [] -> agree_on_channel c x y -> channel_values x c = channel_values y c.
Proof.
  intros Wx Wy N A. pose proof A as [S _]. unfold channel_values, channels. rewrite <- S. apply channel_values_aux.
  - unfold wf in *. rewrite Wx, Wy, S. reflexivity.
  - intros i I M. apply (agree_data c); auto.
Qed.
Lemma In_combine_seq {A} (d : list A) (a0 : A) k i v : In (i, v) (combine (seq k (length d)) d) <-> (k <= i < k + length d)%nat /\ nth (i - k) d a0 = v.
Proof.
  revert k; induction d as [|a d IH]; intros k; cbn [length seq combine].
  - cbn. split; [tauto|]. intros [? _]. lia.
  - cbn [In]. rewrite IH. split.
    + intros [[= <- <-]|[L E]]; [rewrite Nat.sub_diag; split; [lia|reflexivity]|]. split; [lia|]. replace (i - k)%nat with (S (i - S k)) by lia. exact E.
    + intros [L E]. destruct (Nat.eq_dec i k) as [->|Ne]; [left; rewrite Nat.sub_diag in E; cbn in E; congruence|].
      right. split; [lia|]. replace (i - k)%nat with (S (i - S k)) in E by lia. exact E.
Qed.
Lemma In_channel x c v : wf x -> shape x <> [] -> In v (channel_values x c) <-> exists idx, valid (shape x) idx /\ last idx 0%nat = c /\ tget 0 x idx = v.
Proof.
  intros W N. unfold channel_values. rewrite in_map_iff. split.
  - intros ([i u] & E & H). cbn in E. subst u. apply filter_In in H. destruct H as [H M]. cbn in M. apply Nat.eqb_eq in M. apply (In_combine_seq _ 0) in H. destruct H as [[_ L] E].
    rewrite Nat.sub_0_r in E. cbn in L. rewrite W in L. exists (unravel (shape x) i). pose proof (unravel_valid _ _ L) as V. split; [auto|]. split.
    + rewrite <- (ravel_mod_last _ N _ V), (ravel_unravel _ _ L). exact M.
    + unfold tget. rewrite (ravel_unravel _ _ L). exact E.
  - intros (idx & V & Lc & E). pose proof (ravel_lt _ _ V) as L. exists (ravel (shape x) idx, v). split; [reflexivity|]. apply filter_In. split.
    + apply (In_combine_seq _ 0). rewrite Nat.sub_0_r. rewrite W. split; [lia|exact E].
    + cbn. apply Nat.eqb_eq. rewrite <- Lc. now apply ravel_mod_last.
Qed.
(** Ranges computed from a batch, channel by channel. *)
Lemma batch_per_channel x r : batch x -> batch_ranges true x = Ok r -> shape x <> [] -> r = PerAxis (map (fun c => (reduce_min (channel_values x c), reduce_max (channel_values x c))) (seq 0 (channels x))).
Proof.
  intros [W _]. unfold batch_ranges, rank. destruct (shape x) as [|d [|e [|f [|g [|]]]]] eqn:Sh; cbn [length]; try discriminate; try congruence.
  intros [= <-] _. f_equal. unfold channels. rewrite Sh. cbn [last]. unfold wf in W. rewrite Sh in W. cbn [prod] in W. rewrite Nat.mul_1_r in W.
  apply nth_ext with (d := (0, 0)) (d' := (0, 0)); [rewrite !map_length, seq_length; auto|]. intros n. rewrite map_length. intros L.
  rewrite W in L. rewrite (nth_map_seq _ _ _ _ L). pose proof (map_nth (fun v : Q => (v, v)) (data x) 0 n) as Mn. cbn beta in Mn. rewrite Mn. clear Mn.
  assert (channel_values x n = [nth n (data x) 0]) as ->; [|reflexivity]. unfold channel_values, channels. rewrite Sh. cbn [last].
  assert (forall (l : list Q) k, (k + length l <= d)%nat -> (k <= n < k + length l)%nat ->
    map snd (filter (fun iv => (fst iv mod d =? n)%nat) (combine (seq k (length l)) l)) = [nth (n - k) l 0]) as G.
  { assert (forall (l : list Q) k, (k + length l <= d)%nat -> (n < k)%nat -> map snd (filter (fun iv => (fst iv mod d =? n)%nat) (combine (seq k (length l)) l)) = []) as G0.
    { induction l as [|a l IH]; intros k L1 L2; cbn [length seq combine filter]; [reflexivity|]. cbn [fst]. cbn in L1. rewrite Nat.mod_small by lia.
      destruct (Nat.eqb_spec k n); [lia|]. apply IH; lia. }
    induction l as [|a l IH]; intros k L1 L2; cbn [length] in *; [lia|]. cbn [seq combine filter fst]. rewrite Nat.mod_small by lia.
    destruct (Nat.eqb_spec k n) as [->|Ne].
    - cbn [map snd]. rewrite G0 by lia. rewrite Nat.sub_diag. reflexivity.
    - rewrite IH by lia. replace (n - k)%nat with (S (n - S k))%nat by lia. reflexivity. }
  rewrite G; [rewrite Nat.sub_0_r; reflexivity|lia|lia].
Qed.
Lemma zip_new (l m : list (Q * Q)) : length l = length m -> zip_ranges (fun _ n => n) l m = m.
Proof. revert m. induction l; intros [|? ?] H; cbn in *; try discriminate; auto. f_equal. auto. Qed.
Lemma fq_per_axis bits na l x y : FakeQuantWithMinMaxVars bits na true (PerAxis l) x = Ok y -> wf x -> shape y = shape x /\ wf y /\ shape x <> [] /\ length l = channels x /\
  forall idx, valid (shape x) idx -> tget 0 y idx = fake_quant bits na (fst (nth (last idx 0%nat) l (0, 0))) (snd (nth (last idx 0%nat) l (0, 0))) (tget 0 x idx).
Proof.
  intros E W. unfold FakeQuantWithMinMaxVars in E. destruct (negb _) in E; [discriminate|].
  destruct (Nat.eqb_spec (length l) (channels x)) as [Le|]; cbn [negb orb] in E; [|discriminate].
  destruct (Nat.eqb_spec (rank x) 0) as [|R]; [discriminate|]. injection E as <-. cbn [shape data]. split; [reflexivity|].
  assert (shape x <> []) as N by (intros Z; apply R; unfold rank; now rewrite Z).
  split; [unfold wf in *; cbn [shape data]; rewrite map_length, combine_length, seq_length; lia|]. split; [auto|]. split; [auto|].
  intros idx V. unfold tget. cbn [shape data]. pose proof (ravel_lt _ _ V) as L. rewrite <- (ravel_mod_last _ N _ V). set (i := ravel (shape x) idx) in *. rewrite <- W in L.
  set (f := fun iv : nat * Q => _). rewrite (nth_indep _ 0 (f (0%nat, 0))) by (rewrite map_length, combine_length, seq_length; lia). rewrite map_nth.
  rewrite combine_nth by (rewrite seq_length; auto). rewrite seq_nth by auto. unfold f. cbn [fst snd]. reflexivity.
Qed.
Lemma per_axis_call c bits sy na tr w x y v : per_axis_weights c = true -> batch x -> call (LastValueQuantizer c bits true sy na) tr w x = Ok (y, v) ->
  exists l, v = Some (PerAxis l) /\ (2 <= bits <= 16)%nat /\ FakeQuantWithMinMaxVars bits na true (PerAxis l) x = Ok y /\
   (if tr then l = map (fun ch => widen sy bits na (reduce_min (channel_values x ch)) (reduce_max (channel_values x ch))) (seq 0 (channels x)) else w = Some (PerAxis l)).
Proof.
  intros C B. assert (call (LastValueQuantizer c bits true sy na) tr w x = (do w0 <- need_w w ;; lift (LastValueQuantize bits true sy na tr w0 x))) as -> by (destruct c; try discriminate C; reflexivity).
  destruct w as [u|]; cbn [need_w bind]; [|discriminate]. unfold lift, LastValueQuantize. destruct tr; cbn [negb].
  - destruct (batch_ranges true x) as [r|] eqn:Er; cbn [bind]; [|discriminate]. destruct (assign_with _ _ _) as [z|] eqn:Ez; cbn [bind]; [|discriminate].
    destruct (FakeQuantWithMinMaxVars bits na true z x) eqn:E; cbn [bind]; [|discriminate]. intros [= <- <-].
    pose proof (fq_bits _ _ _ _ _ _ E) as Bt. destruct z as [|l]; [discriminate E|]. exists l. split; [reflexivity|]. split; [auto|]. split; [exact E|].
    assert (shape x <> []) as N by (apply fq_per_axis in E; [tauto|apply B]). apply batch_per_channel in Er; auto. subst r. cbn [rmap] in Ez. rewrite map_map in Ez.
    unfold assign_with in Ez. destruct u as [|lu]; [discriminate|]. destruct (Nat.eqb_spec (length lu) (length (map (fun c0 : nat => widen sy bits na (fst (reduce_min (channel_values x c0), reduce_max (channel_values x c0))) (snd (reduce_min (channel_values x c0), reduce_max (channel_values x c0)))) (seq 0 (channels x))))); [|discriminate].
    injection Ez as <-. rewrite zip_new by auto. reflexivity.
  - destruct (FakeQuantWithMinMaxVars bits na true u x) eqn:E; cbn [bind]; [|discriminate]. intros [= <- <-].
    pose proof (fq_bits _ _ _ _ _ _ E) as Bt. destruct u as [|l]; [discriminate E|]. exists l. auto.
Qed.
Theorem per_axis_independent c bits sy na tr ch w1 w2 x1 x2 y1 y2 v1 v2 : per_axis_weights c = true -> batch x1 -> batch x2 ->
  call (LastValueQuantizer c bits true sy na) tr w1 x1 = Ok (y1, v1) -> call (LastValueQuantizer c bits true sy na) tr w2 x2 = Ok (y2, v2) ->
  agree_on_channel ch x1 x2 -> (ch < channels x1)%nat ->
  (tr = false -> forall l1 l2, w1 = Some (PerAxis l1) -> w2 = Some (PerAxis l2) -> nth_error l1 ch = nth_error l2 ch) ->
  agree_on_channel ch y1 y2 /\ exists l1 l2, v1 = Some (PerAxis l1) /\ v2 = Some (PerAxis l2) /\ nth_error l1 ch = nth_error l2 ch.
Proof.
  intros C B1 B2 E1 E2 A Lc Hw. apply per_axis_call in E1 as (l1 & -> & Bt & F1 & R1); auto. apply per_axis_call in E2 as (l2 & -> & _ & F2 & R2); auto.
  assert (nth_error l1 ch = nth_error l2 ch) as Ne.
  { destruct tr; [|apply Hw; auto]. subst l1 l2. assert (channels x1 = channels x2) as Cc by (unfold channels; destruct A as [-> _]; reflexivity).
    rewrite !nth_error_map. rewrite <- Cc. destruct (nth_error (seq 0 (channels x1)) ch) as [k|] eqn:K; [|reflexivity]. cbn.
    assert (k = ch) as ->. { apply nth_error_nth with (d := 0%nat) in K. rewrite seq_nth in K by auto. cbn in K. auto. }
    assert (shape x1 <> []) as N by (apply fq_per_axis in F1; [tauto|apply B1]). rewrite (agree_channel_values ch x1 x2); auto; [apply B1|apply B2]. }
  split; [|eauto 10]. apply fq_per_axis in F1 as (S1 & W1 & N1 & L1 & G1); [|apply B1]. apply fq_per_axis in F2 as (S2 & W2 & N2 & L2 & G2); [|apply B2].
  destruct A as [Sx A]. split; [congruence|]. intros idx V L. rewrite S1 in V. rewrite G1 by auto. rewrite G2 by (rewrite <- Sx; auto). rewrite L. rewrite (A idx V L).
  assert (nth ch l1 (0,0) = nth ch l2 (0,0)) as ->; [|reflexivity].
  destruct (nth_error l1 ch) as [p|] eqn:X.
  - symmetry in Ne. apply nth_error_nth with (d := (0,0)) in X, Ne. congruence.
  - apply nth_error_None in X. symmetry in Ne. apply nth_error_None in Ne. now rewrite !nth_overflow.
Qed.
(** The training range of every channel is the extent of that channel, and every element is quantized with its channel's range. *)
Theorem per_axis_training c bits na w x y v : per_axis_weights c = true -> batch x -> call (LastValueQuantizer c bits true false na) true w x = Ok (y, v) ->
  shape y = shape x /\ exists l, v = Some (PerAxis l) /\ length l = last (shape x) 0%nat /\
  (forall ch lo hi, nth_error l ch = Some (lo, hi) ->
     lo <= 0 <= hi /\ (forall idx, valid (shape x) idx -> last idx 0%nat = ch -> lo <= tget 0 x idx <= hi) /\
     (lo == 0 \/ exists idx, valid (shape x) idx /\ last idx 0%nat = ch /\ tget 0 x idx == lo) /\
     (hi == 0 \/ exists idx, valid (shape x) idx /\ last idx 0%nat = ch /\ tget 0 x idx == hi)) /\
  (forall idx, valid (shape x) idx -> exists lo hi, nth_error l (last idx 0%nat) = Some (lo, hi) /\ tget 0 y idx = fake_quant bits na lo hi (tget 0 x idx)).
Proof.
  intros C B E. apply per_axis_call in E as (l & -> & Bt & F & R); auto. pose proof F as F'. apply fq_per_axis in F' as (S & W & N & L & G); [|apply B].
  split; [auto|]. exists l. split; [auto|]. split; [exact L|]. split.
  - intros ch lo hi Hn. assert (ch < length l)%nat as Lc by (apply nth_error_Some; congruence).
    assert (widen false bits na (reduce_min (channel_values x ch)) (reduce_max (channel_values x ch)) = (lo, hi)) as Ew.
    { apply nth_error_nth with (d := (0, 0)) in Hn. rewrite R in Hn. rewrite nth_map_seq in Hn by lia. exact Hn. }
    assert (channel_values x ch <> []) as Z.
    { assert (In (nth ch (data x) 0) (channel_values x ch)) as I; [|intros Z; rewrite Z in I; contradiction]. destruct B as [Wx Nx].
      destruct (prod_last (shape x) N) as [k Ek]. assert (length (data x) <> 0)%nat by (destruct (data x); [congruence|discriminate]).
      assert (ch < length (data x))%nat as Ld. { rewrite Wx in *. rewrite Ek in *. unfold channels in L. destruct k; [lia|]. nia. }
      unfold channel_values. apply in_map_iff. exists (ch, nth ch (data x) 0). split; [reflexivity|]. apply filter_In. split.
      - apply (In_combine_seq _ 0). rewrite Nat.sub_0_r. split; [lia|reflexivity].
      - cbn. apply Nat.eqb_eq. apply Nat.mod_small. lia. }
    destruct (min0_of _ Z) as (A1 & A2 & A3). destruct (max0_of _ Z) as (A4 & A5 & A6). cbn in Ew. injection Ew as El Eh. rewrite El in *. rewrite Eh in *.
    split; [auto|]. split; [|split].
    + intros idx V Lx. assert (In (tget 0 x idx) (channel_values x ch)) as I by (apply In_channel; [apply B|auto|eauto]). auto.
    + destruct A1 as [A1|(u & Hu & A1)]; [now left|right]. apply In_channel in Hu; [|apply B|auto]. destruct Hu as (idx & V & Lx & <-). exists idx. split; [auto|]. split; [auto|]. now symmetry.
    + destruct A4 as [A4|(u & Hu & A4)]; [now left|right]. apply In_channel in Hu; [|apply B|auto]. destruct Hu as (idx & V & Lx & <-). exists idx. split; [auto|]. split; [auto|]. now symmetry.
  - intros idx V. pose proof (last_lt _ _ N V) as Ll. destruct (nth_error l (last idx 0%nat)) as [[lo hi]|] eqn:En.
    + exists lo, hi. split; [reflexivity|]. rewrite G by auto. apply nth_error_nth with (d := (0, 0)) in En. now rewrite En.
    + apply nth_error_None in En. unfold channels in L. lia.
Qed.
