From Verif Require Import Base M_Num M_Cmwc L_Num.
From Coq Require Import ZArith Lia.
Open Scope Z_scope.

Lemma parallelism_pos n : 0 < n -> 0 < parallelism n.
Proof.
  intros H. unfold parallelism. assert (1 <= Z.sqrt_up n). { pose proof (Z.sqrt_up_pos n). lia. }
  apply Z.div_str_pos. lia.
Qed.
Lemma parallelism_iff n p : 0 < n -> 1 <= p -> 100 * (p - 1) ^ 2 < n <= 100 * p ^ 2 -> parallelism n = p.
Proof.
  intros H P [A B]. unfold parallelism.
  assert (Z.sqrt_up n <= 10 * p). { apply Z.sqrt_up_le_square; lia. }
  assert (10 * (p - 1) < Z.sqrt_up n). { apply Z.sqrt_up_lt_square; lia. }
  symmetry. apply (Z.div_unique_pos _ 10 p (Z.sqrt_up n + 9 - 10 * p)); lia.
Qed.
Lemma enough n : 0 < n -> n <= num_iters n * parallelism n.
Proof.
  intros H. pose proof (parallelism_pos n H). unfold num_iters. pose proof (Z.mod_pos_bound n (parallelism n) ltac:(lia)).
  pose proof (Z.div_mod n (parallelism n) ltac:(lia)). nia.
Qed.
Lemma iters_pos n : 0 < n -> 0 < num_iters n.
Proof. intros H. pose proof (parallelism_pos n H). unfold num_iters. pose proof (Z.div_pos n (parallelism n)). lia. Qed.
Lemma seeds_len c v : length (seeds c v) = c.
Proof. revert v. induction c; intros v; cbn; auto. Qed.

Definition in53 (k : Z) : Prop := 0 <= k < 2 ^ 53.
Lemma value_range l : in53 (lane_value l).
Proof. unfold lane_value, in53. change (2 ^ 53 - 1) with (Z.ones 53). rewrite Z.land_ones by lia. apply Z.mod_pos_bound. lia. Qed.

Lemma loop_S fuel todo bits ls : cmwc_loop (S fuel) (S todo) bits ls =
  if 53 <=? bits + 32
  then do rest <- cmwc_loop fuel todo (bits + 32 - 53) (map lane_shift (map lane_step ls)) ;; Ok (map lane_value (map lane_step ls) :: rest)
  else cmwc_loop fuel (S todo) (bits + 32) (map lane_step ls).
Proof. reflexivity. Qed.
Lemma loop_ok todo : forall fuel bits ls, 0 <= bits < 53 -> (2 * todo + 1 <= fuel)%nat ->
  exists rows, cmwc_loop fuel todo bits ls = Ok rows /\ length rows = todo /\
    Forall (fun r => length r = length ls /\ Forall in53 r) rows.
Proof.
  induction todo as [|todo IH]; intros fuel bits ls B F; [exists []; destruct fuel; repeat split; constructor|].
  destruct fuel as [|[|fuel]]; [lia|lia|]. rewrite loop_S. destruct (Z.leb_spec 53 (bits + 32)).
  - destruct (IH (S fuel) (bits + 32 - 53) (map lane_shift (map lane_step ls))) as (rows & E & L & G); [lia|lia|]. rewrite E. cbn [bind].
    eexists. split; [reflexivity|]. split; [cbn; auto|]. rewrite !map_length in G. constructor; [|exact G].
    split; [now rewrite !map_length|]. rewrite Forall_map. apply Forall_forall. intros; apply value_range.
  - rewrite loop_S. destruct (Z.leb_spec 53 (bits + 32 + 32)); [|lia].
    destruct (IH fuel (bits + 32 + 32 - 53) (map lane_shift (map lane_step (map lane_step ls)))) as (rows & E & L & G); [lia|lia|]. rewrite E. cbn [bind].
    eexists. split; [reflexivity|]. split; [cbn; auto|]. rewrite !map_length in G. constructor; [|exact G].
    split; [now rewrite !map_length|]. rewrite Forall_map. apply Forall_forall. intros; apply value_range.
Qed.
Lemma concat_len {A} p (rows : list (list A)) : Forall (fun r => length r = p) rows -> length (List.concat rows) = (length rows * p)%nat.
Proof. induction 1; cbn; [reflexivity|]. rewrite app_length. lia. Qed.
Lemma sequence_ok n seed : 0 < n -> exists ks, cmwc_random_sequence n seed = Ok ks /\ length ks = Z.to_nat n /\ Forall in53 ks.
Proof.
  intros H. unfold cmwc_random_sequence. destruct (Z.leb_spec n 0); [lia|].
  destruct (loop_ok (Z.to_nat (num_iters n)) (2 * Z.to_nat (num_iters n) + 1) 0 (map (fun v => mkLane 0 v v) (seeds (Z.to_nat (parallelism n)) seed))) as (rows & E & L & G); [lia|lia|].
  rewrite E. cbn [bind]. eexists. split; [reflexivity|]. rewrite map_length, seeds_len in G. split.
  - rewrite firstn_length, (concat_len (Z.to_nat (parallelism n))), L by (eapply Forall_impl; [|exact G]; cbn; tauto).
    pose proof (enough n H). pose proof (iters_pos n H). pose proof (parallelism_pos n H). apply Nat.min_l. nia.
  - apply Forall_forall. intros k K. assert (In k (List.concat rows)) as K' by (rewrite <- (firstn_skipn (Z.to_nat n)); apply in_or_app; auto).
    apply in_concat in K'. destruct K' as (r & R & Kr). rewrite Forall_forall in G. destruct (G r R) as [_ Q]. rewrite Forall_forall in Q. auto.
Qed.

(** Prefixes. *)
Lemma loop_prefix t1 : forall t2 fuel1 fuel2 bits ls r2, (t1 <= t2)%nat -> 0 <= bits < 53 -> (2 * t1 + 1 <= fuel1)%nat ->
  cmwc_loop fuel2 t2 bits ls = Ok r2 -> cmwc_loop fuel1 t1 bits ls = Ok (firstn t1 r2).
Proof.
  induction t1 as [|t1 IH]; intros t2 fuel1 fuel2 bits ls r2 T B F E; [destruct fuel1; reflexivity|].
  destruct t2 as [|t2]; [lia|]. destruct fuel1 as [|[|fuel1]]; [lia|lia|]. destruct fuel2 as [|fuel2]; [discriminate|].
  rewrite loop_S in E. rewrite loop_S. destruct (Z.leb_spec 53 (bits + 32)).
  - destruct (cmwc_loop fuel2 t2 _ _) as [r|] eqn:R; cbn [bind] in E; [|discriminate]. injection E as <-.
    rewrite (IH t2 (S fuel1) fuel2 _ _ r) by (auto; lia). reflexivity.
  - destruct fuel2 as [|fuel2]; [discriminate|]. rewrite loop_S in E. rewrite loop_S. destruct (Z.leb_spec 53 (bits + 32 + 32)); [|lia].
    destruct (cmwc_loop fuel2 t2 _ _) as [r|] eqn:R; cbn [bind] in E; [|discriminate]. injection E as <-.
    rewrite (IH t2 fuel1 fuel2 _ _ r) by (auto; lia). reflexivity.
Qed.
Lemma firstn_concat {A} p (rows : list (list A)) t : Forall (fun r => length r = p) rows ->
  List.concat (firstn t rows) = firstn (t * p) (List.concat rows).
Proof.
  intros F. revert t. induction F as [|r rows L F IH]; intros t; [rewrite !firstn_nil; reflexivity|]. destruct t as [|t]; [reflexivity|].
  cbn [firstn List.concat Nat.mul]. rewrite IH, firstn_app, L. replace (p + t * p - p)%nat with (t * p)%nat by lia. f_equal.
  rewrite firstn_all2; [reflexivity|lia].
Qed.
Lemma sequence_prefix p m n seed ks : 1 <= p -> 100 * (p - 1) ^ 2 < m -> m <= n -> n <= 100 * p ^ 2 ->
  cmwc_random_sequence n seed = Ok ks -> cmwc_random_sequence m seed = Ok (firstn (Z.to_nat m) ks).
Proof.
  intros P A B C E. assert (0 <= (p - 1) ^ 2) by nia. assert (0 < m) by lia.
  assert (parallelism m = p) as Pm by (apply parallelism_iff; lia). assert (parallelism n = p) as Pn by (apply parallelism_iff; lia).
  unfold cmwc_random_sequence in *. destruct (Z.leb_spec n 0); [lia|]. destruct (Z.leb_spec m 0); [lia|].
  assert (num_iters m <= num_iters n) as I. { unfold num_iters. rewrite Pm, Pn. pose proof (Z.div_le_mono m n p). lia. }
  pose proof (iters_pos m ltac:(lia)) as Im.
  rewrite Pn in E. rewrite Pm. set (ls := map (fun v => mkLane 0 v v) (seeds (Z.to_nat p) seed)) in *.
  destruct (loop_ok (Z.to_nat (num_iters n)) (2 * Z.to_nat (num_iters n) + 1) 0 ls) as (rows & E' & L & G); [lia|lia|].
  rewrite E' in E. cbn [bind] in E. injection E as <-.
  rewrite (loop_prefix (Z.to_nat (num_iters m)) (Z.to_nat (num_iters n)) _ (2 * Z.to_nat (num_iters n) + 1)%nat 0 ls rows) by (auto; lia). cbn [bind]. f_equal.
  assert (Forall (fun r => length r = Z.to_nat p) rows) as G'.
  { eapply Forall_impl; [|exact G]. cbn. unfold ls. rewrite map_length, seeds_len. tauto. }
  rewrite (firstn_concat (Z.to_nat p)), !firstn_firstn by exact G'. f_equal.
  pose proof (enough m ltac:(lia)) as Em. rewrite Pm in Em. rewrite !Nat.min_l by nia. reflexivity.
Qed.

(** Colliding seeds. *)
Lemma wrap_ext a b : a mod 2 ^ 64 = b mod 2 ^ 64 -> wrap64 a = wrap64 b.
Proof. intros H. unfold wrap64. rewrite (Z.add_mod a), (Z.add_mod b), H by lia. reflexivity. Qed.
Lemma next_seed_multiple j : next_seed (2048 * j) = 1.
Proof.
  unfold next_seed. rewrite (wrap_ext _ 1); [reflexivity|].
  replace ((2048 * j) ^ 7 + (2048 * j) ^ 6 + 1) with (1 + (4 * j ^ 6 * (2048 * j + 1)) * 2 ^ 64) by ring.
  apply Z_mod_plus_full.
Qed.
Lemma seeds_same c v w : next_seed v = next_seed w -> seeds c v = seeds c w.
Proof. intros H. destruct c; cbn; [reflexivity|]. now rewrite H. Qed.
Lemma sequence_same n v w : next_seed v = next_seed w -> cmwc_random_sequence n v = cmwc_random_sequence n w.
Proof. intros H. unfold cmwc_random_sequence. now rewrite (seeds_same _ v w H). Qed.

(** float32. *)
Lemma to_float32_range k : in53 k -> 0 <= to_float32 k <= 2 ^ 53.
Proof.
  intros [A B]. unfold to_float32. destruct (Z.ltb_spec k (2 ^ 24)); [lia|].
  assert (0 < k) as K by lia. destruct (Z.log2_spec k K) as [C D].
  assert (24 <= Z.log2 k) as G. { apply Z.log2_le_pow2; lia. }
  assert (Z.log2 k < 53) as G2. { apply Z.log2_lt_pow2; lia. }
  set (s := Z.log2 k - 23) in *. assert (2 ^ Z.succ (Z.log2 k) = 2 ^ 24 * 2 ^ s) as S1. { rewrite <- Z.pow_add_r by lia. f_equal. lia. }
  assert (0 < 2 ^ s) as Ps by (apply Z.pow_pos_nonneg; lia).
  assert (2 ^ 24 * 2 ^ s <= 2 ^ 53) as Up. { rewrite <- Z.pow_add_r by lia. apply Z.pow_le_mono_r; lia. }
  assert (0 <= round_half_even (inject_Z k / inject_Z (2 ^ s)) <= 2 ^ 24).
  { apply round_bounds. assert (0 < inject_Z (2 ^ s))%Q by (change 0%Q with (inject_Z 0); rewrite <- Zlt_Qlt; lia). split.
    - apply Qle_shift_div_l; [auto|]. rewrite <- inject_Z_mult, <- Zle_Qle. lia.
    - apply Qle_shift_div_r; [auto|]. rewrite <- inject_Z_mult, <- Zle_Qle. lia. }
  nia.
Qed.
