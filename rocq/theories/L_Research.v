(** Lemmas about the research stages. *)
From Coq Require Import Reals Lra Psatz.
From Verif Require Import Base M_Tensor L_Tensor M_Bitpack M_Hadamard L_Hadamard L_Kashin M_Encoder S_Encoder M_Composer M_CommonEncoders S_CommonEncoders L_CommonEncoders L_CommonEncoders3 L_CommonEncoders4 M_Research S_Research.
From Coq Require Import Lra Psatz.
Open Scope R_scope.
Open Scope list_scope.

Lemma nth_map_seq' (f : nat -> R) n i : (i < n)%nat -> nth i (map f (seq 0 n)) 0 = f i.
Proof. intros H. rewrite (nth_indep _ 0 (f O)) by (rewrite map_length, seq_length; lia). rewrite map_nth, seq_nth by lia. reflexivity. Qed.
Lemma column_In dim b x c v : (0 < dim)%nat -> (c < dim)%nat -> List.length x = (b * dim)%nat ->
  (In v (column dim x c) <-> exists j, (j < List.length x)%nat /\ (j mod dim = c)%nat /\ nth j x 0 = v).
Proof.
  intros D C L. unfold column. rewrite L, Nat.div_mul by lia. rewrite in_map_iff. split.
  - intros (r & <- & Hr). apply in_seq in Hr. assert (S r * dim <= b * dim)%nat by (apply Nat.mul_le_mono_r; lia). exists (r * dim + c)%nat. split; [cbn in *; lia|]. split; [|reflexivity].
    rewrite Nat.add_comm, Nat.mod_add by lia. now apply Nat.mod_small. 
  - intros (j & Hj & Hm & <-). exists (j / dim)%nat. pose proof (Nat.div_mod j dim ltac:(lia)) as E. split; [rewrite <- Hm; f_equal; lia|].
    apply in_seq. split; [apply Nat.le_0_l|]. cbn. apply Nat.div_lt_upper_bound; lia.
Qed.
Lemma pc_range dim b x c : (0 < dim)%nat -> (c < dim)%nat -> List.length x = (b * dim)%nat -> (0 < b)%nat ->
  channel_range dim x c (nth c (pc_min dim x) 0) (nth c (pc_max dim x) 0).
Proof.
  intros D C L B. unfold pc_min, pc_max. rewrite !nth_map_seq' by assumption.
  assert (N : column dim x c <> []). { intros Z. unfold column in Z. apply map_eq_nil in Z. rewrite L, Nat.div_mul in Z by lia. destruct b; [lia|discriminate]. }
  destruct (min_max_range _ N) as (A1 & A2 & A3). split; [|split].
  - now apply (column_In dim b) in A1.
  - now apply (column_In dim b) in A2.
  - intros j Hj Hm. apply A3. apply (column_In dim b); eauto.
Qed.
Lemma indexed_nth f l i : (i < List.length l)%nat -> nth i (indexed f l) 0 = f i (nth i l 0).
Proof. intros H. unfold indexed. exact (nth_map_combine (fun iv => f (fst iv) (snd iv)) l i H). Qed.
Lemma indexed_len f l : List.length (indexed f l) = List.length l.
Proof. unfold indexed. rewrite map_length, combine_length, seq_length. lia. Qed.
Lemma scaled_len dim lo hi m x : List.length (pc_scaled dim lo hi m x) = List.length x.
Proof. apply (indexed_len (fun i v => div_no_nanR (v - nth (i mod dim) lo 0) (nth (i mod dim) hi 0 - nth (i mod dim) lo 0) * m)). Qed.
Lemma scaled_nth dim lo hi m x i : (i < List.length x)%nat -> nth i (pc_scaled dim lo hi m x) 0 =
  div_no_nanR (nth i x 0 - nth (i mod dim) lo 0) (nth (i mod dim) hi 0 - nth (i mod dim) lo 0) * m.
Proof. apply (indexed_nth (fun i v => div_no_nanR (v - nth (i mod dim) lo 0) (nth (i mod dim) hi 0 - nth (i mod dim) lo 0) * m)). Qed.
Lemma unscaled_len dim lo hi m x : List.length (pc_unscaled dim lo hi m x) = List.length x.
Proof. apply (indexed_len (fun i v => v / m * (nth (i mod dim) hi 0 - nth (i mod dim) lo 0) + nth (i mod dim) lo 0)). Qed.
Lemma unscaled_nth dim lo hi m x i : (i < List.length x)%nat -> nth i (pc_unscaled dim lo hi m x) 0 =
  nth i x 0 / m * (nth (i mod dim) hi 0 - nth (i mod dim) lo 0) + nth (i mod dim) lo 0.
Proof. apply (indexed_nth (fun i v => v / m * (nth (i mod dim) hi 0 - nth (i mod dim) lo 0) + nth (i mod dim) lo 0)). Qed.
Lemma prod_snoc s d : prod (s ++ [d]) = (prod s * d)%nat.
Proof. unfold prod. induction s as [|a s IH]; cbn [app fold_right]; [lia|]. rewrite IH. lia. Qed.
Lemma last_dim_ok (x : tensor R) : wf x -> data x <> [] -> shape x <> [] -> exists d b, last_dim x = Ok d /\ d = List.last (shape x) O /\ (0 < d)%nat /\ (0 < b)%nat /\ List.length (data x) = (b * d)%nat.
Proof.
  intros W N H. destruct (exists_last H) as (s & d & E). unfold wf in W. rewrite E, prod_snoc in W.
  assert (0 < List.length (data x))%nat by (destruct (data x); [congruence|cbn; lia]).
  exists d, (prod s). unfold last_dim. rewrite E, rev_app_distr. cbn [rev app]. destruct (d =? 0)%nat eqn:Z; [apply Nat.eqb_eq in Z; subst; lia|].
  apply Nat.eqb_neq in Z. rewrite last_last. repeat split; auto; nia.
Qed.
Lemma firstn_min dim x : firstn dim (pc_min dim x ++ pc_max dim x) = pc_min dim x /\ skipn dim (pc_min dim x ++ pc_max dim x) = pc_max dim x.
Proof.
  assert (L : List.length (pc_min dim x) = dim) by (unfold pc_min; now rewrite map_length, seq_length).
  split; [rewrite firstn_app|rewrite skipn_app]; rewrite L, Nat.sub_diag; [rewrite firstn_all2 by lia; cbn; apply app_nil_r|rewrite skipn_all2 by lia; reflexivity].
Qed.
Lemma prng_oneR u bits lo hi v : (1 <= bits)%nat -> 0 <= u < 1 -> lo <= v <= hi ->
  exists z, quantize1 true u (div_no_nanR (v - lo) (hi - lo) * IZR (top bits)) = IZR z /\ (0 <= z <= top bits)%Z /\
  Rabs ((IZR z + u - 1/2) / IZR (top bits) * (hi - lo) + lo - v) <= 1/2 * ((hi - lo) / IZR (top bits)).
Proof.
  intros B U V. destruct (uq_oneR true u bits lo hi v B U V) as (z & Q & R1 & _). exists z. split; [exact Q|]. split; [exact R1|].
  pose proof (top_pos bits B) as TP. set (m := IZR (top bits)) in *. unfold div_no_nanR in Q. destruct (Req_EM_T (hi - lo) 0) as [E|E].
  - assert (v = lo) by lra. subst v. rewrite E. replace (_ * 0 + lo - lo) with 0 by ring. rewrite Rabs_R0. unfold Rdiv. rewrite Rmult_0_l. lra.
  - assert (P : 0 < hi - lo) by lra. set (w := (v - lo) / (hi - lo) * m) in *. assert (Wv : v = w / m * (hi - lo) + lo) by (unfold w; field; lra).
    assert (H : Rabs (IZR z + u - 1/2 - w) <= 1/2).
    { destruct (floor_spec w) as [A C]. unfold quantize1 in Q. destruct (Rlt_dec u (w - IZR (floorR w))) as [L|L]; rewrite <- Q; apply Rabs_le; lra. }
    replace ((IZR z + u - 1/2) / m * (hi - lo) + lo - v) with ((IZR z + u - 1/2 - w) * ((hi - lo) / m)) by (rewrite Wv; field; lra).
    assert (0 < (hi - lo) / m) by (apply Rdiv_lt_0_compat; lra). rewrite Rabs_mult, (Rabs_pos_eq ((hi - lo) / m)) by lra. nra.
Qed.
Theorem per_channel_main bits st u x : (1 <= bits)%nat -> (forall i, 0 <= u i < 1) -> wf x -> data x <> [] -> shape x <> [] ->
  exists q mm y, stage_round_trip (per_channel_stage bits st) u x [("quantized_values"%string, F q); ("min_max"%string, F mm)] y /\ shape y = shape x /\ wf y /\
  (forall v, In v (data q) -> exists z, v = IZR z /\ (0 <= z <= 2 ^ Z.of_nat bits - 1)%Z) /\
  let dim := List.last (shape x) O in
  forall i, (i < prod (shape x))%nat -> exists lo hi, channel_range dim (data x) (i mod dim) lo hi /\
    let step := (hi - lo) / IZR (2 ^ Z.of_nat bits - 1) in let v := nth i (data x) 0 in let w := nth i (data y) 0 in
    (lo < hi -> Rabs (w - v) < step) /\ (st = false -> Rabs (w - v) <= 1/2 * step) /\ (v = lo \/ v = hi -> w = v).
Proof.
  intros B U W N H. destruct (last_dim_ok x W N H) as (d & b & Ed & El & Pd & Pb & L). cbn zeta. rewrite <- El.
  set (lo := pc_min d (data x)). set (hi := pc_max d (data x)). set (m := IZR (2 ^ Z.of_nat bits - 1)).
  set (sc := pc_scaled d lo hi m (data x)). set (q := indexed (fun i w => quantize1 st (u i) w) sc).
  assert (Lq : List.length q = List.length (data x)) by (unfold q, sc; now rewrite indexed_len, scaled_len).
  assert (Rg : forall i, (i < List.length (data x))%nat -> channel_range d (data x) (i mod d) (nth (i mod d) lo 0) (nth (i mod d) hi 0)).
  { intros i Hi. apply (pc_range d b); auto. apply Nat.mod_upper_bound. lia. }
  assert (Q : forall i, (i < List.length (data x))%nat -> exists z, nth i q 0 = IZR z /\ (0 <= z <= top bits)%Z /\
     let lo := nth (i mod d) lo 0 in let hi := nth (i mod d) hi 0 in let v := nth i (data x) 0 in let y := IZR z / IZR (top bits) * (hi - lo) + lo in
     (lo < hi -> Rabs (y - v) < (hi - lo) / IZR (top bits)) /\ (st = false -> Rabs (y - v) <= 1/2 * ((hi - lo) / IZR (top bits))) /\ (v = lo \/ v = hi -> y = v)).
  { intros i Hi. destruct (Rg i Hi) as (_ & _ & R1). destruct (uq_oneR st (u i) bits _ _ _ B (U i) (R1 i Hi eq_refl)) as (z & E & R2 & R3). exists z. split; [|auto].
    unfold q. rewrite indexed_nth by (unfold sc; rewrite scaled_len; exact Hi). unfold sc. rewrite scaled_nth by exact Hi. exact E. }
  exists (mkT [(List.length (data x) / d)%nat; d] q), (mkT [2%nat; d] (lo ++ hi)), (mkT (shape x) (pc_unscaled d lo hi m q)).
  split; [|split; [reflexivity|split; [|split]]].
  - split.
    + cbn [s_encode per_channel_stage float bind]. rewrite Ed. reflexivity.
    + cbn [s_decode per_channel_stage s_needs_shape]. unfold dindex. cbn [dget String.eqb Ascii.eqb Bool.eqb bind float unstack2 shape data need].
      destruct (firstn_min d (data x)) as (F1 & F2). fold lo hi in F1, F2. rewrite F1, F2. cbn [s_params per_channel_stage snd p_dict max_param dget String.eqb Ascii.eqb Bool.eqb bind nth].
      fold m. unfold reshape. cbn [data]. rewrite unscaled_len, Lq. unfold wf in W. rewrite W, Nat.eqb_refl. reflexivity.
  - unfold wf in *. cbn [data shape]. rewrite unscaled_len. congruence.
  - cbn [data]. intros v Hv. apply (In_nth _ _ 0) in Hv. destruct Hv as (i & Hi & <-). destruct (Q i ltac:(lia)) as (z & E & R1 & _). exists z. split; [exact E|exact R1].
  - intros i Hi. unfold wf in W. rewrite <- W in Hi. exists (nth (i mod d) lo 0), (nth (i mod d) hi 0). split; [now apply Rg|]. cbn [data]. rewrite unscaled_nth by lia.
    destruct (Q i Hi) as (z & E & _ & R1). rewrite E. exact R1.
Qed.
Theorem per_channel_prng_main rf bits u x : (1 <= bits)%nat -> (forall s i, 0 <= rf s i < 1) -> wf x -> data x <> [] -> shape x <> [] ->
  exists q seed mm y, stage_round_trip (per_channel_prng_stage rf bits) u x [("quantized_values"%string, F q); ("seed"%string, I seed); ("min_max"%string, F mm)] y /\ shape y = shape x /\ wf y /\
  (forall v, In v (data q) -> exists z, v = IZR z /\ (0 <= z <= 2 ^ Z.of_nat bits - 1)%Z) /\
  let dim := List.last (shape x) O in
  forall i, (i < prod (shape x))%nat -> exists lo hi, channel_range dim (data x) (i mod dim) lo hi /\
    Rabs (nth i (data y) 0 - nth i (data x) 0) <= 1/2 * ((hi - lo) / IZR (2 ^ Z.of_nat bits - 1)).
Proof.
  intros B U W N H. destruct (last_dim_ok x W N H) as (d & b & Ed & El & Pd & Pb & L). cbn zeta. rewrite <- El.
  set (lo := pc_min d (data x)). set (hi := pc_max d (data x)). set (m := IZR (2 ^ Z.of_nat bits - 1)). set (seed := draw_seed u).
  set (sc := pc_scaled d lo hi m (data x)). set (q := indexed (fun i w => quantize1 true (rf seed i) w) sc). set (q' := indexed (fun i w => w + rf seed i - 1/2) q).
  assert (Lq : List.length q = List.length (data x)) by (unfold q, sc; now rewrite indexed_len, scaled_len).
  assert (Lq' : List.length q' = List.length (data x)) by (unfold q'; now rewrite indexed_len).
  assert (Rg : forall i, (i < List.length (data x))%nat -> channel_range d (data x) (i mod d) (nth (i mod d) lo 0) (nth (i mod d) hi 0)).
  { intros i Hi. apply (pc_range d b); auto. apply Nat.mod_upper_bound. lia. }
  assert (Q : forall i, (i < List.length (data x))%nat -> exists z, nth i q 0 = IZR z /\ (0 <= z <= top bits)%Z /\
     let lo := nth (i mod d) lo 0 in let hi := nth (i mod d) hi 0 in let v := nth i (data x) 0 in let y := (IZR z + rf seed i - 1/2) / IZR (top bits) * (hi - lo) + lo in
     Rabs (y - v) <= 1/2 * ((hi - lo) / IZR (top bits))).
  { intros i Hi. destruct (Rg i Hi) as (_ & _ & R1). destruct (prng_oneR (rf seed i) bits _ _ _ B (U seed i) (R1 i Hi eq_refl)) as (z & E & R2 & R3). exists z. split; [|auto].
    unfold q. rewrite indexed_nth by (unfold sc; rewrite scaled_len; exact Hi). unfold sc. rewrite scaled_nth by exact Hi. exact E. }
  exists (mkT [(List.length (data x) / d)%nat; d] q), seed, (mkT [2%nat; d] (lo ++ hi)), (mkT (shape x) (pc_unscaled d lo hi m q')).
  split; [|split; [reflexivity|split; [|split]]].
  - split.
    + cbn [s_encode per_channel_prng_stage float bind]. rewrite Ed. reflexivity.
    + cbn [s_decode per_channel_prng_stage s_needs_shape]. unfold dindex. cbn [dget String.eqb Ascii.eqb Bool.eqb bind float ints unstack2 shape data need].
      destruct (firstn_min d (data x)) as (F1 & F2). fold lo hi in F1, F2. rewrite F1, F2. cbn [s_params per_channel_prng_stage snd p_dict max_param dget String.eqb Ascii.eqb Bool.eqb bind nth].
      fold m q'. unfold reshape. cbn [data]. rewrite unscaled_len, Lq'. unfold wf in W. rewrite W, Nat.eqb_refl. reflexivity.
  - unfold wf in *. cbn [data shape]. rewrite unscaled_len. congruence.
  - cbn [data]. intros v Hv. apply (In_nth _ _ 0) in Hv. destruct Hv as (i & Hi & <-). destruct (Q i ltac:(lia)) as (z & E & R1 & _). exists z. split; [exact E|exact R1].
  - intros i Hi. unfold wf in W. rewrite <- W in Hi. exists (nth (i mod d) lo 0), (nth (i mod d) hi 0). split; [now apply Rg|]. cbn [data]. rewrite unscaled_nth by lia.
    unfold q'. rewrite indexed_nth by lia. destruct (Q i Hi) as (z & E & _ & R1). rewrite E. exact R1.
Qed.

(** * Clipping *)
Lemma sumsq_nonneg z : 0 <= sumR (map (fun a => a * a) z).
Proof. induction z; cbn [map sumR]; [lra|nra]. Qed.
Lemma dist2_scale x k : dist2 (map (fun v => v * k) x) x = norm2 x * Rabs (1 - k).
Proof.
  unfold dist2, norm2. rewrite <- (sqrt_Rsqr_abs (1 - k)). rewrite <- sqrt_mult by (try apply sumsq_nonneg; apply Rle_0_sqr). f_equal. unfold Rsqr. rewrite (Rmult_comm (sumR _)).
  induction x as [|a x IH]; cbn [map combine sumR fst snd]; [ring|]. rewrite IH. ring.
Qed.
Lemma dist2_refl x : dist2 x x = 0.
Proof. unfold dist2. replace (sumR _) with 0; [apply sqrt_0|]. induction x as [|a x IH]; cbn [map combine sumR fst snd]; [reflexivity|]. rewrite <- IH. ring. Qed.
Lemma scale_norm x k : 0 <= k -> norm2 (map (fun v => v * k) x) = norm2 x * k.
Proof. intros K. exact (norm_scale k x K). Qed.
(** Cauchy-Schwarz and the triangle inequality for lists. *)
Definition dot (x y : list R) : R := sumR (map (fun p => fst p * snd p) (combine x y)).
Lemma cauchy x : forall y, List.length x = List.length y -> dot x y * dot x y <= sumR (map (fun a => a * a) x) * sumR (map (fun a => a * a) y).
Proof.
  unfold dot. induction x as [|a x IH]; intros [|b y] L; try discriminate; cbn [map combine sumR fst snd]; [lra|].
  injection L as L. specialize (IH y L). pose proof (sumsq_nonneg x) as PX. pose proof (sumsq_nonneg y) as PY.
  set (X := sumR (map (fun a => a * a) x)) in *. set (Y := sumR (map (fun a => a * a) y)) in *. set (D := sumR (map (fun p => fst p * snd p) (combine x y))) in *.
  assert (Q : 2 * (a * b * D) <= a * a * Y + b * b * X).
  { destruct (Req_dec X 0) as [EX|NX].
    - assert (D * D <= 0) by (rewrite EX in IH; lra). assert (D = 0) by nra. rewrite H0, EX. nra.
    - assert (0 < X) by lra. assert (0 <= (b * X - a * D) * (b * X - a * D)) by apply Rle_0_sqr.
      assert (X * (2 * (a * b * D)) <= X * (a * a * Y + b * b * X)).
      { apply Rle_trans with (b * b * X * X + a * a * (D * D)); [nra|]. assert (0 <= a * a) by apply Rle_0_sqr. assert (a * a * (D * D) <= a * a * (X * Y)) by (apply Rmult_le_compat_l; lra). nra. }
      apply Rmult_le_reg_l with X; lra. }
  nra.
Qed.
Lemma dist_norm x : forall z, List.length z = List.length x -> sumR (map (fun p => (fst p - snd p) * (fst p - snd p)) (combine z x)) = sumR (map (fun a => a * a) z) - 2 * dot z x + sumR (map (fun a => a * a) x).
Proof. unfold dot. induction x as [|a x IH]; intros [|b z] L; try discriminate; cbn [map combine sumR fst snd]; [ring|]. injection L as L; rewrite (IH z L). ring. Qed.
Lemma reverse_triangle x z : List.length z = List.length x -> norm2 x - norm2 z <= dist2 z x.
Proof.
  intros L. destruct (Rle_dec (norm2 x - norm2 z) 0) as [H|H]; [pose proof (sqrt_pos (sumR (map (fun p => (fst p - snd p) * (fst p - snd p)) (combine z x)))); unfold dist2; lra|].
  unfold dist2. rewrite dist_norm by exact L.
  pose proof (sumsq_nonneg x) as PX. pose proof (sumsq_nonneg z) as PZ. pose proof (cauchy z x L) as CS.
  assert (NX : norm2 x * norm2 x = sumR (map (fun a => a * a) x)) by (apply sqrt_sqrt; exact PX). assert (NZ : norm2 z * norm2 z = sumR (map (fun a => a * a) z)) by (apply sqrt_sqrt; exact PZ).
  rewrite <- NX, <- NZ in *. pose proof (norm_nonneg x). pose proof (norm_nonneg z).
  assert (DL : dot z x <= norm2 z * norm2 x). { destruct (Rle_dec (dot z x) (norm2 z * norm2 x)); [assumption|]. exfalso. assert (0 <= norm2 z * norm2 x) by nra. nra. }
  rewrite <- (sqrt_square (norm2 x - norm2 z)) by lra. apply sqrt_le_1_alt. nra.
Qed.
Lemma clip_norm_main c t : 0 < c -> let y := clip_by_norm c t in
  shape y = shape t /\ List.length (data y) = List.length (data t) /\ norm2 (data y) <= c /\ (norm2 (data t) <= c -> y = t) /\
  forall z, List.length z = List.length (data t) -> norm2 z <= c -> dist2 (data y) (data t) <= dist2 z (data t).
Proof.
  intros C. cbn zeta. unfold clip_by_norm. set (x := data t). pose proof (norm_nonneg x) as Nx.
  assert (E : forall k, c / Rmax (norm2 x) c = k -> data (tmap (fun v => v * c / Rmax (norm2 x) c) t) = map (fun v => v * k) x).
  { intros k <-. unfold tmap. cbn [data]. fold x. apply map_ext. intros v. unfold Rdiv. ring. }
  split; [reflexivity|]. split; [unfold tmap; cbn [data]; apply map_length|].
  destruct (Rle_dec (norm2 x) c) as [H|H].
  - assert (K : c / Rmax (norm2 x) c = 1) by (rewrite Rmax_right by exact H; field; lra). specialize (E 1 K).
    assert (I1 : map (fun v => v * 1) x = x) by (rewrite <- (map_id x) at 2; apply map_ext; intros; ring). rewrite I1 in E. rewrite E.
    split; [exact H|]. split; [intros _; change (mkT (shape t) (data (tmap (fun v => v * c / Rmax (norm2 x) c) t)) = t); rewrite E; unfold x; destruct t; reflexivity|].
    intros z _ _. rewrite dist2_refl. apply sqrt_pos.
  - assert (K : c / Rmax (norm2 x) c = c / norm2 x) by (rewrite Rmax_left by lra; reflexivity). specialize (E _ K). rewrite E.
    assert (K0 : 0 <= c / norm2 x <= 1). { split; [left; apply Rdiv_lt_0_compat; lra|]. apply Rmult_le_reg_r with (norm2 x); [lra|]. unfold Rdiv. rewrite Rmult_assoc, Rinv_l by lra. lra. }
    rewrite scale_norm by apply K0. split; [right; field; lra|]. split; [intros; lra|]. intros z Lz Nz. rewrite dist2_scale, Rabs_pos_eq by lra.
    apply Rle_trans with (norm2 x - norm2 z); [|now apply reverse_triangle]. replace (norm2 x * (1 - c / norm2 x)) with (norm2 x - c) by (field; lra). lra.
Qed.
Lemma clip_stages_commute {I} (is : list I) : is <> [] -> (forall c, declared_commutation is float_sum (clip_norm_stage c)) /\ (forall lo hi, declared_commutation is float_sum (clip_value_stage lo hi)).
Proof.
  intros NE. assert (H : forall s : cstage, (forall d p n sh, s_decode s d p n sh = dindex "clipped_values" d) -> declared_commutation is float_sum s).
  { intros s Hs _ ds d st sh ys. cbn zeta. rewrite Hs. intros S D.
    destruct (get_key is NE "clipped_values" ds d S) as (xs & y & E & Ei & W & Fx & Sx).
    { intros i Hi Z. specialize (D i Hi). rewrite Hs in D. unfold dindex in D. rewrite Z in D. discriminate. }
    exists (F y). unfold dindex. rewrite E. split; [reflexivity|]. apply float_sum_map. exists xs, y. split; [|repeat split; auto; apply Fx; auto].
    intros i Hi. specialize (D i Hi). rewrite Hs in D. unfold dindex in D. rewrite (Ei i Hi) in D. congruence. }
  split; intros; apply H; reflexivity.
Qed.
