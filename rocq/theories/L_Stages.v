(** Lemmas about the elementwise encoding stages. *)
From Verif Require Import Base M_Num L_Num M_Stages.
From Coq Require Import Qfield Lqa.
Open Scope Q_scope.

Lemma lmin_le l : forall a, lmin a l <= a /\ Forall (fun v => lmin a l <= v) l /\ In (lmin a l) (a :: l).
Proof.
  induction l as [|b r IH]; intros a; cbn [lmin].
  - repeat split; [lra|constructor|now left].
  - destruct (IH b) as (A & B & C). destruct (qmin_spec a (lmin b r)) as [[H ->]|[H ->]].
    + split; [lra|]. split; [|now left]. constructor; [lra|]. eapply Forall_impl; [|exact B]. cbn; intros; lra.
    + split; [lra|]. split; [|now right]. constructor; [lra|]. exact B.
Qed.
Lemma lmax_ge l : forall a, a <= lmax a l /\ Forall (fun v => v <= lmax a l) l /\ In (lmax a l) (a :: l).
Proof.
  induction l as [|b r IH]; intros a; cbn [lmax].
  - repeat split; [lra|constructor|now left].
  - destruct (IH b) as (A & B & C). destruct (qmax_spec a (lmax b r)) as [[H ->]|[H ->]].
    + split; [lra|]. split; [|now right]. constructor; [lra|]. exact B.
    + split; [lra|]. split; [|now left]. constructor; [lra|]. eapply Forall_impl; [|exact B]. cbn; intros; lra.
Qed.
Lemma reduce_min_spec l : l <> [] -> In (reduce_min l) l /\ forall v, In v l -> reduce_min l <= v.
Proof.
  destruct l as [|a r]; [congruence|]. intros _. destruct (lmin_le r a) as (A & B & C). split; [exact C|].
  intros v [<-|H]; [exact A|]. rewrite Forall_forall in B. now apply B.
Qed.
Lemma reduce_max_spec l : l <> [] -> In (reduce_max l) l /\ forall v, In v l -> v <= reduce_max l.
Proof.
  destruct l as [|a r]; [congruence|]. intros _. destruct (lmax_ge r a) as (A & B & C). split; [exact C|].
  intros v [<-|H]; [exact A|]. rewrite Forall_forall in B. now apply B.
Qed.

Lemma max_value_pos bits : (1 <= bits)%nat -> 1 <= max_value bits.
Proof.
  intros H. unfold max_value. change 1 with (inject_Z 1). rewrite <- Zle_Qle.
  assert (2 ^ 1 <= 2 ^ Z.of_nat bits)%Z by (apply Z.pow_le_mono_r; lia). lia.
Qed.

Lemma quantize_one_spec st u x : 0 <= u < 1 ->
  exists z, quantize_one st u x == inject_Z z /\
    inject_Z z - x < 1 /\ x - inject_Z z < 1 /\
    (st = false -> inject_Z z - x <= 1#2 /\ x - inject_Z z <= 1#2) /\
    (forall a b, inject_Z a <= x <= inject_Z b -> (a <= z <= b)%Z).
Proof.
  intros U. destruct st; cbn [quantize_one].
  - pose proof (floor_bounds x) as [F1 F2]. set (f := Qfloor x) in *. clearbody f.
    destruct (qltb u (x - inject_Z f)) eqn:E.
    + apply qltb_iff in E. exists (f + 1)%Z. rewrite inject_Z_plus. cbn [b2q]. change (inject_Z 1) with 1.
      split; [lra|]. split; [lra|]. split; [lra|]. split; [discriminate|]. intros a b [A B]. split.
      * assert (a <= f)%Z by (apply inj_lt_succ; lra). lia.
      * assert (inject_Z f < inject_Z b) as K by lra. rewrite <- Zlt_Qlt in K. lia.
    + apply qltb_false in E. exists f. cbn [b2q].
      split; [lra|]. split; [lra|]. split; [lra|]. split; [discriminate|]. intros a b [A B]. split.
      * apply inj_lt_succ; lra.
      * apply inj_lt_succ; lra.
  - exists (round_half_even x). pose proof (round_lo x). pose proof (round_hi x).
    split; [reflexivity|]. split; [lra|]. split; [lra|]. split; [intros _; split; lra|].
    intros a b H2. now apply round_bounds.
Qed.

Lemma div_no_nan_spec a b : (b == 0 /\ div_no_nan a b = 0) \/ (~ b == 0 /\ div_no_nan a b = a / b).
Proof.
  unfold div_no_nan. destruct (Qeq_bool b 0) eqn:E.
  - left. split; [now apply Qeq_bool_iff|reflexivity].
  - right. split; [|reflexivity]. intro H. apply Qeq_bool_iff in H. congruence.
Qed.

(** One value: code and decoded value. *)
Lemma uq_one st u bits lo hi v : (1 <= bits)%nat -> 0 <= u < 1 -> lo <= v <= hi ->
  exists z, quantize_one st u (uq_scale bits lo hi v) == inject_Z z /\ (0 <= z <= 2 ^ Z.of_nat bits - 1)%Z /\
   (v == lo -> z = 0%Z) /\ (v == hi -> lo < hi -> z = (2 ^ Z.of_nat bits - 1)%Z) /\
   forall y, y == inject_Z z / max_value bits * (hi - lo) + lo ->
     (lo == hi -> y == v) /\ (lo < hi -> Qabs (y - v) < (hi - lo) / max_value bits) /\
     (st = false -> Qabs (y - v) <= (1#2) * ((hi - lo) / max_value bits)).
Proof.
  intros B U V. pose proof (max_value_pos bits B) as M.
  destruct (quantize_one_spec st u (uq_scale bits lo hi v) U) as (z & Z1 & Z2 & Z3 & Z4 & Z5).
  exists z. split; [exact Z1|]. unfold uq_scale in *.
  destruct (div_no_nan_spec (v - lo) (hi - lo)) as [[D E]|[D E]]; rewrite E in *; clear E.
  - assert (z = 0)%Z as ->. { assert (0 <= z <= 0)%Z; [|lia]. apply Z5. change (inject_Z 0) with 0. split; lra. }
    split; [|split; [reflexivity|split; [intros; lra|]]].
    + unfold max_value in M. change 1 with (inject_Z 1) in M. rewrite <- Zle_Qle in M. lia.
    + intros y Y. change (inject_Z 0) with 0 in Y. unfold Qdiv in Y. rewrite Qmult_0_l, Qmult_0_l in Y.
      split; [intros; lra|]. split; [intros; lra|]. intros _. apply Qabs_Qle_condition.
      assert ((hi - lo) / max_value bits == 0) as -> by (rewrite D; unfold Qdiv; lra). lra.
  - assert (lo < hi) as LT. { apply Qnot_le_lt. intros K. apply D. lra. }
    set (m := max_value bits) in *.
    set (k := (v - lo) / (hi - lo)) in *.
    assert (k * (hi - lo) == v - lo) as K by (unfold k; field; lra).
    assert (0 <= k) as K0 by (apply Qle_shift_div_l; lra).
    assert (k <= 1) as K1 by (apply Qle_shift_div_r; lra).
    assert (0 <= k * m) as S0 by (apply Qmult_le_0_compat; lra).
    assert (k * m <= m) as S1. { setoid_replace m with (1 * m) at 2 by lra. apply Qmult_le_compat_r; lra. }
    split; [|split; [|split]].
    + apply Z5. change (inject_Z 0) with 0. fold (max_value bits). fold m. lra.
    + intros E. assert (0 <= z <= 0)%Z; [|lia]. apply Z5. change (inject_Z 0) with 0.
      assert (k == 0) as -> by (unfold k; rewrite E; field; lra). lra.
    + intros E _. assert (2 ^ Z.of_nat bits - 1 <= z <= 2 ^ Z.of_nat bits - 1)%Z; [|lia]. apply Z5.
      fold (max_value bits). fold m. assert (k == 1) as -> by (unfold k; rewrite E; field; lra). lra.
    + intros y Y. split; [intros; lra|].
      assert (y - v == (inject_Z z - k * m) * ((hi - lo) / m)) as R.
      { rewrite Y. assert (v == k * (hi - lo) + lo) as -> by lra. field. lra. }
      assert (0 < (hi - lo) / m) as P. { apply Qlt_shift_div_l; lra. }
      set (s := (hi - lo) / m) in *.
      split.
      * intros _. rewrite R. apply Qabs_case; intros.
        -- setoid_replace s with (1 * s) at 2 by lra. apply Qmult_lt_compat_r; lra.
        -- setoid_replace (- ((inject_Z z - k * m) * s)) with ((k * m - inject_Z z) * s) by lra.
           setoid_replace s with (1 * s) at 2 by lra. apply Qmult_lt_compat_r; lra.
      * intros ST. destruct (Z4 ST) as [P1 P2]. rewrite R. apply Qabs_case; intros.
        -- apply Qmult_le_compat_r; lra.
        -- setoid_replace (- ((inject_Z z - k * m) * s)) with ((k * m - inject_Z z) * s) by lra.
           apply Qmult_le_compat_r; lra.
Qed.

Lemma nth_error_map_combine_seq {A B} (f : nat * A -> B) (l : list A) i :
  nth_error (map f (combine (seq 0 (length l)) l)) i = option_map (fun a => f (i, a)) (nth_error l i).
Proof.
  assert (forall k, nth_error (map f (combine (seq k (length l)) l)) i = option_map (fun a => f (k + i, a)%nat) (nth_error l i)) as H.
  { revert i. induction l as [|a r IH]; intros i k; destruct i; cbn; try reflexivity.
    - now rewrite Nat.add_0_r.
    - rewrite IH. destruct (nth_error r i); cbn [option_map]; [|reflexivity]. replace (S k + i)%nat with (k + S i)%nat by lia. reflexivity. }
  apply (H 0%nat).
Qed.
Lemma length_map_combine_seq {A B} (f : nat * A -> B) (l : list A) : length (map f (combine (seq 0 (length l)) l)) = length l.
Proof. rewrite map_length, combine_length, seq_length. lia. Qed.

From Verif Require Import S_Stages.

Lemma mk_uq_inv bits mm st s : mk_uq bits mm st = Ok s ->
  uq_bits s = bits /\ uq_stochastic s = st /\ (1 <= bits <= 16)%nat /\
  match mm with None => uq_min_max s = None
  | Some l => exists a b, l = [a; b] /\ a < b /\ uq_min_max s = Some (a, b) end.
Proof.
  unfold mk_uq. destruct (negb _) eqn:E; [discriminate|]. apply negb_false_iff, andb_true_iff in E.
  destruct E as [E1 E2]. apply Nat.leb_le in E1, E2.
  destruct mm as [[|a [|b [|]]]|]; try discriminate.
  - destruct (Qle_bool b a) eqn:F; [discriminate|]. intros [= <-]. cbn. apply Qle_bool_false in F. repeat split; auto; eauto 6.
  - intros [= <-]. cbn. auto.
Qed.

Lemma uq_range_ok bits mm st s x : mk_uq bits mm st = Ok s -> x <> [] ->
  let '(lo, hi) := uq_range s x in working_range mm x lo hi /\ lo <= hi /\
  forall a, In a x -> clipped_to lo hi a (uq_clip s a) /\ lo <= uq_clip s a <= hi.
Proof.
  intros H N. apply mk_uq_inv in H. destruct H as (_ & _ & _ & H). unfold uq_range, uq_clip.
  destruct mm as [l|].
  - destruct H as (a & b & -> & L & ->). split; [reflexivity|]. split; [lra|]. intros v _. unfold clip, clipped_to.
    destruct (qmax_spec a v) as [[A ->]|[A ->]]; [destruct (qmin_spec b v) as [[B ->]|[B ->]]|destruct (qmin_spec b a) as [[B ->]|[B ->]]];
     (split; [|lra]).
    + right; left. lra. + right; right; lra. + left; lra. + left; lra.
  - rewrite H. destruct (reduce_min_spec x N) as [A B], (reduce_max_spec x N) as [C D].
    split; [cbn; repeat split; auto|]. split; [now apply B|].
    intros v V. specialize (B v V). specialize (D v V). split; [|lra]. right; right; lra.
Qed.

Theorem uq_main bits mm st s u x : mk_uq bits mm st = Ok s -> x <> [] -> (forall i, 0 <= u i < 1) ->
  exists y lo hi, uq_decode s (uq_encode s u x) None = Ok y /\ length y = length x /\ working_range mm x lo hi /\
  let step := (hi - lo) / (inject_Z (2 ^ Z.of_nat bits - 1)) in
  forall i a, nth_error x i = Some a -> exists b c, nth_error y i = Some b /\ clipped_to lo hi a c /\
    (lo < hi -> Qabs (b - c) < step) /\ (st = false -> Qabs (b - c) <= (1#2) * step) /\ (c == lo \/ c == hi -> b == c).
Proof.
  intros H N U. pose proof (uq_range_ok bits mm st s x H N) as R. apply mk_uq_inv in H. destruct H as (Hb & Hs & Hbits & Hm).
  unfold uq_encode. destruct (uq_range s x) as [lo hi] eqn:ER. destruct R as (W & LH & C).
  set (f := fun iv : nat * Q => quantize_one (uq_stochastic s) (u (fst iv)) (uq_scale (uq_bits s) lo hi (uq_clip s (snd iv)))).
  exists (map (fun q => q / max_value (uq_bits s) * (hi - lo) + lo) (map f (combine (seq 0 (length x)) x))), lo, hi.
  split; [|split; [|split; [exact W|]]].
  - unfold uq_decode, uq_range in *. cbn [fst snd]. destruct (uq_min_max s) as [[? ?]|]; inversion ER; reflexivity.
  - now rewrite map_length, length_map_combine_seq.
  - cbn zeta. fold (max_value bits). intros i a Ha.
    assert (In a x) as Ia by (eapply nth_error_In; eauto). destruct (C a Ia) as [C1 C2].
    destruct (uq_one st (u i) bits lo hi (uq_clip s a) ltac:(lia) (U i) C2) as (z & Z1 & Z2 & Z3 & Z4 & Z5).
    exists (f (i, a) / max_value bits * (hi - lo) + lo), (uq_clip s a).
    split.
    + rewrite nth_error_map, nth_error_map_combine_seq, Ha. cbn. now rewrite Hb.
    + split; [exact C1|]. specialize (Z5 (f (i, a) / max_value bits * (hi - lo) + lo)). unfold f in *. cbn [fst snd] in *.
      rewrite Hb, Hs in *. destruct Z5 as (Y1 & Y2 & Y3); [now rewrite Z1|].
      split; [exact Y2|]. split; [exact Y3|].
      pose proof (max_value_pos bits ltac:(lia)) as M.
      intros [E|E].
      * rewrite Z1, (Z3 E). rewrite E. change (inject_Z 0) with 0. field. lra.
      * destruct (Qlt_le_dec lo hi) as [L|L]; [|apply Y1; lra].
        rewrite Z1, (Z4 E L). rewrite E. fold (max_value bits). field. lra.
Qed.

Theorem uq_codes bits mm st s u x : mk_uq bits mm st = Ok s -> x <> [] -> (forall i, 0 <= u i < 1) ->
  length (fst (uq_encode s u x)) = length x /\
  forall q, In q (fst (uq_encode s u x)) -> exists z, q == inject_Z z /\ (0 <= z <= 2 ^ Z.of_nat bits - 1)%Z.
Proof.
  intros H N U. pose proof (uq_range_ok bits mm st s x H N) as R. apply mk_uq_inv in H. destruct H as (Hb & Hs & Hbits & Hm).
  unfold uq_encode. destruct (uq_range s x) as [lo hi] eqn:ER. destruct R as (W & LH & C). cbn [fst].
  split; [apply length_map_combine_seq|]. intros q Q. apply In_nth_error in Q. destruct Q as [i Q].
  rewrite nth_error_map_combine_seq in Q. destruct (nth_error x i) as [a|] eqn:Ha; [|discriminate]. cbn in Q. injection Q as <-.
  destruct (C a (nth_error_In _ _ Ha)) as [_ C2].
  destruct (uq_one st (u i) bits lo hi (uq_clip s a) ltac:(lia) (U i) C2) as (z & Z1 & Z2 & _).
  exists z. rewrite Hb, Hs. auto.
Qed.

Lemma sumQ_scale {A} (f g : A -> Q) k c l : (forall a, In a l -> g a == f a * k + c) ->
  sumQ (map g l) == sumQ (map f l) * k + c * inject_Z (Z.of_nat (length l)).
Proof.
  induction l as [|a r IH]; intros H; cbn [map sumQ length].
  - change (inject_Z (Z.of_nat 0)) with 0. lra.
  - rewrite IH by (intros; apply H; now right). rewrite (H a (or_introl eq_refl)).
    rewrite Nat2Z.inj_succ. unfold Z.succ. rewrite inject_Z_plus. change (inject_Z 1) with 1. lra.
Qed.

Theorem uq_sum bits mm st s n es ms v : mk_uq bits mm st = Ok s -> uq_commutes s = true ->
  Forall (fun e => length e = n) es -> length ms = length es -> is_vector_sum n es v -> forall m,
  exists y ys, uq_decode s (v, m) (Some (Z.of_nat (length es))) = Ok y /\
    mapM (fun e => uq_decode s e None) (combine es ms) = Ok ys /\ is_vector_sum n ys y.
Proof.
  intros H Cm L Lm [V1 V2] m. unfold uq_commutes in Cm. pose proof (mk_uq_inv _ _ _ _ H) as (Hb & _ & Hbits & _).
  destruct (uq_min_max s) as [[lo hi]|] eqn:E; [|discriminate].
  set (g := fun q => q / max_value (uq_bits s) * (hi - lo) + lo).
  exists (map (fun q => q / max_value (uq_bits s) * (hi - lo) + lo * inject_Z (Z.of_nat (length es))) v), (map (map g) es).
  split; [unfold uq_decode, uq_commutes; rewrite E; reflexivity|]. split.
  - clear V1 V2 L. revert ms Lm. induction es as [|e r IH]; intros ms Lm; [reflexivity|]. destruct ms as [|m0 ms]; [discriminate|].
    cbn [combine mapM map]. rewrite IH by (cbn in Lm; lia). unfold uq_decode at 1. rewrite E. reflexivity.
  - split; [now rewrite map_length|]. intros i Hi.
    rewrite map_map.
    set (h := fun q => q / max_value (uq_bits s) * (hi - lo) + lo * inject_Z (Z.of_nat (length es))).
    rewrite (nth_indep _ 0 (h 0)) by (rewrite map_length; lia). rewrite map_nth. unfold h.
    rewrite V2 by auto.
    rewrite (sumQ_scale (fun e => nth i e 0) (fun e => nth i (map g e) 0) ((hi - lo) / max_value (uq_bits s)) lo).
    + pose proof (max_value_pos bits ltac:(lia)). rewrite Hb. field. lra.
    + intros e He. rewrite Forall_forall in L. specialize (L e He).
      rewrite (nth_indep _ 0 (g 0)) by (rewrite map_length; lia). rewrite map_nth. unfold g.
      pose proof (max_value_pos bits ltac:(lia)). rewrite Hb. field. lra.
Qed.

(** PRNG stage. *)
Theorem prng_main bits u x : (1 <= bits)%nat -> x <> [] -> (forall i, 0 <= u i < 1) ->
  exists lo hi, working_range None x lo hi /\
  let y := prng_decode bits u (prng_encode bits u x) in
  length y = length x /\ forall i a, nth_error x i = Some a -> exists b, nth_error y i = Some b /\
    Qabs (b - a) <= (1#2) * ((hi - lo) / inject_Z (2 ^ Z.of_nat bits - 1)).
Proof.
  intros B N U. unfold prng_decode, prng_encode.
  destruct (reduce_min_spec x N) as [M1 M2], (reduce_max_spec x N) as [X1 X2].
  set (lo := reduce_min x) in *. set (hi := reduce_max x) in *. clearbody lo hi.
  exists lo, hi. split; [cbn; auto|]. cbn zeta.
  split; [now rewrite length_map_combine_seq, length_map_combine_seq|].
  intros i a Ha.
  eexists. split.
  - rewrite nth_error_map_combine_seq, nth_error_map_combine_seq, Ha. cbn [option_map]. reflexivity.
  - cbn [fst snd]. fold (max_value bits). pose proof (max_value_pos bits B) as M. set (m := max_value bits) in *.
    assert (In a x) as Ia by (eapply nth_error_In; eauto). specialize (M2 a Ia). specialize (X2 a Ia). specialize (U i).
    unfold quantize_one, uq_scale. fold m.
    destruct (div_no_nan_spec (a - lo) (hi - lo)) as [[D E]|[D E]]; rewrite E in *; clear E.
    + apply Qabs_Qle_condition. assert ((hi - lo) / m == 0) as -> by (rewrite D; unfold Qdiv; lra).
      rewrite D. split; rewrite Qmult_0_r; lra.
    + assert (lo < hi) as LT. { apply Qnot_le_lt. intros K. apply D. lra. }
      set (k := (a - lo) / (hi - lo)) in *.
      assert (a == k * (hi - lo) + lo) as K by (unfold k; field; lra).
      pose proof (floor_bounds (k * m)) as [F1 F2]. set (f := inject_Z (Qfloor (k * m))) in *. clearbody f k.
      set (w := f + b2q (qltb (u i) (k * m - f)) + u i - (1#2)).
      assert (Qabs (w - k * m) <= 1#2) as W.
      { unfold w. apply Qabs_Qle_condition. destruct (qltb (u i) (k * m - f)) eqn:E; cbn [b2q].
        - apply qltb_iff in E. lra.
        - apply qltb_false in E. lra. }
      clearbody w. clear F1 F2.
      assert (w / m * (hi - lo) + lo - a == (w - k * m) * ((hi - lo) / m)) as R by (rewrite K; field; lra).
      assert (0 < (hi - lo) / m) as P. { apply Qlt_shift_div_l; lra. }
      rewrite R. rewrite Qabs_Qmult. rewrite (Qabs_pos ((hi - lo) / m)) by lra. apply Qmult_le_compat_r; lra.
Qed.

(** Splitting. *)
Lemma filter_combine_find (t : Q) : forall (x : list Q) k i,
  find (fun p : nat * Q => Nat.eqb (fst p) (k + i)) (filter (fun iv => qltb t (Qabs (snd iv))) (combine (seq k (length x)) x))
  = match nth_error x i with Some a => if qltb t (Qabs a) then Some (k + i, a)%nat else None | None => None end.
Proof.
  induction x as [|a r IH]; intros k i; cbn [length seq combine filter nth_error].
  - now destruct i.
  - assert (forall j, find (fun p : nat * Q => Nat.eqb (fst p) (S k + j)) (filter (fun iv => qltb t (Qabs (snd iv))) (combine (seq (S k) (length r)) r)) =
       match nth_error r j with Some a => if qltb t (Qabs a) then Some (S k + j, a)%nat else None | None => None end) as IH' by (intros; apply IH).
    assert (forall l, find (fun p : nat * Q => Nat.eqb (fst p) (k + 0)) (filter (fun iv => qltb t (Qabs (snd iv))) (combine (seq (S k) l) r)) = None) as NO.
    { intros l. destruct (find _ _) as [p|] eqn:E; [|reflexivity]. apply find_some in E. destruct E as [E1 E2].
      apply filter_In in E1. destruct E1 as [E1 _]. destruct p as [j w]. apply in_combine_l in E1. apply in_seq in E1. apply Nat.eqb_eq in E2. cbn in E2. lia. }
    destruct i as [|i].
    + cbn [snd]. destruct (qltb t (Qabs a)) eqn:E.
      * cbn [find fst]. rewrite Nat.add_0_r, Nat.eqb_refl. cbn [nth_error]. now rewrite E.
      * cbn [nth_error]. rewrite E. apply NO.
    + cbn [snd]. replace (k + S i)%nat with (S k + i)%nat by lia.
      destruct (qltb t (Qabs a)) eqn:E; [|apply IH'].
      cbn [find fst]. replace (Nat.eqb k (S k + i)) with false by (symmetry; apply Nat.eqb_neq; lia). apply IH'.
Qed.
Lemma nth_error_ext_local {A} (l m : list A) : (forall i, nth_error l i = nth_error m i) -> l = m.
Proof.
  revert m. induction l as [|a l IH]; destruct m as [|b m]; intros H; auto.
  - specialize (H 0%nat); discriminate. - specialize (H 0%nat); discriminate.
  - pose proof (H 0%nat) as K. cbn in K. injection K as ->. f_equal. apply IH. intros i. apply (H (S i)).
Qed.
Lemma combine_map_fst_snd {A B} (l : list (A * B)) : combine (map fst l) (map snd l) = l.
Proof. induction l as [|[a b] r IH]; cbn; congruence. Qed.

Theorem split_main t x : exists y, split_decode (split_encode t x) (length x) = Ok y /\
  y = map (fun a => if qltb t (Qabs a) then a else 0) x.
Proof.
  unfold split_decode, split_encode. cbn [fst snd]. set (keep := filter _ _).
  assert (forallb (fun i => (i <? length x)%nat) (map fst keep) = true) as ->.
  { apply forallb_forall. intros i Hi. apply in_map_iff in Hi. destruct Hi as ([j w] & <- & Hk). apply filter_In in Hk.
    destruct Hk as [Hk _]. apply in_combine_l in Hk. apply in_seq in Hk. cbn. apply Nat.ltb_lt. lia. }
  eexists. split; [reflexivity|]. unfold scatter. rewrite combine_map_fst_snd.
  apply nth_error_ext_local. intros i. rewrite !nth_error_map.
  destruct (nth_error x i) as [a|] eqn:E.
  - assert (i < length x)%nat by (apply nth_error_Some; congruence).
    rewrite (nth_error_nth' (seq 0 (length x)) 0%nat) by now rewrite seq_length. rewrite seq_nth by auto. cbn [option_map].
    unfold keep. rewrite (filter_combine_find t x 0 i), E. destruct (qltb t (Qabs a)); reflexivity.
  - apply nth_error_None in E. assert (nth_error (seq 0 (length x)) i = None) as -> by (apply nth_error_None; now rewrite seq_length). reflexivity.
Qed.

(** Differencing. *)
Lemma wrap_range w z : (1 <= w)%nat -> (- 2 ^ (Z.of_nat w - 1) <= z < 2 ^ (Z.of_nat w - 1))%Z -> wrap w z = z.
Proof.
  intros W H. unfold wrap. assert (2 ^ Z.of_nat w = 2 * 2 ^ (Z.of_nat w - 1))%Z as E.
  { replace (Z.of_nat w) with (Z.succ (Z.of_nat w - 1)) at 1 by lia. rewrite Z.pow_succ_r; lia. }
  rewrite E. set (h := (2 ^ (Z.of_nat w - 1))%Z) in *.
  destruct (Z.le_gt_cases 0 z).
  - rewrite Z.mod_small by lia. destruct (z <? h)%Z eqn:F; lia.
  - assert (z mod (2 * h) = z + 2 * h)%Z as ->. { symmetry. apply Z.mod_unique with (-1)%Z; lia. }
    destruct (z + 2 * h <? h)%Z eqn:F; lia.
Qed.
Lemma wrap_congr w a b : ((a - b) mod 2 ^ Z.of_nat w = 0)%Z -> wrap w a = wrap w b.
Proof.
  intros H. unfold wrap. replace (a mod 2 ^ Z.of_nat w)%Z with (b mod 2 ^ Z.of_nat w)%Z; [reflexivity|].
  pose proof (Z.pow_pos_nonneg 2 (Z.of_nat w)).
  rewrite (Z.div_mod (a - b) (2 ^ Z.of_nat w)) in H by lia.
  pose proof (Z.div_mod (a - b) (2 ^ Z.of_nat w) ltac:(lia)) as D.
  assert ((a - b) mod 2 ^ Z.of_nat w = 0)%Z as M. { rewrite <- (Z.div_mod (a - b) (2 ^ Z.of_nat w)) in H by lia. exact H. }
  replace a with (b + (a - b) / 2 ^ Z.of_nat w * 2 ^ Z.of_nat w)%Z by lia. now rewrite Z.mod_add by lia.
Qed.
Lemma wrap_mod w z : ((z - wrap w z) mod 2 ^ Z.of_nat w = 0)%Z.
Proof.
  unfold wrap. pose proof (Z.pow_pos_nonneg 2 (Z.of_nat w) ltac:(lia) ltac:(lia)) as P. set (m := (2 ^ Z.of_nat w)%Z) in *.
  pose proof (Z.div_mod z m ltac:(lia)) as D.
  destruct (_ <? _)%Z.
  - replace (z - z mod m)%Z with (z / m * m)%Z by lia. apply Z.mod_mul. lia.
  - replace (z - (z mod m - m))%Z with ((z / m + 1) * m)%Z by lia. apply Z.mod_mul. lia.
Qed.
Theorem diff_main w x : (1 <= w)%nat -> Forall (fun z => - 2 ^ (Z.of_nat w - 1) <= z < 2 ^ (Z.of_nat w - 1))%Z x ->
  diff_decode w (diff_encode w x) = x.
Proof.
  intros W. unfold diff_decode, diff_encode. generalize 0%Z as p. induction x as [|a r IH]; intros p H; cbn [diff_from cumsum_from]; [reflexivity|].
  inversion H as [|? ? Ha Hr]; subst.
  assert (wrap w (p + wrap w (a - p)) = a) as ->.
  { rewrite <- (wrap_range w a W Ha) at 2. apply wrap_congr.
    pose proof (wrap_mod w (a - p)) as M. apply Z.mod_divide in M; [|pose proof (Z.pow_pos_nonneg 2 (Z.of_nat w)); lia].
    destruct M as [k M]. replace (p + wrap w (a - p) - a)%Z with ((- k) * 2 ^ Z.of_nat w)%Z by lia.
    apply Z.mod_mul. pose proof (Z.pow_pos_nonneg 2 (Z.of_nat w)); lia. }
  f_equal. now apply IH.
Qed.
