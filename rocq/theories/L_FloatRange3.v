From Coq Require Import Reals Qabs Qpower Qreals.
From Flocq Require Import Core BinarySingleNaN.
From Verif Require Import Base M_Float32 S_Float32 M_FloatSchedule M_FloatQuant S_FloatQuant M_FloatRange S_FloatRange L_Float32 L_Float32b L_Float32c L_FloatSchedule L_FloatSchedule2 L_FloatQuant L_FloatQuant2 L_FloatCluster L_FloatCluster2 L_FloatRange L_FloatRange2.
From Coq Require Import Lra Psatz Lia.
Open Scope Q_scope.

Lemma run_app s calls c : run_range_f s (calls ++ [c]) = if fst c then update_range_f s (run_range_f s calls) (snd c) else run_range_f s calls.
Proof. unfold run_range_f. rewrite fold_left_app. reflexivity. Qed.
Definition batches (calls : list (bool * list f32)) : Prop := Forall (fun c => is_batch (snd c)) calls.
Lemma batches_app calls c : batches (calls ++ [c]) -> batches calls /\ is_batch (snd c).
Proof. intros H. apply Forall_app in H as [A B]. inversion B; subst. auto. Qed.
Lemma seen_app calls c v : seen (calls ++ [c]) v <-> seen calls v \/ (fst c = true /\ In v (snd c)).
Proof.
  split.
  - intros (x & A & B). apply in_app_iff in A. destruct A as [A|[A|[]]]; [left; now exists x|]. subst c. right. auto.
  - intros [(x & A & B)|[A B]]; [exists x; split; auto; apply in_app_iff; auto|]. exists (snd c). split; auto. apply in_app_iff. right. left. destruct c. cbn in *. now subst.
Qed.
Lemma run_ok s calls : bits_ok s -> batches calls -> okr (run_range_f s calls).
Proof.
  intros H. induction calls as [|c calls IH] using rev_ind; intros B. { apply init_ok. }
  apply batches_app in B as [B1 B2]. rewrite run_app. destruct (fst c); [|auto]. apply step_ok; auto.
Qed.
Lemma contains_zero_val r : okr r -> contains_zero r.
Proof. intros (A & B & C & D). split; [exact A|]. split; [exact B|]. rewrite !le_R, !number_val, zero_R. split; lra. Qed.
Theorem zero_always s calls : bits_ok s -> batches calls -> contains_zero (run_range_f s calls).
Proof. intros. now apply contains_zero_val, run_ok. Qed.
Lemma covers_val r v : covers r v <-> (val (fst r) <= val v <= val (snd r))%R.
Proof. unfold covers. rewrite !le_R, !number_val. tauto. Qed.

(** ** LastValue *)
Theorem last_covers s r x v : bits_ok s -> rs_kind s = LastValue -> is_batch x -> In v x -> covers (update_range_f s r x) v.
Proof. intros H K B V. apply covers_val. unfold update_range_f. rewrite K. now apply w_covers. Qed.
Theorem last_exact s r x : bits_ok s -> rs_kind s = LastValue -> rs_symmetric s = false -> is_batch x ->
  (number (fst (update_range_f s r x)) == 0 \/ exists v, In v x /\ number v == number (fst (update_range_f s r x))) /\
  (number (snd (update_range_f s r x)) == 0 \/ exists v, In v x /\ number v == number (snd (update_range_f s r x))).
Proof.
  intros H K SY B. destruct (batch_bounds x B) as (A1 & A2 & C & F1 & F2 & M1 & M2).
  destruct (widen_val (f_reduce_min x) (f_reduce_max x) (rs_bits s) (rs_narrow s) H F1 F2 M1 M2 (rs_symmetric s)) as (_ & _ & V1 & V2).
  unfold update_range_f. rewrite K. rewrite SY in *. split.
  - destruct (Rmin_case_strong (val (f_reduce_min x)) 0 (fun m => val (fst (widen_f false (rs_bits s) (rs_narrow s) (f_reduce_min x) (f_reduce_max x))) = m -> (m = val (f_reduce_min x) \/ m = 0)%R)) as [E|E]; auto.
    + right. exists (f_reduce_min x). split; auto. apply number_eq. rewrite V1, E. reflexivity.
    + left. rewrite eq_R, number_val, zero_R, V1. exact E.
  - destruct (Rmax_case_strong (val (f_reduce_max x)) 0 (fun m => val (snd (widen_f false (rs_bits s) (rs_narrow s) (f_reduce_min x) (f_reduce_max x))) = m -> (m = val (f_reduce_max x) \/ m = 0)%R)) as [E|E]; auto.
    + right. exists (f_reduce_max x). split; auto. apply number_eq. rewrite V2, E. reflexivity.
    + left. rewrite eq_R, number_val, zero_R, V2. exact E.
Qed.
Lemma ratio_R bits narrow : (2 <= bits)%nat -> Q2R (documented_ratio bits narrow) = ratioR bits narrow.
Proof.
  intros H. unfold documented_ratio, ratioR. destruct narrow. { unfold Q2R. cbn. lra. }
  assert (P : bpow radix2 (Z.of_nat bits) = IZR (2 ^ Z.of_nat bits)) by (rewrite <- IZR_Zpower by lia; reflexivity).
  assert (I : (bpow radix2 (- Z.of_nat bits) * bpow radix2 (Z.of_nat bits) = 1)%R) by (rewrite <- bpow_plus; replace (- Z.of_nat bits + Z.of_nat bits)%Z with 0%Z by lia; reflexivity).
  pose proof (bpow_gt_0 radix2 (Z.of_nat bits)) as P0.
  assert (N : ~ inject_Z (2 ^ Z.of_nat bits) == 0). { rewrite eq_R, Q2R_int, zero_R, <- P. lra. }
  rewrite Q2R_opp, Q2R_div by exact N. rewrite Q2R_minus, !Q2R_int, <- P. replace (Q2R 2) with 2%R by (unfold Q2R; cbn; lra).
  set (p := bpow radix2 (Z.of_nat bits)) in *. set (q := bpow radix2 (- Z.of_nat bits)) in *. clearbody p q. replace ((p - 2) / p)%R with (1 - 2 * / p)%R by (field; lra). replace (/ p)%R with q; [reflexivity|]. apply Rmult_eq_reg_r with p; [|lra]. rewrite I, Rinv_l; lra.
Qed.
Lemma ratio_close a b rho : fmt a -> fmt b -> (-1 <= rho <= - / 2)%R -> (a <= b)%R ->
  (Rabs (Rmax b (rnd (a * rho)) - rho * Rmin a (rnd (b / rho))) <= 4 * u * Rmax b (rnd (a * rho)) + 4 * tn)%R.
Proof.
  intros Fa Fb R L. pose proof tn_pos as T. destruct (Rle_dec b (a * rho)) as [C|C].
  - assert (I : (a <= b / rho)%R). { apply Ropp_le_cancel. unfold Rdiv. apply Rmult_le_reg_r with (- rho)%R; [lra|]. replace (- (b * / rho) * - rho)%R with b by (field; lra). lra. }
    assert (rnd a <= rnd (b / rho))%R by now apply rnd_le. assert (rnd b <= rnd (a * rho))%R by now apply rnd_le. rewrite rnd_id in H, H0 by auto.
    rewrite Rmin_left, Rmax_right by auto. pose proof (any_err (a * rho)) as E.
    assert (P : (0 <= a * rho)%R) by (destruct (Rle_dec 0 b); [lra|nra]). rewrite (Rabs_pos_eq (a * rho)) in E by auto.
    replace (rnd (a * rho) - rho * a)%R with (rnd (a * rho) - a * rho)%R by ring. apply Rle_trans with (1 := E). apply Rabs_le_inv in E. clear - E P T.
    set (x := (a * rho)%R) in *. set (y := rnd x) in *. clearbody x y. set (t := tn) in *. clearbody t. unfold u in *. lra.
  - assert (I : (b / rho <= a)%R). { apply Ropp_le_cancel. unfold Rdiv. apply Rmult_le_reg_r with (- rho)%R; [lra|]. replace (- (b * / rho) * - rho)%R with b by (field; lra). lra. }
    assert (rnd (b / rho) <= rnd a)%R by now apply rnd_le. assert (rnd (a * rho) <= rnd b)%R by (apply rnd_le; lra). rewrite (rnd_id a) in H by auto. rewrite (rnd_id b) in H0 by auto.
    rewrite Rmin_right, Rmax_left by auto. pose proof (any_err (b / rho)) as E.
    assert (P : (0 <= b)%R) by (destruct (Rle_dec 0 b); [lra|nra]).
    assert (Q : (Rabs (b / rho) * - rho = b)%R). { rewrite <- (Rabs_left1 rho) by lra. rewrite <- Rabs_mult. unfold Rdiv. rewrite Rmult_assoc, Rinv_l, Rmult_1_r by lra. now apply Rabs_pos_eq. }
    replace (b - rho * rnd (b / rho))%R with ((rnd (b / rho) - b / rho) * - rho)%R by (field; lra). rewrite Rabs_mult, (Rabs_pos_eq (- rho)) by lra.
    apply Rle_trans with ((u * Rabs (b / rho) + tn) * - rho)%R; [apply Rmult_le_compat_r; lra|].
    replace ((u * Rabs (b / rho) + tn) * - rho)%R with (u * (Rabs (b / rho) * - rho) + tn * - rho)%R by ring. rewrite Q. assert (0 < u)%R by (unfold u; lra). nra.
Qed.
Lemma tiny_R : Q2R tiny = (4 * tn)%R.
Proof. unfold tiny. rewrite Q2R_pow2. unfold tn. change (-148)%Z with (-150 + 1 + 1)%Z. rewrite !bpow_plus_1. cbn [radix_val radix2]. ring. Qed.
Theorem last_symmetric s r x : bits_ok s -> rs_kind s = LastValue -> rs_symmetric s = true -> is_batch x -> let r' := update_range_f s r x in
  Qabs (number (snd r') - documented_ratio (rs_bits s) (rs_narrow s) * number (fst r')) <= eps * number (snd r') + tiny.
Proof.
  intros H K SY B r'. destruct (batch_bounds x B) as (A1 & A2 & C & F1 & F2 & M1 & M2).
  destruct (widen_val (f_reduce_min x) (f_reduce_max x) (rs_bits s) (rs_narrow s) H F1 F2 M1 M2 (rs_symmetric s)) as (_ & _ & V1 & V2).
  unfold r', update_range_f. rewrite K. rewrite SY in *. set (w := widen_f _ _ _ _ _) in *. clearbody w.
  rewrite le_R, abs_R, Q2R_minus, Q2R_plus, !Q2R_mult, ratio_R, !number_val, <- u_eps, tiny_R by (unfold bits_ok in H; lia). rewrite V1, V2.
  destruct (ratio_val (rs_bits s) (rs_narrow s) H) as (_ & _ & R). apply ratio_close; auto using val_fmt. now apply C.
Qed.
Lemma widen_narrow s x : bits_ok s -> rs_symmetric s = true -> rs_narrow s = true -> is_batch x ->
  let w := widen_f (rs_symmetric s) (rs_bits s) (rs_narrow s) (f_reduce_min x) (f_reduce_max x) in val (snd w) = (- val (fst w))%R.
Proof.
  intros H SY NA B w. destruct (batch_bounds x B) as (A1 & A2 & C & F1 & F2 & M1 & M2).
  destruct (widen_val (f_reduce_min x) (f_reduce_max x) (rs_bits s) (rs_narrow s) H F1 F2 M1 M2 (rs_symmetric s)) as (_ & _ & V1 & V2).
  unfold w. rewrite SY, NA in *. rewrite V1, V2. cbn [ratioR]. replace (val (f_reduce_max x) / -1)%R with (- val (f_reduce_max x))%R by field.
  replace (val (f_reduce_min x) * -1)%R with (- val (f_reduce_min x))%R by ring. rewrite !rnd_opp, !rnd_val. unfold Rmin, Rmax. repeat destruct Rle_dec; lra.
Qed.
Theorem narrow_opposite s calls : bits_ok s -> rs_symmetric s = true -> rs_narrow s = true -> rs_kind s <> AllValues -> batches calls ->
  number (snd (run_range_f s calls)) == - number (fst (run_range_f s calls)).
Proof.
  intros H SY NA K B. rewrite eq_R, Q2R_opp, !number_val. induction calls as [|c calls IH] using rev_ind.
  { unfold run_range_f, init_range_f. cbn [fold_left]. destruct (six 6) as [A1 A2]; auto. destruct (six (-6)) as [C1 C2]; auto.
    destruct (rs_kind s); cbn [fst snd]; try easy; rewrite A1, C1; lra. }
  pose proof B as B0. apply batches_app in B as [B1 B2]. rewrite run_app. destruct (fst c); [|auto]. specialize (IH B1).
  pose proof (widen_narrow s (snd c) H SY NA B2) as W. cbv zeta in W. destruct (rs_kind s) eqn:KK; [| |easy].
  - unfold update_range_f. rewrite KK. exact W.
  - destruct (moving_val s H (run_range_f s calls) (run_ok s calls H B1) (snd c) B2 KK) as (_ & E1 & E2). rewrite E1, E2, W, IH. apply emaR_opp.
Qed.

(** ** MovingAverage *)
Definition as_last (s : rsettings) : rsettings := mkRS LastValue (rs_symmetric s) (rs_bits s) (rs_narrow s).
Theorem moving_between s calls x : bits_ok s -> rs_kind s = MovingAverage -> batches calls -> is_batch x ->
  let r := run_range_f s calls in let r' := run_range_f s (calls ++ [(true, x)]) in let b := update_range_f (as_last s) r x in
  in_between (number (fst r)) (number (fst b)) (number (fst r')) /\ in_between (number (snd r)) (number (snd b)) (number (snd r')).
Proof.
  intros H K B X r r' b. unfold r', b. rewrite run_app. cbn [fst snd]. fold r.
  destruct (moving_val s H r (run_ok s calls H B) x X K) as (_ & E1 & E2). unfold in_between. rewrite !le_R, !number_val, E1, E2.
  change (update_range_f (as_last s) r x) with (widen_f (rs_symmetric s) (rs_bits s) (rs_narrow s) (f_reduce_min x) (f_reduce_max x)).
  destruct rate_val as [_ R]. set (w := widen_f _ _ _ _ _). pose proof (emaR_between _ _ _ (val_fmt (fst r)) (val_fmt (fst w)) R) as A. pose proof (emaR_between _ _ _ (val_fmt (snd r)) (val_fmt (snd w)) R) as C.
  revert A C. unfold Rmin, Rmax. repeat destruct Rle_dec; intros; split; lra.
Qed.
Theorem moving_hull s calls (lo hi : Q) : bits_ok s -> rs_kind s = MovingAverage -> rs_symmetric s = false -> batches calls ->
  lo <= -6 # 1 -> 6 <= hi -> (forall v, seen calls v -> lo <= number v /\ number v <= hi) ->
  lo <= number (fst (run_range_f s calls)) /\ number (snd (run_range_f s calls)) <= hi.
Proof.
  intros H K SY B L U. revert B. induction calls as [|c calls IH] using rev_ind; intros B V.
  { unfold run_range_f, init_range_f. cbn [fold_left]. rewrite K. cbn [fst snd]. assert (N1 : number (f_of_int (-6)) == -6 # 1) by (vm_compute; reflexivity). assert (N2 : number (f_of_int 6) == 6) by (vm_compute; reflexivity).
    rewrite N1, N2. split; [exact L|exact U]. }
  pose proof B as B0. apply batches_app in B as [B1 B2].
  assert (V1 : forall v, seen calls v -> lo <= number v /\ number v <= hi) by (intros v S; apply V, seen_app; now left).
  specialize (IH B1 V1). destruct c as [t x]. cbn [fst snd] in *. destruct t; [|rewrite run_app; exact IH].
  destruct (moving_between s calls x H K B1 B2) as [M1 M2].
  destruct (last_exact (as_last s) (run_range_f s calls) x H eq_refl SY B2) as [E1 E2].
  assert (VX : forall v, In v x -> lo <= number v /\ number v <= hi) by (intros v S; apply V, seen_app; right; auto).
  split.
  - assert (lo <= number (fst (update_range_f (as_last s) (run_range_f s calls) x))).
    { destruct E1 as [E|(v & I & E)]; rewrite <- ?E. { rewrite E. lra. } now apply VX. }
    destruct M1; lra.
  - assert (number (snd (update_range_f (as_last s) (run_range_f s calls) x)) <= hi).
    { destruct E2 as [E|(v & I & E)]; rewrite <- ?E. { rewrite E. lra. } now apply VX. }
    destruct M2; lra.
Qed.

(** ** AllValues *)
Theorem all_covers s calls v : bits_ok s -> rs_kind s = AllValues -> batches calls -> seen calls v -> covers (run_range_f s calls) v.
Proof.
  intros H K B. rewrite covers_val. revert B. induction calls as [|c calls IH] using rev_ind; intros B V. { destruct V as (x & [] & _). }
  pose proof B as B0. apply batches_app in B as [B1 B2]. rewrite run_app. apply seen_app in V.
  destruct (fst c). 2:{ destruct V as [V|[V _]]; [auto|discriminate]. }
  destruct (all_val s H (run_range_f s calls) (run_ok s calls H B1) (snd c) B2 K) as (_ & A1 & A2 & A3 & _).
  destruct V as [V|[_ V]]; [|auto]. specialize (IH B1 V). lra.
Qed.
Theorem all_exact s calls : bits_ok s -> rs_kind s = AllValues -> rs_symmetric s = false -> batches calls -> let r := run_range_f s calls in
  (number (fst r) == 0 \/ exists v, seen calls v /\ number v == number (fst r)) /\ (number (snd r) == 0 \/ exists v, seen calls v /\ number v == number (snd r)).
Proof.
  intros H K SY B. cbv zeta. induction calls as [|c calls IH] using rev_ind.
  { unfold run_range_f, init_range_f. cbn [fold_left]. rewrite K. cbn [fst snd]. split; left; reflexivity. }
  pose proof B as B0. apply batches_app in B as [B1 B2]. specialize (IH B1). rewrite run_app.
  assert (UP : forall v, seen calls v -> seen (calls ++ [c]) v) by (intros v V; apply seen_app; now left).
  destruct (fst c) eqn:T. 2:{ destruct IH as [[I|(v & I1 & I2)] [J|(w & J1 & J2)]]; split; eauto. }
  destruct (all_val s H (run_range_f s calls) (run_ok s calls H B1) (snd c) B2 K) as (_ & _ & _ & _ & E). destruct (E SY) as [E1 E2].
  destruct (batch_bounds (snd c) B2) as (A1 & A2 & _).
  assert (S1 : seen (calls ++ [c]) (f_reduce_min (snd c))) by (apply seen_app; now right). assert (S2 : seen (calls ++ [c]) (f_reduce_max (snd c))) by (apply seen_app; now right).
  destruct IH as [I J]. split.
  - revert E1. unfold Rmin. destruct (Rle_dec (if Rle_dec _ _ then _ else _) 0) as [D|D]; intros E1; [|left; rewrite eq_R, number_val, zero_R; exact E1].
    destruct (Rle_dec _ _) in E1.
    + apply number_eq in E1. destruct I as [I|(v & I1 & I2)]; [left; now rewrite E1|]. right. exists v. split; auto. now rewrite E1.
    + right. exists (f_reduce_min (snd c)). split; auto. apply number_eq. now symmetry.
  - revert E2. unfold Rmax. destruct (Rle_dec (if Rle_dec _ _ then _ else _) 0) as [D|D]; intros E2; [left; rewrite eq_R, number_val, zero_R; exact E2|].
    destruct (Rle_dec _ _) in E2.
    + right. exists (f_reduce_max (snd c)). split; auto. apply number_eq. now symmetry.
    + apply number_eq in E2. destruct J as [I'|(v & I1 & I2)]; [left; now rewrite E2|]. right. exists v. split; auto. now rewrite E2.
Qed.
