From Coq Require Import Reals Qabs Qpower Qreals.
From Flocq Require Import Core BinarySingleNaN.
From Verif Require Import Base M_Float32 S_Float32 M_FloatSchedule M_FloatQuant S_FloatQuant M_FloatRange S_FloatRange L_Float32 L_Float32b L_Float32c L_FloatSchedule L_FloatSchedule2 L_FloatQuant L_FloatQuant2 L_FloatCluster L_FloatRange.
From Coq Require Import Lra Psatz Lia.
Open Scope R_scope.

Definition emaR (d v x : R) : R := rnd (v - rnd (rnd (v - x) * d)).
Lemma fmt_opp x : fmt x -> fmt (- x). Proof. apply generic_format_opp. Qed.
Lemma step_le v x d : fmt v -> fmt x -> 0 <= d <= / 500 -> x <= v -> 0 <= rnd (rnd (v - x) * d) <= v - x.
Proof.
  intros Fv Fx Hd L. destruct (diff_rel v x Fv Fx) as (e & E & D). apply Rabs_le_inv in E. destruct (Req_dec (v - x) 0) as [Z|Z].
  { rewrite Z, rnd_0, Rmult_0_l, rnd_0. lra. }
  assert (P : 0 < v - x) by lra. set (w := v - x) in *. clearbody w. assert (Pd : 0 < rnd w) by (rewrite D; unfold u in E; nra).
  split. { apply rnd_ge0. apply Rmult_le_pos; lra. }
  assert (G : bpow radix2 (-149) <= rnd w). { rewrite <- ulp32_0. apply Rle_trans with (ulp radix2 fexp (rnd w)); [apply ulp_ge_ulp_0; typeclasses eauto|apply ulp_le_id; [exact Pd|apply rnd_fmt]]. }
  assert (T : bpow radix2 (-149) = 2 * tn) by (unfold tn; change (-149)%Z with (-150 + 1)%Z; rewrite bpow_plus_1; reflexivity).
  pose proof tn_pos as T0.
  pose proof (any_err (rnd w * d)) as A. set (t := tn) in *. clearbody t. rewrite (Rabs_pos_eq (rnd w * d)) in A by (apply Rmult_le_pos; lra).
  apply Rabs_le_inv in A. assert (B : rnd w * d <= rnd w * / 500) by (apply Rmult_le_compat_l; lra).
  set (r := rnd (rnd w * d)) in *. clearbody r. set (q := rnd w * d) in *. clearbody q. set (m := rnd w) in *. clearbody m. unfold u in *. 
  assert (C : r <= q * (1 + / 16777216) + t) by lra. assert (C2 : t <= m / 2) by lra. assert (m <= w * (1 + / 16777216)) by nra. lra.
Qed.
Lemma emaR_pos v x d : fmt v -> fmt x -> 0 <= d <= / 500 -> x <= v -> x <= emaR d v x <= v.
Proof.
  intros Fv Fx Hd L. destruct (step_le v x d Fv Fx Hd L) as [A B]. unfold emaR. split.
  - apply Rle_trans with (rnd x); [rewrite rnd_id; auto; lra|apply rnd_le; lra]. - apply Rle_trans with (rnd v); [apply rnd_le; lra|rewrite rnd_id; auto; lra].
Qed.
Lemma emaR_opp v x d : emaR d (- v) (- x) = - emaR d v x.
Proof.
  unfold emaR. replace (- v - - x) with (- (v - x)) by ring. rewrite rnd_opp. replace (- rnd (v - x) * d) with (- (rnd (v - x) * d)) by ring. rewrite rnd_opp.
  replace (- v - - rnd (rnd (v - x) * d)) with (- (v - rnd (rnd (v - x) * d))) by ring. apply rnd_opp.
Qed.
Lemma emaR_between v x d : fmt v -> fmt x -> 0 <= d <= / 500 -> Rmin v x <= emaR d v x <= Rmax v x.
Proof.
  intros Fv Fx Hd. destruct (Rle_dec x v) as [L|L].
  - rewrite Rmin_right, Rmax_left by lra. now apply emaR_pos.
  - rewrite Rmin_left, Rmax_right by lra. pose proof (emaR_pos (- v) (- x) d (fmt_opp v Fv) (fmt_opp x Fx) Hd ltac:(lra)) as H. rewrite emaR_opp in H. lra.
Qed.
Lemma ema_val v x : fin v = true -> fin x = true -> Rabs (val v) <= B127 -> Rabs (val x) <= B127 -> (0 <= val v * val x) ->
  fin (ema_f v x) = true /\ val (ema_f v x) = emaR (val ema_rate) (val v) (val x).
Proof.
  intros Fv Fx Bv Bx S. destruct rate_val as [Fr R]. apply Rabs_le_inv in Bv. apply Rabs_le_inv in Bx.
  assert (D : Rabs (val v - val x) <= B127). { apply Rabs_le. destruct (Rle_dec 0 (val v)); destruct (Rle_dec 0 (val x)); try lra; nra. }
  destruct (sub_val v x Fv Fx D) as [A1 A2]. pose proof (rnd_le127 _ D) as D2.
  destruct (mul_val (f_sub v x) ema_rate A2 Fr) as [M1 M2].
  { rewrite A1, Rabs_mult, (Rabs_pos_eq (val ema_rate)) by lra. pose proof (Rabs_pos (rnd (val v - val x))). nra. }
  rewrite A1 in M1.
  assert (P : Rmin (val v) (val x) <= val v - val (f_mul (f_sub v x) ema_rate) <= Rmax (val v) (val x)).
  { rewrite M1. destruct (Rle_dec (val x) (val v)) as [L|L].
    - rewrite Rmin_right, Rmax_left by lra. pose proof (step_le _ _ _ (val_fmt v) (val_fmt x) R L). lra.
    - rewrite Rmin_left, Rmax_right by lra. pose proof (step_le _ _ _ (fmt_opp _ (val_fmt v)) (fmt_opp _ (val_fmt x)) R ltac:(lra)) as H.
      replace (- val v - - val x) with (- (val v - val x)) in H by ring. rewrite rnd_opp in H. replace (- rnd (val v - val x) * val ema_rate) with (- (rnd (val v - val x) * val ema_rate)) in H by ring.
      rewrite rnd_opp in H. lra. }
  destruct (sub_val v (f_mul (f_sub v x) ema_rate) Fv M2) as [S1 S2].
  { apply Rabs_le. revert P. unfold Rmin, Rmax. destruct (Rle_dec (val v) (val x)); intros; lra. }
  unfold ema_f. split; auto. rewrite S1, M1. reflexivity.
Qed.

(** ** One training call *)
Definition bits_ok (s : rsettings) : Prop := (2 <= rs_bits s <= 24)%nat.
Lemma batch_bounds x : is_batch x -> let a := f_reduce_min x in let b := f_reduce_max x in
  In a x /\ In b x /\ (forall v, In v x -> val a <= val v <= val b) /\ fin a = true /\ fin b = true /\ Rabs (val a) <= B126 /\ Rabs (val b) <= B126.
Proof.
  intros [N F]. destruct x as [|c x]; [easy|]. inversion F as [|? ? Mc Mx]; subst. unfold f_reduce_min, f_reduce_max. cbn [fold_left].
  pose proof (proj1 (proj1 (moderate_val c) Mc)) as Fc.
  rewrite (min_first c Fc), (max_first c Fc).
  assert (Fx : Forall (fun v => fin v = true) x) by (eapply Forall_impl; [|exact Mx]; intros v V; apply (proj1 (moderate_val v) V)).
  destruct (min_in x c Fc Fx) as [A1 A2]. destruct (max_in x c Fc Fx) as [B1 B2]. rewrite Forall_forall in F.
  destruct (proj1 (moderate_val _) (F _ A1)) as [A3 A4]. destruct (proj1 (moderate_val _) (F _ B1)) as [B3 B4].
  split; [exact A1|]. split; [exact B1|]. split; [intros v V; split; auto|]. auto.
Qed.
Lemma six k : (k = 6 \/ k = -6)%Z -> val (f_of_int k) = IZR k /\ fin (f_of_int k) = true. Proof. intros H. apply of_int_exact. lia. Qed.
Lemma init_ok s : okr (init_range_f s).
Proof.
  pose proof B126_pos. pose proof B127_2. destruct zero_val as [Z1 Z2]. destruct (six 6) as [A1 A2]; auto. destruct (six (-6)) as [C1 C2]; auto.
  unfold okr, init_range_f. destruct (rs_kind s); cbn [fst snd]; rewrite ?A1, ?A2, ?C1, ?C2, ?Z1, ?Z2; repeat split; lra.
Qed.
Lemma same_sign_le a b : a <= 0 -> b <= 0 -> 0 <= a * b. Proof. nra. Qed.
Lemma pair_eta {A B} (p : A * B) : p = (fst p, snd p). Proof. now destruct p. Qed.
Section Step.
  Context (s : rsettings) (Hs : bits_ok s) (r : f32 * f32) (Hr : okr r) (x : list f32) (Hx : is_batch x).
  Notation w := (widen_f (rs_symmetric s) (rs_bits s) (rs_narrow s) (f_reduce_min x) (f_reduce_max x)).
  Lemma w_ok : okr w.
  Proof. destruct (batch_bounds x Hx) as (A & B & C & F1 & F2 & M1 & M2). apply widen_ok; auto. now apply C. Qed.
  Lemma w_covers v : In v x -> val (fst w) <= val v <= val (snd w).
  Proof.
    intros V. destruct (batch_bounds x Hx) as (A & B & C & F1 & F2 & M1 & M2). destruct (widen_val (f_reduce_min x) (f_reduce_max x) (rs_bits s) (rs_narrow s) Hs F1 F2 M1 M2 (rs_symmetric s)) as (_ & _ & V1 & V2).
    rewrite V1, V2. destruct (C v V). split; [apply Rle_trans with (1 := Rmin_l _ _)|apply Rle_trans with (2 := Rmax_l _ _)]; auto.
  Qed.
  Lemma moving_val : rs_kind s = MovingAverage -> okr (update_range_f s r x) /\
    val (fst (update_range_f s r x)) = emaR (val ema_rate) (val (fst r)) (val (fst w)) /\ val (snd (update_range_f s r x)) = emaR (val ema_rate) (val (snd r)) (val (snd w)).
  Proof.
    intros K. unfold update_range_f. rewrite K. pose proof w_ok as (W1 & W2 & W3 & W4). destruct Hr as (R1 & R2 & R3 & R4). rewrite (pair_eta w). cbn [fst snd].
    destruct (ema_val (fst r) (fst w) R1 W1) as [E1 E2]; [apply Rabs_le; lra|apply Rabs_le; lra|apply same_sign_le; lra|].
    destruct (ema_val (snd r) (snd w) R2 W2) as [E3 E4]; [apply Rabs_le; lra|apply Rabs_le; lra|apply Rmult_le_pos; lra|].
    split; [|auto]. unfold okr. cbn [fst snd]. rewrite E1, E2, E3, E4. split; auto. split; auto.
    destruct rate_val as [_ R].
    pose proof (emaR_between _ _ _ (val_fmt (fst r)) (val_fmt (fst w)) R) as X. pose proof (emaR_between _ _ _ (val_fmt (snd r)) (val_fmt (snd w)) R) as Y.
    revert X Y. unfold Rmin, Rmax. repeat destruct Rle_dec; intros; lra.
  Qed.
  Lemma all_val : rs_kind s = AllValues -> okr (update_range_f s r x) /\ (forall v, In v x -> val (fst (update_range_f s r x)) <= val v <= val (snd (update_range_f s r x))) /\
    val (fst (update_range_f s r x)) <= val (fst r) /\ val (snd r) <= val (snd (update_range_f s r x)) /\
    (rs_symmetric s = false -> val (fst (update_range_f s r x)) = Rmin (Rmin (val (fst r)) (val (f_reduce_min x))) 0 /\
                               val (snd (update_range_f s r x)) = Rmax (Rmax (val (snd r)) (val (f_reduce_max x))) 0).
  Proof.
    intros K. destruct (batch_bounds x Hx) as (A & B & C & F1 & F2 & M1 & M2). unfold update_range_f. rewrite K. destruct Hr as (R1 & R2 & R3 & R4).
    destruct zero_val as [Z1 Z2]. pose proof B127_2 as BB. pose proof B126_pos as BP.
    set (a := f_reduce_min x) in *. set (b := f_reduce_max x) in *.
    assert (P : exists lo hi, widen_all_f (rs_symmetric s) (rs_bits s) (rs_narrow s) a b = (lo, hi) /\ fin lo = true /\ fin hi = true /\ - B127 <= val lo <= val a /\ val b <= val hi <= B127 /\
                (rs_symmetric s = false -> lo = a /\ hi = b)).
    { unfold widen_all_f. apply Rabs_le_inv in M1 as M1'. apply Rabs_le_inv in M2 as M2'. destruct (rs_symmetric s).
      - destruct (quot_val b (rs_bits s) (rs_narrow s) Hs F2 M2) as [Q1 Q2]. pose proof (quot_bound b (rs_bits s) (rs_narrow s) Hs M2) as QB. apply rnd_le127 in QB. rewrite <- Q1 in QB. apply Rabs_le_inv in QB.
        destruct (min_val a _ F1 Q2) as [X1 X2]. set (a' := f_min a _) in *.
        assert (A' : - B127 <= val a' <= val a). { rewrite X1. split; [apply Rmin_glb; lra|apply Rmin_l]. }
        destruct (prod_val (rs_bits s) (rs_narrow s) Hs a' X2) as [P1 P2]. { apply Rabs_le. lra. }
        pose proof (prod_bound (rs_bits s) (rs_narrow s) Hs (val a')) as PB. specialize (PB ltac:(apply Rabs_le; lra)). apply rnd_le127 in PB. rewrite <- P1 in PB. apply Rabs_le_inv in PB.
        destruct (max_val b _ F2 P2) as [Y1 Y2]. eexists _, _. split; [reflexivity|]. split; [auto|]. split; [auto|]. split; [exact A'|]. split; [|discriminate].
        rewrite Y1. split; [apply Rmax_l|apply Rmax_lub; lra].
      - exists a, b. repeat split; auto; lra. }
    destruct P as (lo & hi & E & P1 & P2 & P3 & P4 & P5). rewrite E. cbn [fst snd].
    destruct (min_val (fst r) lo R1 P1) as [X1 X2]. destruct (min_val _ (f_of_int 0) X2 Z2) as [X3 X4].
    destruct (max_val (snd r) hi R2 P2) as [Y1 Y2]. destruct (max_val _ (f_of_int 0) Y2 Z2) as [Y3 Y4]. rewrite X1, Z1 in X3. rewrite Y1, Z1 in Y3.
    assert (LO : - B127 <= val (f_min (f_min (fst r) lo) (f_of_int 0)) <= 0 /\ val (f_min (f_min (fst r) lo) (f_of_int 0)) <= val (fst r) /\ val (f_min (f_min (fst r) lo) (f_of_int 0)) <= val lo).
    { rewrite X3. unfold Rmin. repeat destruct Rle_dec; lra. }
    assert (HI : 0 <= val (f_max (f_max (snd r) hi) (f_of_int 0)) <= B127 /\ val (snd r) <= val (f_max (f_max (snd r) hi) (f_of_int 0)) /\ val hi <= val (f_max (f_max (snd r) hi) (f_of_int 0))).
    { rewrite Y3. unfold Rmax. repeat destruct Rle_dec; lra. }
    split. { unfold okr. cbn [fst snd]. tauto. }
    split. { intros v V. destruct (C v V). lra. }
    split; [lra|]. split; [lra|]. intros SY. destruct (P5 SY) as [-> ->]. auto.
  Qed.
  Lemma step_ok : okr (update_range_f s r x).
  Proof.
    destruct (rs_kind s) eqn:K.
    - unfold update_range_f. rewrite K. exact w_ok. - now apply moving_val. - now apply all_val.
  Qed.
End Step.
