(** Facts about the float32 operations of M_Float32. *)
From Coq Require Import Reals Psatz Lia.
From Flocq Require Import Core BinarySingleNaN Relative.
From Verif Require Import Base M_Num M_Tensor M_Mask M_Float32.
From Coq Require Import Lra.
Open Scope R_scope.

Notation fexp := (SpecFloat.fexp 24 128).
Notation rnd := (round radix2 fexp ZnearestE).
Notation fmt := (generic_format radix2 fexp).
Notation val := (@B2R 24 128).
Notation fin := (@is_finite 24 128).

#[global] Instance fexp_valid : Valid_exp fexp := FLT_exp_valid (-149) 24.
#[global] Instance fexp_mono : Monotone_exp fexp := FLT_exp_monotone (-149) 24.
Lemma rnd_le x y : x <= y -> rnd x <= rnd y. Proof. apply round_le; typeclasses eauto. Qed.
Lemma rnd_id x : fmt x -> rnd x = x. Proof. apply round_generic; typeclasses eauto. Qed.
Lemma val_fmt (f : f32) : fmt (val f). Proof. apply generic_format_B2R. Qed.
Lemma rnd_val (f : f32) : rnd (val f) = val f. Proof. apply rnd_id, val_fmt. Qed.
Lemma rnd_0 : rnd 0 = 0. Proof. apply round_0. typeclasses eauto. Qed.
Lemma rnd_ge0 x : 0 <= x -> 0 <= rnd x. Proof. intros H. rewrite <- rnd_0. now apply rnd_le. Qed.
Lemma rnd_fmt x : fmt (rnd x). Proof. apply generic_format_round; typeclasses eauto. Qed.
Lemma int_fmt n : (Z.abs n <= 2 ^ 24)%Z -> fmt (IZR n).
Proof.
  intros H. apply generic_format_FLT with (emin := (-149)%Z) (prec := 24%Z). destruct (Z.eq_dec (Z.abs n) (2 ^ 24)) as [E|E].
  - exists (Float radix2 (Z.sgn n) 24).
    + unfold F2R. cbn [Fnum Fexp]. rewrite <- (Z.abs_sgn n) at 1. rewrite E, mult_IZR. rewrite Rmult_comm. f_equal.
    + cbn [Fnum]. destruct n; cbn; lia.
    + cbn. lia.
  - exists (Float radix2 n 0). + unfold F2R. cbn. lra. + cbn. lia. + cbn. lia.
Qed.
Lemma pow_fmt e : (-149 <= e)%Z -> fmt (bpow radix2 e).
Proof. intros H. apply generic_format_bpow. unfold SpecFloat.fexp, SpecFloat.emin. lia. Qed.
Lemma rnd_int n : (Z.abs n <= 2 ^ 24)%Z -> rnd (IZR n) = IZR n. Proof. intros H. now apply rnd_id, int_fmt. Qed.
Lemma big_fmt : fmt (bpow radix2 127). Proof. apply pow_fmt. lia. Qed.
Lemma rnd_small x : Rabs x <= bpow radix2 127 -> Rabs (rnd x) < bpow radix2 128.
Proof.
  intros H. apply Rle_lt_trans with (bpow radix2 127); [|apply bpow_lt; lia]. apply abs_round_le_generic; auto; try typeclasses eauto. apply big_fmt.
Qed.
Lemma B31 : IZR (2 ^ 31) = bpow radix2 31. Proof. reflexivity. Qed.

(** ** The operations, as long as they do not overflow *)
Lemma of_int n : (Z.abs n <= 2 ^ 31)%Z -> val (f_of_int n) = rnd (IZR n) /\ fin (f_of_int n) = true.
Proof.
  intros H. pose proof (binary_normalize_correct 24 128 prec24 emax128 mode_NE n 0 false) as C. cbv zeta in C. cbn [round_mode] in C.
  assert (E : F2R (Float radix2 n 0) = IZR n) by (unfold F2R; cbn; lra). rewrite E in C.
  rewrite Rlt_bool_true in C. { unfold f_of_int. tauto. }
  apply rnd_small. rewrite <- abs_IZR. apply Rle_trans with (bpow radix2 31); [|apply bpow_le; lia]. rewrite <- B31. now apply IZR_le.
Qed.
Lemma of_int_exact n : (Z.abs n <= 2 ^ 24)%Z -> val (f_of_int n) = IZR n /\ fin (f_of_int n) = true.
Proof. intros H. destruct (of_int n) as [A B]; [lia|]. rewrite A, rnd_int; auto. Qed.
Lemma add_val x y : fin x = true -> fin y = true -> Rabs (val x + val y) <= bpow radix2 127 -> val (f_add x y) = rnd (val x + val y) /\ fin (f_add x y) = true.
Proof. intros A B H. pose proof (Bplus_correct 24 128 prec24 emax128 mode_NE x y A B) as C. cbn [round_mode] in C. rewrite Rlt_bool_true in C by now apply rnd_small. unfold f_add. tauto. Qed.
Lemma sub_val x y : fin x = true -> fin y = true -> Rabs (val x - val y) <= bpow radix2 127 -> val (f_sub x y) = rnd (val x - val y) /\ fin (f_sub x y) = true.
Proof. intros A B H. pose proof (Bminus_correct 24 128 prec24 emax128 mode_NE x y A B) as C. cbn [round_mode] in C. rewrite Rlt_bool_true in C by now apply rnd_small. unfold f_sub. tauto. Qed.
Lemma mul_val x y : fin x = true -> fin y = true -> Rabs (val x * val y) <= bpow radix2 127 -> val (f_mul x y) = rnd (val x * val y) /\ fin (f_mul x y) = true.
Proof.
  intros A B H. pose proof (Bmult_correct 24 128 prec24 emax128 mode_NE x y) as C. cbn [round_mode] in C. rewrite Rlt_bool_true in C by now apply rnd_small. unfold f_mul. rewrite A, B in C. tauto.
Qed.
Lemma div_val x y : fin x = true -> val y <> 0 -> Rabs (val x / val y) <= bpow radix2 127 -> val (f_div x y) = rnd (val x / val y) /\ fin (f_div x y) = true.
Proof.
  intros A B H. pose proof (Bdiv_correct 24 128 prec24 emax128 mode_NE x y B) as C. cbn [round_mode] in C. rewrite Rlt_bool_true in C by now apply rnd_small. unfold f_div. rewrite A in C. tauto.
Qed.
Lemma fix0 (r : R -> Z) {V : Valid_rnd r} x : round radix2 (FIX_exp 0) r x = IZR (r x).
Proof. unfold round, scaled_mantissa, cexp, FIX_exp, F2R. cbn [Fnum Fexp]. change (bpow radix2 (- 0)) with 1. change (bpow radix2 0) with 1. rewrite !Rmult_1_r. reflexivity. Qed.
Lemma round_val x : val (f_round x) = IZR (ZnearestE (val x)) /\ fin (f_round x) = fin x.
Proof. destruct (Bnearbyint_correct 24 128 emax128 mode_NE x) as (A & B & _). unfold f_round. rewrite A, B. cbn [round_mode]. split; auto. apply fix0. typeclasses eauto. Qed.
Lemma floor_val x : val (f_floor x) = IZR (Zfloor (val x)) /\ fin (f_floor x) = fin x.
Proof. destruct (Bnearbyint_correct 24 128 emax128 mode_DN x) as (A & B & _). unfold f_floor. rewrite A, B. cbn [round_mode]. split; auto. apply fix0. typeclasses eauto. Qed.
Lemma max_val x y : fin x = true -> fin y = true -> val (f_max x y) = Rmax (val x) (val y) /\ fin (f_max x y) = true.
Proof.
  intros A B. unfold f_max. rewrite Bltb_correct by auto. destruct (Rlt_bool_spec (val x) (val y)).
  - rewrite Rmax_right by lra. auto. - rewrite Rmax_left by lra. auto.
Qed.
Lemma min_val x y : fin x = true -> fin y = true -> val (f_min x y) = Rmin (val x) (val y) /\ fin (f_min x y) = true.
Proof.
  intros A B. unfold f_min. rewrite Bltb_correct by auto. destruct (Rlt_bool_spec (val y) (val x)).
  - rewrite Rmin_right by lra. auto. - rewrite Rmin_left by lra. auto.
Qed.
Lemma to_int_val x n : val x = IZR n -> f_to_int x = n.
Proof. intros H. unfold f_to_int. apply eq_IZR. rewrite Btrunc_correct by exact emax128. rewrite H, fix0 by typeclasses eauto. now rewrite Ztrunc_IZR. Qed.
(** Relative error of rounding. *)
Definition u : R := / 16777216.
Lemma rel x : bpow radix2 (-126) <= x -> exists d, Rabs d <= u /\ rnd x = x * (1 + d).
Proof.
  intros H. pose proof (bpow_gt_0 radix2 (-126)). pose proof (relative_error_N_FLT radix2 (-149) 24 ltac:(lia) (fun n => negb (Z.even n)) x) as E.
  rewrite Rabs_pos_eq in E by lra. specialize (E H). change (round radix2 (FLT_exp (-149) 24) (Znearest (fun n => negb (Z.even n))) x) with (rnd x) in E.
  assert (U : / 2 * bpow radix2 (- (24) + 1) = u). { unfold u. cbn. lra. }
  exists ((rnd x - x) / x). split.
  - unfold Rdiv. rewrite Rabs_mult, Rabs_inv, (Rabs_pos_eq x) by lra. apply Rmult_le_reg_r with x; [lra|]. rewrite Rmult_assoc, Rinv_l by lra. rewrite U in E. lra.
  - field. lra.
Qed.
(** Floats below 1. *)
Lemma one_fmt : fmt 1. Proof. apply (int_fmt 1). cbn. lia. Qed.
Lemma below_one (s : f32) : val s < 1 -> val s <= 1 - u.
Proof.
  intros H. pose proof (pred_ge_gt radix2 fexp (val s) 1 (val_fmt s) one_fmt H) as P. change 1 with (bpow radix2 0) in P. rewrite pred_bpow in P.
  replace (bpow radix2 0 - bpow radix2 (fexp 0)) with (1 - u) in P; auto.
Qed.
