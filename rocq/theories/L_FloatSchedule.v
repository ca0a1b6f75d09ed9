(** The schedules in float32: real-number level. *)
From Coq Require Import Reals Psatz Lia Qreals RMicromega.
From Flocq Require Import Core BinarySingleNaN Relative.
From Verif Require Import Base M_Float32 S_Float32 L_Float32 L_Float32b M_FloatSchedule S_FloatSchedule.
From Coq Require Import Lra.
Open Scope R_scope.

Notation fexp64 := (SpecFloat.fexp 53 1024).
Notation rnd64 := (round radix2 fexp64 ZnearestE).
Notation fmt64 := (generic_format radix2 fexp64).
Notation val64 := (@B2R 53 1024).
Notation fin64 := (@is_finite 53 1024).
#[global] Instance fexp64_valid : Valid_exp fexp64 := FLT_exp_valid (-1074) 53.
#[global] Instance fexp64_mono : Monotone_exp fexp64 := FLT_exp_monotone (-1074) 53.
Lemma rnd64_le x y : x <= y -> rnd64 x <= rnd64 y. Proof. apply round_le; typeclasses eauto. Qed.
Lemma rnd64_id x : fmt64 x -> rnd64 x = x. Proof. apply round_generic; typeclasses eauto. Qed.
Lemma val64_fmt (f : f64) : fmt64 (val64 f). Proof. apply generic_format_B2R. Qed.
Lemma one64 : fmt64 1. Proof. change 1 with (bpow radix2 0). apply generic_format_bpow. cbn. lia. Qed.
Lemma rnd_opp x : rnd (- x) = - rnd x. Proof. apply round_NE_opp. Qed.

(** Absolute errors. *)
Lemma ulp32_0 : ulp radix2 fexp 0 = bpow radix2 (-149). Proof. exact (ulp_FLT_0 radix2 (-149) 24). Qed.
Lemma ulp64_0 : ulp radix2 fexp64 0 = bpow radix2 (-1074). Proof. exact (ulp_FLT_0 radix2 (-1074) 53). Qed.
Lemma abs_err x : Rabs x <= 1 -> Rabs (rnd x - x) <= u / 2.
Proof.
  intros H. destruct (Req_dec (Rabs x) 1) as [E|E].
  - assert (fmt x). { unfold Rabs in E. destruct (Rcase_abs x); [replace x with (- (1)) by lra; apply generic_format_opp|rewrite E]; apply one_fmt. }
    rewrite rnd_id by auto. replace (x - x) with 0 by ring. rewrite Rabs_R0. unfold u. lra.
  - eapply Rle_trans; [apply error_le_half_ulp; typeclasses eauto|]. assert (UB : ulp radix2 fexp x <= u); [|unfold u in *; lra].
    replace u with (bpow radix2 (-24)) by (unfold u; cbn; lra). destruct (Req_dec x 0) as [->|Z].
    + rewrite ulp32_0. apply bpow_le; lia.
    + rewrite ulp_neq_0 by auto. apply bpow_le. unfold cexp. assert (M : (mag radix2 x <= 0)%Z). { apply mag_le_bpow; auto. change (bpow radix2 0) with 1. lra. } unfold SpecFloat.fexp, SpecFloat.emin. lia.
Qed.
Lemma abs_err2 x : Rabs x < 2 -> Rabs (rnd x - x) <= u.
Proof.
  intros H. eapply Rle_trans; [apply error_le_half_ulp; typeclasses eauto|]. assert (UB : ulp radix2 fexp x <= 2 * u); [|unfold u in *; lra].
  replace (2 * u) with (bpow radix2 (-23)) by (unfold u; cbn; lra). destruct (Req_dec x 0) as [->|Z].
  + rewrite ulp32_0. apply bpow_le; lia.
  + rewrite ulp_neq_0 by auto. apply bpow_le. unfold cexp. assert (M : (mag radix2 x <= 1)%Z). { apply mag_le_bpow; auto. } unfold SpecFloat.fexp, SpecFloat.emin. lia.
Qed.
Definition u64 : R := bpow radix2 (-53).
Lemma u64_u : 0 < u64 <= u / 16. Proof. split; [apply bpow_gt_0|]. replace (u / 16) with (bpow radix2 (-28)) by (unfold u; cbn; lra). apply bpow_le. lia. Qed.
Lemma abs_err64 x : Rabs x <= 1 -> Rabs (rnd64 x - x) <= u64 / 2.
Proof.
  intros H. pose proof u64_u. destruct (Req_dec (Rabs x) 1) as [E|E].
  - assert (fmt64 x). { unfold Rabs in E. destruct (Rcase_abs x); [replace x with (- (1)) by lra; apply generic_format_opp|rewrite E]; apply one64. }
    rewrite rnd64_id by auto. replace (x - x) with 0 by ring. rewrite Rabs_R0. lra.
  - eapply Rle_trans; [apply error_le_half_ulp; typeclasses eauto|]. assert (UB : ulp radix2 fexp64 x <= u64); [|lra].
    unfold u64. destruct (Req_dec x 0) as [->|Z].
    + rewrite ulp64_0. apply bpow_le; lia.
    + rewrite ulp_neq_0 by auto. apply bpow_le. unfold cexp. assert (M : (mag radix2 x <= 0)%Z). { apply mag_le_bpow; auto. change (bpow radix2 0) with 1. lra. } unfold SpecFloat.fexp, SpecFloat.emin. lia.
Qed.
Lemma below_one64 (s : f64) : val64 s < 1 -> val64 s <= 1 - u64.
Proof.
  intros H. pose proof (pred_ge_gt radix2 fexp64 (val64 s) 1 (val64_fmt s) one64 H) as P. change 1 with (bpow radix2 0) in P. rewrite pred_bpow in P. exact P.
Qed.
Lemma succ_one : succ radix2 fexp 1 = 1 + 2 * u.
Proof. rewrite succ_eq_pos by lra. f_equal. rewrite ulp_neq_0 by lra. unfold cexp. replace (mag radix2 1 : Z) with 1%Z by (symmetry; apply (mag_bpow radix2 0)). unfold u. cbn. lra. Qed.
Lemma rnd_one x : x < 1 + u -> rnd x <= 1.
Proof. intros H. apply round_N_le_midp. typeclasses eauto. apply one_fmt. rewrite succ_one. lra. Qed.

(** Casts. *)
Lemma of_int63 n : (Z.abs n <= 2 ^ 63)%Z -> val (f_of_int n) = rnd (IZR n) /\ fin (f_of_int n) = true.
Proof.
  intros H. pose proof (binary_normalize_correct 24 128 prec24 emax128 mode_NE n 0 false) as C. cbv zeta in C. cbn [round_mode] in C.
  assert (E : F2R (Float radix2 n 0) = IZR n) by (unfold F2R; cbn; lra). rewrite E in C.
  rewrite Rlt_bool_true in C. { unfold f_of_int. tauto. }
  apply rnd_small. rewrite <- abs_IZR. apply Rle_trans with (bpow radix2 63); [|apply bpow_le; lia]. change (bpow radix2 63) with (IZR (2 ^ 63)). now apply IZR_le.
Qed.
Lemma of_double x : fin64 x = true -> Rabs (val64 x) <= 1 -> val (f_of_double x) = rnd (val64 x) /\ fin (f_of_double x) = true.
Proof.
  destruct x as [s|s| |s m e H]; cbn [is_finite]; try discriminate; intros _ B.
  - cbn. rewrite rnd_0. auto.
  - pose proof (binary_normalize_correct 24 128 prec24 emax128 mode_NE (cond_Zopp s (Zpos m)) e s) as C. cbv zeta in C. cbn [round_mode] in C.
    cbn [f_of_double]. change (F2R (Float radix2 (cond_Zopp s (Zpos m)) e)) with (val64 (B754_finite s m e H)) in C.
    rewrite Rlt_bool_true in C; [tauto|]. apply rnd_small. pose proof bpow127. lra.
Qed.
Lemma d_sub_val x y : fin64 x = true -> fin64 y = true -> Rabs (val64 x - val64 y) <= 1 -> val64 (d_sub x y) = rnd64 (val64 x - val64 y) /\ fin64 (d_sub x y) = true.
Proof.
  intros A B H. pose proof (Bminus_correct 53 1024 prec53 emax1024 mode_NE x y A B) as C. cbn [round_mode] in C. rewrite Rlt_bool_true in C; [unfold d_sub; tauto|].
  apply Rle_lt_trans with 1; [|change 1 with (bpow radix2 0); apply bpow_lt; lia]. apply abs_round_le_generic; auto; try typeclasses eauto. apply one64.
Qed.

(** ** The progress *)
Section Progress.
  Variables (b e : Z).
  Hypothesis BE : (b < e)%Z.
  Hypothesis R1 : (e - b <= 2 ^ 63)%Z.
  Definition ratio (t : Z) : R := rnd (rnd (IZR (t - b)) / rnd (IZR (e - b))).
  Lemma den_pos : 1 <= rnd (IZR (e - b)).
  Proof. rewrite <- (rnd_id 1) by apply one_fmt. apply rnd_le. apply (IZR_le 1). lia. Qed.
  Lemma ratio_le t t' : (t <= t')%Z -> ratio t <= ratio t'.
  Proof. intros H. apply rnd_le. pose proof den_pos. unfold Rdiv. apply Rmult_le_compat_r; [left; apply Rinv_0_lt_compat; lra|]. apply rnd_le, IZR_le. lia. Qed.
  Lemma ratio_b : ratio b = 0.
  Proof. unfold ratio. replace (b - b)%Z with 0%Z by lia. rewrite rnd_0. unfold Rdiv. rewrite Rmult_0_l. apply rnd_0. Qed.
  Lemma ratio_e : ratio e = 1.
  Proof. unfold ratio. pose proof den_pos. unfold Rdiv. rewrite Rinv_r by lra. apply rnd_id, one_fmt. Qed.
  Lemma progress_val t : (Z.abs (t - b) <= 2 ^ 63)%Z -> val (progress_f b e t) = Rmin 1 (Rmax 0 (ratio t)) /\ fin (progress_f b e t) = true.
  Proof.
    intros T. pose proof den_pos as D. destruct (of_int63 (t - b) T) as [A1 A2]. destruct (of_int63 (e - b)) as [B1 B2]; [lia|].
    destruct (of_int_exact 1) as [O1 O2]; [cbn; lia|]. destruct (of_int_exact 0) as [Z1 Z2]; [cbn; lia|].
    destruct (div_val (f_of_int (t - b)) (f_of_int (e - b)) A2) as [C1 C2]. { rewrite B1. lra. }
    { rewrite A1, B1. unfold Rdiv. rewrite Rabs_mult, Rabs_inv, (Rabs_pos_eq (rnd (IZR (e - b)))) by lra. apply Rle_trans with (Rabs (rnd (IZR (t - b)))).
      - rewrite <- (Rmult_1_r (Rabs (rnd (IZR (t - b))))) at 2. apply Rmult_le_compat_l; [apply Rabs_pos|]. apply Rle_trans with (/ 1); [apply Rinv_le_contravar; lra|lra].
      - apply abs_round_le_generic; try typeclasses eauto. apply big_fmt. rewrite <- abs_IZR. apply Rle_trans with (IZR (2 ^ 63)); [now apply IZR_le|]. change (IZR (2 ^ 63)) with (bpow radix2 63). apply bpow_le. lia. }
    rewrite A1, B1 in C1. fold (ratio t) in C1. destruct (max_val (f_of_int 0) _ Z2 C2) as [M1 M2]. rewrite Z1, C1 in M1.
    destruct (min_val (f_of_int 1) _ O2 M2) as [N1 N2]. rewrite O1, M1 in N1. auto.
  Qed.
  Lemma clip_before t : (t <= b)%Z -> Rmin 1 (Rmax 0 (ratio t)) = 0.
  Proof. intros T. pose proof (ratio_le t b T). rewrite ratio_b in H. rewrite Rmax_left by lra. apply Rmin_right. lra. Qed.
  Lemma clip_after t : (e <= t)%Z -> Rmin 1 (Rmax 0 (ratio t)) = 1.
  Proof. intros T. pose proof (ratio_le e t T). rewrite ratio_e in H. rewrite Rmax_right by lra. apply Rmin_left. lra. Qed.
  Lemma clip_between t : (b <= t <= e)%Z -> Rmin 1 (Rmax 0 (ratio t)) = ratio t /\ 0 <= ratio t <= 1.
  Proof. intros T. pose proof (ratio_le t e ltac:(lia)). pose proof (ratio_le b t ltac:(lia)). rewrite ratio_e in H. rewrite ratio_b in H0. rewrite Rmax_right by lra. rewrite Rmin_right by lra. lra. Qed.
  Lemma clip_mono t t' : (t <= t')%Z -> Rmin 1 (Rmax 0 (ratio t)) <= Rmin 1 (Rmax 0 (ratio t')).
  Proof. intros T. apply Rle_min_compat_l, Rle_max_compat_l. now apply ratio_le. Qed.
  Lemma clip_unit t : 0 <= Rmin 1 (Rmax 0 (ratio t)) <= 1.
  Proof. split; [apply Rmin_glb; [lra|apply Rmax_l]|apply Rmin_l]. Qed.
  Lemma ratio_err t : (b < t < e)%Z -> Rabs (ratio t - IZR (t - b) / IZR (e - b)) <= 3 * u.
  Proof.
    intros T. set (A := IZR (t - b)). set (C := IZR (e - b)). assert (A1 : 1 <= A) by (apply (IZR_le 1); lia). assert (C1 : A < C) by (apply IZR_lt; lia).
    assert (P126 : bpow radix2 (-126) <= 1) by (change 1 with (bpow radix2 0); apply bpow_le; lia).
    destruct (rel A) as (d1 & D1 & E1); [lra|]. destruct (rel C) as (d2 & D2 & E2); [lra|]. apply Rabs_le_inv in D1. apply Rabs_le_inv in D2. assert (U : 0 < u < / 1000) by (unfold u; lra).
    assert (X : rnd A / rnd C - A / C = A / C * ((d1 - d2) * / (1 + d2))). { rewrite E1, E2. field. lra. }
    assert (Y : Rabs (rnd A / rnd C - A / C) <= 2.01 * u).
    { rewrite X, Rabs_mult. assert (0 < A / C < 1). { split; [apply Rdiv_lt_0_compat; lra|]. apply Rmult_lt_reg_r with C; [lra|]. unfold Rdiv. rewrite Rmult_assoc, Rinv_l by lra. lra. }
      rewrite (Rabs_pos_eq (A / C)) by lra. apply Rle_trans with (1 * Rabs ((d1 - d2) * / (1 + d2))); [apply Rmult_le_compat_r; [apply Rabs_pos|lra]|]. rewrite Rmult_1_l, Rabs_mult.
      rewrite Rabs_inv, (Rabs_pos_eq (1 + d2)) by lra. apply Rmult_le_reg_r with (1 + d2); [lra|]. rewrite Rmult_assoc, Rinv_l by lra. rewrite Rmult_1_r. apply Rle_trans with (2 * u); [apply Rabs_le; lra|]. nra. }
    assert (Z : Rabs (ratio t - rnd A / rnd C) <= u / 2).
    { unfold ratio. fold A C. apply abs_err. assert (L : rnd A <= rnd C) by (apply rnd_le; lra). assert (G : 0 <= rnd A) by (apply rnd_ge0; lra). pose proof den_pos as D. fold C in D.
      apply Rabs_le. split; [apply Rle_trans with 0; [lra|]; apply Rmult_le_pos; [lra|left; apply Rinv_0_lt_compat; lra]|]. apply Rmult_le_reg_r with (rnd C); [lra|]. unfold Rdiv. rewrite Rmult_assoc, Rinv_l by lra. lra. }
    replace (ratio t - A / C) with ((ratio t - rnd A / rnd C) + (rnd A / rnd C - A / C)) by ring. apply Rle_trans with (1 := Rabs_triang _ _). lra.
  Qed.
End Progress.

(** ** The interpolation *)
Section Mix.
  Variables (i f : f64).
  Hypothesis Fi : fin64 i = true.
  Hypothesis Ff : fin64 f = true.
  Hypothesis I1 : 0 <= val64 i < 1.
  Hypothesis F1 : 0 <= val64 f < 1.
  Definition dd : R := rnd (rnd64 (val64 i - val64 f)).
  Definition ff : R := rnd (val64 f).
  Definition mix (w : R) : R := rnd (rnd (dd * w) + ff).
  Lemma d64 : Rabs (rnd64 (val64 i - val64 f)) <= 1.
  Proof. apply abs_round_le_generic; try typeclasses eauto. apply one64. apply Rabs_le; lra. Qed.
  Lemma dd1 : Rabs dd <= 1.
  Proof. apply abs_round_le_generic; try typeclasses eauto. apply one_fmt. apply d64. Qed.
  Lemma ff1 : 0 <= ff <= 1.
  Proof. split; [apply rnd_ge0; lra|]. unfold ff. rewrite <- (rnd_id 1) by apply one_fmt. apply rnd_le. lra. Qed.
  Lemma dd_err : Rabs (dd - (val64 i - val64 f)) <= u / 2 + u64 / 2.
  Proof.
    pose proof (abs_err _ d64) as A. pose proof (abs_err64 (val64 i - val64 f) ltac:(apply Rabs_le; lra)) as B. fold dd in A.
    replace (dd - (val64 i - val64 f)) with ((dd - rnd64 (val64 i - val64 f)) + (rnd64 (val64 i - val64 f) - (val64 i - val64 f))) by ring. apply Rle_trans with (1 := Rabs_triang _ _). lra.
  Qed.
  Lemma ff_err : Rabs (ff - val64 f) <= u / 2. Proof. apply abs_err. apply Rabs_le; lra. Qed.
  Lemma dw w : 0 <= w <= 1 -> Rabs (dd * w) <= 1 /\ Rabs (rnd (dd * w)) <= 1.
  Proof.
    intros W. assert (A : Rabs (dd * w) <= 1). { rewrite Rabs_mult, (Rabs_pos_eq w) by lra. pose proof dd1. pose proof (Rabs_pos dd). nra. }
    split; auto. apply abs_round_le_generic; try typeclasses eauto. apply one_fmt. auto.
  Qed.
  Lemma sum_pos w : 0 <= w <= 1 -> 0 <= rnd (dd * w) + ff.
  Proof.
    intros W. assert (A : - ff <= dd).
    { unfold ff, dd. rewrite <- rnd_opp. apply rnd_le. rewrite <- (rnd64_id (- val64 f)) by apply generic_format_opp, val64_fmt. apply rnd64_le. lra. }
    assert (B : - ff <= rnd (dd * w)). { rewrite <- (rnd_id (- ff)) by (apply generic_format_opp, rnd_fmt). apply rnd_le. pose proof ff1. nra. }
    lra.
  Qed.
  Lemma sum_top w : 0 <= w <= 1 -> rnd (dd * w) + ff < 1 + u.
  Proof.
    intros W. pose proof u64_u as U. pose proof ff1 as Ff1. destruct (Rle_or_lt dd 0) as [D|D].
    - assert (rnd (dd * w) <= 0). { rewrite <- rnd_0. apply rnd_le. nra. } lra.
    - assert (A : rnd (dd * w) <= dd). { apply Rle_trans with (rnd dd); [apply rnd_le; nra|]. rewrite rnd_id by apply rnd_fmt. lra. }
      pose proof dd_err as B. pose proof ff_err as C. apply Rabs_le_inv in B, C. pose proof (below_one64 i (proj2 I1)). lra.
  Qed.
  Lemma mix_unit w : 0 <= w <= 1 -> 0 <= mix w <= 1.
  Proof. intros W. split; [apply rnd_ge0; now apply sum_pos|]. apply rnd_one. now apply sum_top. Qed.
  Lemma mix_err w : 0 <= w <= 1 -> Rabs (mix w - (val64 f + (val64 i - val64 f) * w)) <= 3 * u.
  Proof.
    intros W. pose proof u64_u as U. destruct (dw w W) as [A1 A2]. pose proof (abs_err _ A1) as E1. pose proof ff_err as E2. pose proof dd_err as E3. pose proof (sum_pos w W). pose proof (sum_top w W).
    assert (U1 : u < / 1000) by (unfold u; lra). pose proof (abs_err2 (rnd (dd * w) + ff) ltac:(rewrite Rabs_pos_eq; lra)) as E4. fold (mix w) in E4.
    apply Rabs_le_inv in E1, E2, E3, E4. apply Rabs_le. 
    assert (X : - (u / 2 + u64 / 2) <= (dd - (val64 i - val64 f)) * w <= u / 2 + u64 / 2) by nra.
    replace (mix w - (val64 f + (val64 i - val64 f) * w)) with ((mix w - (rnd (dd * w) + ff)) + (rnd (dd * w) - dd * w) + (ff - val64 f) + (dd - (val64 i - val64 f)) * w) by ring. lra.
  Qed.
  Lemma mix_0 : mix 0 = ff.
  Proof. unfold mix. rewrite Rmult_0_r, rnd_0, Rplus_0_l. apply rnd_id, rnd_fmt. Qed.
  Lemma mix_zero : val64 i = 0 -> mix 1 = 0.
  Proof.
    intros Z. unfold mix. rewrite Rmult_1_r, (rnd_id dd) by apply rnd_fmt. replace (dd + ff) with 0. apply rnd_0. unfold dd, ff. rewrite Z, Rminus_0_l, (rnd64_id (- _)) by apply generic_format_opp, val64_fmt. rewrite rnd_opp. ring.
  Qed.
  Lemma mix_up w w' : val64 i <= val64 f -> w' <= w -> mix w <= mix w'.
  Proof.
    intros L W. apply rnd_le, Rplus_le_compat_r, rnd_le. assert (dd <= 0). { unfold dd. rewrite <- rnd_0. apply rnd_le. rewrite <- (rnd64_id 0) by apply generic_format_0. apply rnd64_le. lra. } nra.
  Qed.
  Lemma mix_down w w' : val64 f <= val64 i -> w' <= w -> mix w' <= mix w.
  Proof.
    intros L W. apply rnd_le, Rplus_le_compat_r, rnd_le. assert (0 <= dd). { unfold dd. rewrite <- rnd_0. apply rnd_le. rewrite <- (rnd64_id 0) by apply generic_format_0. apply rnd64_le. lra. } nra.
  Qed.
  Lemma decay_val pow b e t : (b < e)%Z -> (e - b <= 2 ^ 63)%Z -> (Z.abs (t - b) <= 2 ^ 63)%Z ->
    (forall x, fin x = true -> 0 <= val x <= 1 -> fin (pow x) = true /\ 0 <= val (pow x) <= 1) ->
    let y := f_sub (f_of_int 1) (progress_f b e t) in
    fin y = true /\ val y = rnd (1 - Rmin 1 (Rmax 0 (ratio b e t))) /\ 0 <= val y <= 1 /\
    val (decay_f pow i f b e t) = mix (val (pow y)) /\ fin (decay_f pow i f b e t) = true.
  Proof.
    intros BE R1 T P y. destruct (progress_val b e BE R1 t T) as [A1 A2]. pose proof (clip_unit b e t) as Cu. destruct (of_int_exact 1) as [O1 O2]; [cbn; lia|]. pose proof bpow127 as P127.
    destruct (sub_val (f_of_int 1) (progress_f b e t) O2 A2) as [B1 B2]. { rewrite O1, A1. apply Rabs_le. lra. } fold y in B1, B2. rewrite O1, A1 in B1.
    assert (Y : 0 <= val y <= 1). { rewrite B1. split; [apply rnd_ge0; lra|]. apply Rle_trans with (rnd 1); [apply rnd_le; lra|]. rewrite rnd_id by apply one_fmt. lra. }
    destruct (P y B2 Y) as [C1 C2]. destruct (d_sub_val i f Fi Ff) as [D1 D2]. { apply Rabs_le; lra. } destruct (of_double (d_sub i f) D2) as [E1 E2]. { rewrite D1. apply d64. } rewrite D1 in E1. fold dd in E1.
    destruct (of_double f Ff) as [G1 G2]. { apply Rabs_le; lra. } fold ff in G1. destruct (dw (val (pow y)) C2) as [W1 W2].
    destruct (mul_val (f_of_double (d_sub i f)) (pow y) E2 C1) as [H1 H2]. { rewrite E1. lra. } rewrite E1 in H1.
    destruct (add_val _ (f_of_double f) H2 G2) as [K1 K2]. { rewrite H1, G1. pose proof ff1. apply Rabs_le_inv in W2. apply Rabs_le. lra. } rewrite H1, G1 in K1.
    repeat split; auto; try apply Y.
  Qed.
End Mix.
