(** The schedules in float32: statements over the rationals. *)
From Coq Require Import Reals Psatz Lia Qreals RMicromega Qabs Qpower.
From Flocq Require Import Core BinarySingleNaN Relative.
From Verif Require Import Base M_Float32 S_Float32 L_Float32 L_Float32b L_Float32c M_FloatSchedule S_FloatSchedule L_FloatSchedule.
From Coq Require Import Lra.
Open Scope Q_scope.

Lemma zero_R : Q2R 0 = 0%R. Proof. unfold Q2R. cbn. lra. Qed.
Lemma number64_val (f : f64) : Q2R (number64 f) = val64 f.
Proof.
  destruct f as [s|s| |s m e H]; cbn [number64 B2R]; try (unfold Q2R; cbn; lra).
  rewrite Q2R_mult, Q2R_int, Q2R_pow2. unfold F2R. cbn [Fnum Fexp]. destruct s; reflexivity.
Qed.
Lemma le_R x y : x <= y <-> (Q2R x <= Q2R y)%R. Proof. split; [apply Qle_Rle|apply Rle_Qle]. Qed.
Lemma lt_R x y : x < y <-> (Q2R x < Q2R y)%R. Proof. split; [apply Qlt_Rlt|apply Rlt_Qlt]. Qed.
Lemma eq_R x y : x == y <-> Q2R x = Q2R y. Proof. split; [apply Qeq_eqR|apply eqR_Qeq]. Qed.
Lemma unit_val x : in_unit x <-> fin x = true /\ (0 <= val x <= 1)%R.
Proof. unfold in_unit, finite. rewrite !le_R, number_val, zero_R, one_R. tauto. Qed.
Lemma sparsity64_val x : sparsity64 x <-> fin64 x = true /\ (0 <= val64 x < 1)%R.
Proof. unfold sparsity64, finite64. rewrite le_R, lt_R, number64_val, zero_R, one_R. tauto. Qed.
Lemma u_eps : (4 * u = Q2R eps)%R. Proof. rewrite eps_R. unfold u. lra. Qed.
Lemma close_R x y : (Rabs (Q2R x - Q2R y) <= 4 * u)%R -> close x y.
Proof. intros H. unfold close. rewrite le_R, abs_R, Q2R_minus, <- u_eps. exact H. Qed.
Lemma close_val x y : close x y -> (Rabs (Q2R x - Q2R y) <= 4 * u)%R.
Proof. unfold close. rewrite le_R, abs_R, Q2R_minus, <- u_eps. auto. Qed.
Lemma nz b e : (b < e)%Z -> ~ inject_Z (e - b) == 0. Proof. intros H. unfold Qeq. cbn [inject_Z Qnum Qden]. lia. Qed.
Lemma u_pos : (0 < u < / 1000)%R. Proof. unfold u. lra. Qed.

Theorem accepted x : validate_sparsity_f x = Ok tt <-> sparsity64 x.
Proof.
  rewrite sparsity64_val. unfold validate_sparsity_f. set (one := binary_normalize 53 1024 prec53 emax1024 mode_NE 1 0 false).
  assert (O : val64 one = 1%R) by (vm_compute; lra). assert (O2 : fin64 one = true) by reflexivity.
  destruct (is_finite x) eqn:E.
  - rewrite (Bleb_correct _ _ (B754_zero false) x eq_refl E), (Bltb_correct _ _ x one E O2), O. cbn [B2R].
    destruct (Rle_bool_spec 0 (val64 x)), (Rlt_bool_spec (val64 x) 1); cbn [andb]; split; intros H1; try discriminate; try (split; auto; lra); try reflexivity; lra.
  - destruct x as [s|[]| |]; try discriminate; cbn; split; try discriminate; intros [A _]; discriminate.
Qed.

(** The progress. *)
Section Progress.
  Variables (b e : Z).
  Hypothesis BE : (b < e)%Z.
  Hypothesis R1 : (e - b <= 2 ^ 63)%Z.
  Variable t : Z.
  Hypothesis T : (Z.abs (t - b) <= 2 ^ 63)%Z.
  Lemma progress_unit : in_unit (progress_f b e t).
  Proof. apply unit_val. destruct (progress_val b e BE R1 t T) as [-> ->]. split; auto. apply clip_unit. Qed.
  Lemma progress_start : (t <= b)%Z -> number (progress_f b e t) == 0.
  Proof. intros H. apply eq_R. rewrite number_val, zero_R. destruct (progress_val b e BE R1 t T) as [-> _]. now apply clip_before. Qed.
  Lemma progress_end : (e <= t)%Z -> number (progress_f b e t) == 1.
  Proof. intros H. apply eq_R. rewrite number_val, one_R. destruct (progress_val b e BE R1 t T) as [-> _]. now apply clip_after. Qed.
  Lemma progress_R : (Rabs (Rmin 1 (Rmax 0 (ratio b e t)) - Q2R (progress b e t)) <= 3 * u)%R.
  Proof.
    pose proof u_pos as U. unfold progress. destruct (Z.leb_spec t b) as [H|H].
    - rewrite clip_before, zero_R by auto. rewrite Rminus_0_r, Rabs_R0. lra.
    - destruct (Z.leb_spec e t) as [H2|H2].
      + rewrite clip_after, one_R by auto. rewrite Rminus_eq_0, Rabs_R0. lra.
      + destruct (clip_between b e BE t) as [-> _]; [lia|]. rewrite Q2R_div, !Q2R_int. { apply ratio_err; auto; lia. } now apply nz.
  Qed.
  Lemma progress_close : close (number (progress_f b e t)) (progress b e t).
  Proof. apply close_R. rewrite number_val. destruct (progress_val b e BE R1 t T) as [-> _]. pose proof progress_R. pose proof u_pos. lra. Qed.
End Progress.
Theorem progress_up b e t t' : (b < e)%Z -> (e - b <= 2 ^ 63)%Z -> (Z.abs (t - b) <= 2 ^ 63)%Z -> (Z.abs (t' - b) <= 2 ^ 63)%Z -> (t <= t')%Z ->
  number (progress_f b e t) <= number (progress_f b e t').
Proof. intros BE R1 T T' H. apply le_R. rewrite !number_val. destruct (progress_val b e BE R1 t T) as [-> _]. destruct (progress_val b e BE R1 t' T') as [-> _]. now apply clip_mono. Qed.

Section Decay.
  Variables (pow : f32 -> f32) (i f : f64) (b e : Z).
  Hypothesis P : is_power pow.
  Hypothesis Hi : sparsity64 i.
  Hypothesis Hf : sparsity64 f.
  Hypothesis BE : (b < e)%Z.
  Hypothesis R1 : (e - b <= 2 ^ 63)%Z.
  Lemma pow_R x : fin x = true -> (0 <= val x <= 1)%R -> fin (pow x) = true /\ (0 <= val (pow x) <= 1)%R.
  Proof. intros A B. apply unit_val. apply P. apply unit_val. auto. Qed.
  Lemma Di t : (Z.abs (t - b) <= 2 ^ 63)%Z -> exists y : f32, in_unit y /\ val y = rnd (1 - Rmin 1 (Rmax 0 (ratio b e t))) /\
    val (decay_f pow i f b e t) = mix i f (val (pow y)) /\ fin (decay_f pow i f b e t) = true /\ (0 <= val (pow y) <= 1)%R.
  Proof.
    intros T. apply sparsity64_val in Hi as (A & B). apply sparsity64_val in Hf as (C & D).
    pose proof (decay_val i f A C B D pow b e t BE R1 T pow_R) as X. cbv zeta in X. destruct X as (Y1 & Y2 & Y3 & Y4 & Y5).
    exists (f_sub (f_of_int 1) (progress_f b e t)). split; [apply unit_val; auto|]. split; [exact Y2|]. split; [exact Y4|]. split; [exact Y5|]. apply pow_R; auto.
  Qed.
  Lemma decay_unit t : (Z.abs (t - b) <= 2 ^ 63)%Z -> in_unit (decay_f pow i f b e t).
  Proof.
    intros T. destruct (Di t T) as (y & Y1 & Y2 & Y3 & Y4 & Y5). apply unit_val. rewrite Y3, Y4. split; auto. apply sparsity64_val in Hi as (A & B). apply sparsity64_val in Hf as (C & D). now apply mix_unit.
  Qed.
  Lemma constant_R : val (constant_f f) = ff f.
  Proof. apply sparsity64_val in Hf as (C & D). apply of_double; auto. apply Rabs_le. lra. Qed.
  Lemma pow_end t : (e <= t)%Z -> forall y, in_unit y -> val y = rnd (1 - Rmin 1 (Rmax 0 (ratio b e t))) -> val (pow y) = 0%R.
  Proof.
    intros T y Y1 Y2. rewrite clip_after, Rminus_eq_0, rnd_0 in Y2 by auto. rewrite <- number_val, <- zero_R. apply eq_R. apply P; auto. apply eq_R. rewrite number_val, zero_R. exact Y2.
  Qed.
  Lemma pow_start t : (t <= b)%Z -> forall y, in_unit y -> val y = rnd (1 - Rmin 1 (Rmax 0 (ratio b e t))) -> val (pow y) = 1%R.
  Proof.
    intros T y Y1 Y2. rewrite clip_before, Rminus_0_r, (rnd_id 1) in Y2 by (auto; apply one_fmt). rewrite <- number_val, <- one_R. apply eq_R. apply P; auto. apply eq_R. rewrite number_val, one_R. exact Y2.
  Qed.
  Lemma decay_final t : (Z.abs (t - b) <= 2 ^ 63)%Z -> (e <= t)%Z -> number (decay_f pow i f b e t) == number (constant_f f).
  Proof.
    intros T H. destruct (Di t T) as (y & Y1 & Y2 & Y3 & Y4 & Y5). apply eq_R. rewrite !number_val, Y3, constant_R. rewrite (pow_end t H y Y1 Y2). apply mix_0.
  Qed.
  Lemma decay_initial t : (Z.abs (t - b) <= 2 ^ 63)%Z -> (t <= b)%Z -> close (number (decay_f pow i f b e t)) (number64 i) /\ (number64 i == 0 -> number (decay_f pow i f b e t) == 0).
  Proof.
    intros T H. destruct (Di t T) as (y & Y1 & Y2 & Y3 & Y4 & Y5). pose proof Hi as Hi'. pose proof Hf as Hf'. apply sparsity64_val in Hi' as (A & B). apply sparsity64_val in Hf' as (C & D). rewrite (pow_start t H y Y1 Y2) in Y3. pose proof u_pos as U. split.
    - apply close_R. rewrite number_val, number64_val, Y3. pose proof (mix_err i f B D 1 ltac:(lra)) as M. replace (val64 f + (val64 i - val64 f) * 1)%R with (val64 i) in M by ring. lra.
    - intros Z. apply eq_R. rewrite number_val, Y3, zero_R. apply mix_zero. rewrite <- number64_val. rewrite <- zero_R. now apply eq_R.
  Qed.
  Lemma arg_up t t' : (t <= t')%Z -> (rnd (1 - Rmin 1 (Rmax 0 (ratio b e t'))) <= rnd (1 - Rmin 1 (Rmax 0 (ratio b e t))))%R.
  Proof. intros H. apply rnd_le. pose proof (clip_mono b e BE t t' H). lra. Qed.
  Lemma decay_mono t t' : (Z.abs (t - b) <= 2 ^ 63)%Z -> (Z.abs (t' - b) <= 2 ^ 63)%Z -> (t <= t')%Z ->
    (number64 i <= number64 f -> number (decay_f pow i f b e t) <= number (decay_f pow i f b e t')) /\
    (number64 f <= number64 i -> number (decay_f pow i f b e t') <= number (decay_f pow i f b e t)).
  Proof.
    intros T T' H. destruct (Di t T) as (y & Y1 & Y2 & Y3 & Y4 & Y5). destruct (Di t' T') as (z & Z1 & Z2 & Z3 & Z4 & Z5).
    assert (W : (val (pow z) <= val (pow y))%R). { rewrite <- !number_val. apply le_R. apply P; auto. apply le_R. rewrite !number_val, Y2, Z2. now apply arg_up. }
    split; intros L; apply le_R; rewrite !number_val, Y3, Z3; apply le_R in L; rewrite !number64_val in L; [now apply mix_up|now apply mix_down].
  Qed.
  Lemma decay_below t : (Z.abs (t - b) <= 2 ^ 63)%Z -> number64 i <= 1 - eps -> number64 f <= 1 - eps -> is_sparsity (decay_f pow i f b e t).
  Proof.
    intros T Li Lf. destruct (decay_unit t T) as (A & B & _). repeat split; auto. destruct (Di t T) as (y & Y1 & Y2 & Y3 & Y4 & Y5).
    apply sparsity64_val in Hi as (A1 & B1). apply sparsity64_val in Hf as (C1 & D1). apply lt_R. rewrite number_val, one_R, Y3. apply le_R in Li, Lf. rewrite Q2R_minus, one_R, <- u_eps, number64_val in Li, Lf.
    pose proof (mix_err i f B1 D1 _ Y5) as M. apply Rabs_le_inv in M. pose proof u_pos. assert (val64 f + (val64 i - val64 f) * val (pow y) <= 1 - 4 * u)%R by nra. lra.
  Qed.

  (** Accuracy, for an integral power. *)
  Lemma pow_lip n x y : (0 <= x <= 1)%R -> (0 <= y <= 1)%R -> (Rabs (x ^ n - y ^ n) <= INR n * Rabs (x - y))%R.
  Proof.
    intros X Y. induction n as [|n IH]. { cbn. rewrite Rminus_eq_0, Rabs_R0. lra. }
    rewrite S_INR. cbn [Rpow_def.pow]. replace (x * x ^ n - y * y ^ n)%R with (x * (x ^ n - y ^ n) + (x - y) * y ^ n)%R by ring. apply Rle_trans with (1 := Rabs_triang _ _).
    rewrite !Rabs_mult, (Rabs_pos_eq x), (Rabs_pos_eq (y ^ n)) by (try apply pow_le; lra).
    assert (0 <= y ^ n <= 1)%R. { split; [apply pow_le; lra|]. rewrite <- (pow1 n). apply pow_incr. lra. }
    pose proof (Rabs_pos (x ^ n - y ^ n)). pose proof (Rabs_pos (x - y)). nra.
  Qed.
  Lemma decay_accurate n t : (Z.abs (t - b) <= 2 ^ 63)%Z -> (forall x, in_unit x -> close (number (pow x)) (number x ^ Z.of_nat n)) ->
    Qabs (number (decay_f pow i f b e t) - (number64 f + (number64 i - number64 f) * (1 - progress b e t) ^ Z.of_nat n)) <= inject_Z (Z.of_nat n + 2) * eps.
  Proof.
    intros T Cl. destruct (Di t T) as (y & Y1 & Y2 & Y3 & Y4 & Y5). pose proof Hi as Hi'. pose proof Hf as Hf'. apply sparsity64_val in Hi' as (A1 & B1). apply sparsity64_val in Hf' as (C1 & D1).
    pose proof (Cl y Y1) as Cy. apply close_val in Cy. pose proof u_pos as U.
    assert (PW : forall q : Q, Q2R (q ^ Z.of_nat n) = (Q2R q ^ n)%R). { intros q. clear. induction n as [|m IH]; [unfold Q2R; cbn; lra|]. rewrite Nat2Z.inj_succ. rewrite <- Z.add_1_r. cbn [Rpow_def.pow]. assert (E : q ^ (Z.of_nat m + 1) == q * q ^ Z.of_nat m). { destruct m; [cbn; ring|]. rewrite Qpower_plus' by lia. ring. } apply eq_R in E. rewrite E, Q2R_mult, IH. reflexivity. }
    apply le_R. rewrite abs_R, Q2R_minus, Q2R_plus, (Q2R_mult (_ - _)), (Q2R_mult (inject_Z _)), Q2R_minus, PW, Q2R_minus, Q2R_int, !number_val, !number64_val, one_R, Y3, <- u_eps, plus_IZR, <- INR_IZR_INZ.
    rewrite PW, !number_val in Cy. set (w := val (pow y)) in *. set (g := (1 - Q2R (progress b e t))%R).
    pose proof (mix_err i f B1 D1 w Y5) as M. pose proof (progress_R b e BE t) as PR.
    pose proof (clip_unit b e t) as Cu. set (p := Rmin 1 (Rmax 0 (ratio b e t))) in *.
    assert (G : (Rabs (val y - g) <= 3.5 * u)%R).
    { pose proof (abs_err (1 - p) ltac:(apply Rabs_le; lra)) as Er. rewrite <- Y2 in Er. apply Rabs_le_inv in Er, PR. unfold g. apply Rabs_le. lra. }
    assert (G1 : (0 <= g <= 1)%R).
    { unfold g, progress. destruct (Z.leb_spec t b); [rewrite zero_R; lra|]. destruct (Z.leb_spec e t); [rewrite one_R; lra|]. rewrite Q2R_div, !Q2R_int. 2:{ now apply nz. }
      assert (0 <= IZR (t - b) <= IZR (e - b))%R by (split; apply IZR_le; lia). assert (0 < IZR (e - b))%R by (apply IZR_lt; lia).
      assert (0 <= IZR (t - b) / IZR (e - b) <= 1)%R; [|lra]. split; [apply Rmult_le_pos; [lra|left; now apply Rinv_0_lt_compat]|]. apply Rmult_le_reg_r with (IZR (e - b)); [lra|]. unfold Rdiv. rewrite Rmult_assoc, Rinv_l by lra. lra. }
    apply unit_val in Y1 as (_ & Y1). pose proof (pow_lip n (val y) g Y1 G1) as L. pose proof (pos_INR n) as N0.
    assert (E : (Rabs (w - g ^ n) <= 4 * u + INR n * (3.5 * u))%R). { replace (w - g ^ n)%R with ((w - val y ^ n) + (val y ^ n - g ^ n))%R by ring. apply Rle_trans with (1 := Rabs_triang _ _). assert (INR n * Rabs (val y - g) <= INR n * (3.5 * u))%R by (apply Rmult_le_compat_l; auto). lra. }
    replace (mix i f w - (val64 f + (val64 i - val64 f) * g ^ n))%R with ((mix i f w - (val64 f + (val64 i - val64 f) * w)) + (val64 i - val64 f) * (w - g ^ n))%R by ring.
    apply Rle_trans with (1 := Rabs_triang _ _). assert (Rabs ((val64 i - val64 f) * (w - g ^ n)) <= Rabs (w - g ^ n))%R. { rewrite Rabs_mult. pose proof (Rabs_pos (w - g ^ n)). assert (Rabs (val64 i - val64 f) <= 1)%R by (apply Rabs_le; lra). nra. }
    nra.
  Qed.
End Decay.
Lemma constant_unit f : sparsity64 f -> in_unit (constant_f f) /\ close (number (constant_f f)) (number64 f) /\ (number64 f <= 1 - eps -> is_sparsity (constant_f f)).
Proof.
  intros Hf. pose proof (constant_R f Hf) as C. apply sparsity64_val in Hf as (F & R). assert (V : fin (constant_f f) = true) by (apply of_double; auto; apply Rabs_le; lra). pose proof (ff1 f R) as F1. pose proof (ff_err f R) as E. pose proof u_pos as U. rewrite <- C in E, F1. split; [|split].
  - apply unit_val. auto.
  - apply close_R. rewrite number_val, number64_val. lra.
  - intros L. apply le_R in L. rewrite number64_val, Q2R_minus, one_R, <- u_eps in L. apply Rabs_le_inv in E. repeat split; auto; [apply le_R; rewrite zero_R|apply lt_R; rewrite one_R]; rewrite number_val; lra.
Qed.
