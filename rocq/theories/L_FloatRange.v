From Coq Require Import Reals Qabs Qpower Qreals.
From Flocq Require Import Core BinarySingleNaN.
From Verif Require Import Base M_Float32 S_Float32 M_FloatSchedule M_FloatQuant S_FloatQuant M_FloatRange S_FloatRange L_Float32 L_Float32b L_Float32c L_FloatSchedule L_FloatSchedule2 L_FloatQuant L_FloatQuant2 L_FloatCluster.
From Coq Require Import Lra Psatz Lia.
Open Scope R_scope.

Notation B126 := (bpow radix2 126). Notation B127 := (bpow radix2 127).
Lemma B127_2 : B127 = 2 * B126. Proof. change B127 with (bpow radix2 (126 + 1)). rewrite bpow_plus_1. reflexivity. Qed.
Lemma B126_pos : 1024 <= B126. Proof. change 1024 with (bpow radix2 10). apply bpow_le. lia. Qed.
(** The ratio is represented exactly. *)
Definition ratioR (bits : nat) (narrow : bool) : R := if narrow then -1 else - (1 - 2 * bpow radix2 (- Z.of_nat bits)).
Lemma ratio_val bits narrow : (2 <= bits <= 24)%nat -> val (f_ratio bits narrow) = ratioR bits narrow /\ fin (f_ratio bits narrow) = true /\ -1 <= ratioR bits narrow <= - / 2.
Proof.
  intros H. unfold f_ratio, ratioR. destruct narrow.
  { destruct (of_int_exact (-1)) as [A B]; [cbn; lia|]. rewrite A, B. repeat split; lra. }
  assert (P : bpow radix2 (Z.of_nat bits) = IZR (2 ^ Z.of_nat bits)) by (rewrite <- IZR_Zpower by lia; reflexivity).
  assert (I : bpow radix2 (- Z.of_nat bits) * bpow radix2 (Z.of_nat bits) = 1) by (rewrite <- bpow_plus; replace (- Z.of_nat bits + Z.of_nat bits)%Z with 0%Z by lia; reflexivity).
  assert (Q : bpow radix2 (- Z.of_nat bits) <= bpow radix2 (-2)) by (apply bpow_le; lia). change (bpow radix2 (-2)) with (/ 4) in Q.
  pose proof (bpow_gt_0 radix2 (- Z.of_nat bits)) as Q0.
  pose proof (binary_normalize_correct 24 128 prec24 emax128 mode_NE (- (2 ^ Z.of_nat bits - 2)) (- Z.of_nat bits) false) as C. cbv zeta in C. cbn [round_mode] in C.
  assert (E : F2R (Float radix2 (- (2 ^ Z.of_nat bits - 2)) (- Z.of_nat bits)) = - (1 - 2 * bpow radix2 (- Z.of_nat bits))).
  { unfold F2R. cbn [Fnum Fexp]. rewrite opp_IZR, minus_IZR, <- P. nra. }
  assert (F : fmt (- (1 - 2 * bpow radix2 (- Z.of_nat bits)))).
  { rewrite <- E. apply generic_format_FLT with (emin := (-149)%Z) (prec := 24%Z). eexists; [reflexivity| |].
    - cbn [Fnum]. rewrite Z.abs_opp. assert (2 ^ 2 <= 2 ^ Z.of_nat bits <= 2 ^ 24)%Z by (split; apply Z.pow_le_mono_r; lia). change (Zpower radix2 24) with (2 ^ 24)%Z. lia.
    - cbn [Fexp]. lia. }
  rewrite E in C. rewrite (rnd_id _ F) in C. rewrite Rlt_bool_true in C. { destruct C as (C1 & C2 & _). rewrite C1, C2. repeat split; lra. }
  apply Rle_lt_trans with 1; [apply Rabs_le; lra|]. change 1 with (bpow radix2 0). apply bpow_lt. lia.
Qed.

(** Ranges. *)
Definition okr (r : f32 * f32) : Prop := fin (fst r) = true /\ fin (snd r) = true /\ - B127 <= val (fst r) <= 0 /\ 0 <= val (snd r) <= B127.
Lemma rnd_le127 x : Rabs x <= B127 -> Rabs (rnd x) <= B127. Proof. intros H. apply abs_round_le_generic; auto; try typeclasses eauto. apply big_fmt. Qed.
Lemma rnd_le0 x : x <= 0 -> rnd x <= 0. Proof. intros H. rewrite <- rnd_0. now apply rnd_le. Qed.
Section Widen.
  Context (a b : f32) (bits : nat) (narrow : bool) (Hb : (2 <= bits <= 24)%nat).
  Context (Fa : fin a = true) (Fb : fin b = true) (Ma : Rabs (val a) <= B126) (Mb : Rabs (val b) <= B126).
  Notation rho := (ratioR bits narrow).
  Lemma quot_bound : Rabs (val b / rho) <= B127.
  Proof.
    destruct (ratio_val bits narrow Hb) as (_ & _ & R). unfold Rdiv. rewrite Rabs_mult, Rabs_inv, (Rabs_left1 rho) by lra. rewrite B127_2, Rmult_comm.
    apply Rmult_le_compat; auto using Rabs_pos. { left. apply Rinv_0_lt_compat. lra. }
    rewrite <- (Rinv_inv 2). apply Rinv_le_contravar; lra.
  Qed.
  Lemma quot_val : val (f_div b (f_ratio bits narrow)) = rnd (val b / rho) /\ fin (f_div b (f_ratio bits narrow)) = true.
  Proof. destruct (ratio_val bits narrow Hb) as (V & F & R). destruct (div_val b (f_ratio bits narrow) Fb) as [A B]; rewrite V in *; try lra; [apply quot_bound|]. auto. Qed.
  Lemma prod_bound x : Rabs x <= B127 -> Rabs (x * rho) <= B127.
  Proof.
    intros H. destruct (ratio_val bits narrow Hb) as (_ & _ & R). rewrite Rabs_mult, (Rabs_left1 rho) by lra. pose proof (Rabs_pos x).
    apply Rle_trans with (Rabs x * 1); [apply Rmult_le_compat_l; lra|lra].
  Qed.
  Lemma prod_val x : fin x = true -> Rabs (val x) <= B127 -> val (f_mul x (f_ratio bits narrow)) = rnd (val x * rho) /\ fin (f_mul x (f_ratio bits narrow)) = true.
  Proof. intros F H. destruct (ratio_val bits narrow Hb) as (V & F' & R). destruct (mul_val x (f_ratio bits narrow) F F') as [A B]; rewrite V in *; [now apply prod_bound|]. auto. Qed.
  Lemma quot_sign : (0 <= val b -> val b / rho <= 0) /\ (val b <= 0 -> 0 <= val b / rho).
  Proof.
    destruct (ratio_val bits narrow Hb) as (_ & _ & R). assert (/ rho < 0) by (apply Rinv_lt_0_compat; lra). unfold Rdiv. split; intros; nra.
  Qed.
  Lemma a127 : Rabs (val a) <= B127. Proof. pose proof B127_2. pose proof B126_pos. lra. Qed.
  Lemma b127 : Rabs (val b) <= B127. Proof. pose proof B127_2. pose proof B126_pos. lra. Qed.
  Lemma widen_val symmetric :
    fin (fst (widen_f symmetric bits narrow a b)) = true /\ fin (snd (widen_f symmetric bits narrow a b)) = true /\
    val (fst (widen_f symmetric bits narrow a b)) = Rmin (val a) (if symmetric then rnd (val b / rho) else 0) /\
    val (snd (widen_f symmetric bits narrow a b)) = Rmax (val b) (if symmetric then rnd (val a * rho) else 0).
  Proof.
    unfold widen_f. destruct symmetric; cbn [fst snd].
    - destruct quot_val as [Q1 Q2]. destruct (prod_val a Fa a127) as [P1 P2]. rewrite <- Q1, <- P1.
      destruct (min_val a _ Fa Q2) as [X1 X2]. destruct (max_val b _ Fb P2) as [Y1 Y2]. auto.
    - destruct zero_val as [Z1 Z2]. rewrite <- Z1. destruct (min_val a _ Fa Z2) as [X1 X2]. destruct (max_val b _ Fb Z2) as [Y1 Y2]. auto.
  Qed.
  Lemma widen_ok symmetric : val a <= val b -> okr (widen_f symmetric bits narrow a b).
  Proof.
    intros L. destruct (widen_val symmetric) as (F1 & F2 & V1 & V2). unfold okr. rewrite F1, F2, V1, V2. split; auto. split; auto.
    pose proof a127 as A. pose proof b127 as B. apply Rabs_le_inv in A. apply Rabs_le_inv in B. pose proof B127_2. pose proof B126_pos.
    assert (Y : (if symmetric then - B127 <= rnd (val b / rho) else - B127 <= 0) /\ (if symmetric then rnd (val a * rho) <= B127 else 0 <= B127)).
    { destruct symmetric; [|lra]. pose proof (rnd_le127 _ quot_bound) as Q. pose proof (rnd_le127 _ (prod_bound _ a127)) as P. apply Rabs_le_inv in Q. apply Rabs_le_inv in P. lra. }
    assert (Z : Rmin (val a) (if symmetric then rnd (val b / rho) else 0) <= 0 /\ 0 <= Rmax (val b) (if symmetric then rnd (val a * rho) else 0)).
    { destruct symmetric; [|split; [apply Rmin_r|apply Rmax_r]]. destruct (Rle_dec 0 (val b)) as [P|P].
      - split; [apply Rle_trans with (1 := Rmin_r _ _); apply rnd_le0, quot_sign, P|apply Rle_trans with (2 := Rmax_l _ _); auto].
      - split; [apply Rle_trans with (1 := Rmin_l _ _); lra|apply Rle_trans with (2 := Rmax_r _ _); apply rnd_ge0].
        destruct (ratio_val bits narrow Hb) as (_ & _ & R). nra. }
    destruct Z as [Z1 Z2]. destruct Y as [Y1 Y2]. repeat split; auto.
    - apply Rmin_glb; [lra|destruct symmetric; lra]. - apply Rmax_lub; [lra|destruct symmetric; lra].
  Qed.
End Widen.

(** The moving average stays between its value and the new one. *)
Lemma rate_val : fin ema_rate = true /\ 0 <= val ema_rate <= / 500.
Proof.
  assert (E : (number ema_rate == 8589935 # 8589934592)%Q) by (vm_compute; reflexivity).
  split; [vm_compute; reflexivity|]. apply Qeq_eqR in E. rewrite number_val in E. rewrite E. unfold Q2R. cbn. lra.
Qed.
