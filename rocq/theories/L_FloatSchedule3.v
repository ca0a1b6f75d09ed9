(** A power that meets the contract: the cube (the default power is 3). *)
From Coq Require Import Reals Psatz Lia Qreals RMicromega Qabs Qpower.
From Flocq Require Import Core BinarySingleNaN Relative.
From Verif Require Import Base M_Float32 S_Float32 L_Float32 L_Float32b L_Float32c M_FloatSchedule S_FloatSchedule L_FloatSchedule L_FloatSchedule2.
From Coq Require Import Lra.
Open Scope Q_scope.

Definition cube (x : f32) : f32 := f_mul x (f_mul x x).
Lemma prod_unit x y : fin x = true -> (0 <= val x <= 1)%R -> fin y = true -> (0 <= val y <= 1)%R ->
  val (f_mul x y) = rnd (val x * val y) /\ fin (f_mul x y) = true /\ (0 <= val (f_mul x y) <= 1)%R.
Proof.
  intros A B C D. assert (E : (0 <= val x * val y <= 1)%R) by nra. pose proof bpow127. destruct (mul_val x y A C) as [H1 H2]. { rewrite Rabs_pos_eq; lra. }
  rewrite H1. repeat split; auto. - apply rnd_ge0. lra. - apply Rle_trans with (rnd 1); [apply rnd_le; lra|]. rewrite rnd_id by apply one_fmt. lra.
Qed.
Lemma cube_val x : in_unit x -> val (cube x) = rnd (val x * rnd (val x * val x)) /\ in_unit (cube x) /\ (0 <= val x <= 1)%R /\ (0 <= rnd (val x * val x) <= 1)%R.
Proof.
  intros H. apply unit_val in H as (A & B). destruct (prod_unit x x A B A B) as (C1 & C2 & C3). destruct (prod_unit x (f_mul x x) A B C2 C3) as (D1 & D2 & D3).
  rewrite C1 in D1, C3. split; auto. split; [apply unit_val; auto|auto].
Qed.
Theorem cube_power : is_power cube.
Proof.
  split; [|split; [|split]].
  - intros x H. now apply cube_val.
  - intros x H Z. destruct (cube_val x H) as (E & _). apply eq_R. apply eq_R in Z. rewrite number_val, zero_R in *. rewrite E, Z, Rmult_0_l. apply rnd_0.
  - intros x H Z. destruct (cube_val x H) as (E & _). apply eq_R. apply eq_R in Z. rewrite number_val, one_R in *. rewrite E, Z, !Rmult_1_l. rewrite !(rnd_id 1); auto using one_fmt.
  - intros x y H H2 L. destruct (cube_val x H) as (E & _ & A & B). destruct (cube_val y H2) as (E2 & _ & A2 & B2). apply le_R. apply le_R in L. rewrite !number_val in *. rewrite E, E2. apply rnd_le.
    assert (rnd (val x * val x) <= rnd (val y * val y))%R by (apply rnd_le; nra). nra.
Qed.
Theorem cube_close x : in_unit x -> close (number (cube x)) (number x ^ Z.of_nat 3).
Proof.
  intros H. destruct (cube_val x H) as (E & _ & A & B). apply close_R. change (Z.of_nat 3) with 3%Z. assert (E3 : number x ^ 3 == number x * number x * number x) by (cbn; ring). apply eq_R in E3. rewrite E3,  !Q2R_mult, !number_val, E.
  pose proof (abs_err (val x * val x) ltac:(rewrite Rabs_pos_eq; nra)) as E1. pose proof (abs_err (val x * rnd (val x * val x)) ltac:(rewrite Rabs_pos_eq; nra)) as E2. pose proof u_pos. apply Rabs_le_inv in E1, E2. apply Rabs_le.
  set (s := rnd (val x * val x)) in *. assert (- (u / 2) <= val x * (s - val x * val x) <= u / 2)%R by nra. split; nra.
Qed.
