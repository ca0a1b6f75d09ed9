(** The Hadamard transform in float32: rounding. *)
From Coq Require Import Reals Psatz Lia.
From Flocq Require Import Core BinarySingleNaN.
From Verif Require Import Base M_Float32 L_Float32 L_Float32b L_FloatSchedule L_FloatQuant M_Hadamard L_Hadamard L_Kashin M_FloatHadamard L_FloatHadamard.
From Coq Require Import Lra.
Open Scope R_scope.

Notation F := (map (@B2R 24 128)).
(** Finite entries of magnitude at most 2^e. *)
Definition upto (e : Z) (x : list f32) : Prop := Forall (fun v => fin v = true /\ Rabs (val v) <= bpow radix2 e) x.
Definition near (c t : R) (a b : list R) : Prop := Forall2 (fun x y => Rabs (x - y) <= c * Rabs y + t) a b.
Lemma u_small : 0 < u < / 1000000. Proof. unfold u. lra. Qed.
Lemma pairs_map : forall h x, length x = (2 * h)%nat -> pairs (F x) = map (fun p => (val (fst p), val (snd p))) (pairs_f x).
Proof. induction h as [|h IH]; intros x E. { destruct x; [reflexivity|discriminate]. } destruct x as [|a [|b x]]; cbn [length] in E; try lia. cbn [map pairs pairs_f fst snd]. rewrite (IH x) by lia. reflexivity. Qed.
Lemma pairs_upto e : forall h x, length x = (2 * h)%nat -> upto e x -> length (pairs_f x) = h /\ Forall (fun p => (fin (fst p) = true /\ Rabs (val (fst p)) <= bpow radix2 e) /\ (fin (snd p) = true /\ Rabs (val (snd p)) <= bpow radix2 e)) (pairs_f x).
Proof.
  induction h as [|h IH]; intros x E U. { destruct x; [split; [reflexivity|constructor]|discriminate]. } destruct x as [|a [|b x]]; cbn [length] in E; try lia.
  inversion U as [|? ? A U1]; subst. inversion U1 as [|? ? B U2]; subst. destruct (IH x ltac:(lia) U2) as [I1 I2]. cbn [pairs_f length]. split; [lia|]. constructor; auto.
Qed.
Lemma forall_map_ {A B} (f : A -> B) (P : B -> Prop) l : Forall P (map f l) <-> Forall (fun a => P (f a)) l.
Proof. apply Forall_map. Qed.
Lemma forall2_map {A B C} (f : A -> B) (g : A -> C) (P : B -> C -> Prop) l : Forall (fun a => P (f a) (g a)) l -> Forall2 P (map f l) (map g l).
Proof. induction 1; cbn; constructor; auto. Qed.
Lemma pow_dbl e : bpow radix2 (e + 1) = 2 * bpow radix2 e. Proof. rewrite bpow_plus. change (bpow radix2 1) with 2. ring. Qed.
Lemma sum_entry e a b : (-149 <= e + 1 <= 127)%Z -> fin a = true -> Rabs (val a) <= bpow radix2 e -> fin b = true -> Rabs (val b) <= bpow radix2 e ->
  (fin (f_add a b) = true /\ Rabs (val (f_add a b)) <= bpow radix2 (e + 1) /\ Rabs (val (f_add a b) - (val a + val b)) <= u * Rabs (val a + val b) + 0) /\
  (fin (f_sub a b) = true /\ Rabs (val (f_sub a b)) <= bpow radix2 (e + 1) /\ Rabs (val (f_sub a b) - (val a - val b)) <= u * Rabs (val a - val b) + 0).
Proof.
  intros E Fa Ba Fb Bb. pose proof u_small as U. assert (P : bpow radix2 (e + 1) <= bpow radix2 127) by (apply bpow_le; lia). pose proof (pow_dbl e) as D. apply Rabs_le_inv in Ba, Bb.
  assert (S1 : Rabs (val a + val b) <= bpow radix2 (e + 1)) by (apply Rabs_le; lra). assert (S2 : Rabs (val a - val b) <= bpow radix2 (e + 1)) by (apply Rabs_le; lra).
  destruct (add_val a b Fa Fb ltac:(lra)) as [A1 A2]. destruct (sub_val a b Fa Fb ltac:(lra)) as [B1 B2].
  destruct (sum_rel _ _ (val_fmt a) (val_fmt b)) as (d & D1 & D2). destruct (diff_rel _ _ (val_fmt a) (val_fmt b)) as (d' & D1' & D2').
  assert (G : forall x, Rabs x <= bpow radix2 (e + 1) -> Rabs (rnd x) <= bpow radix2 (e + 1)). { intros x H. apply abs_round_le_generic; auto; try typeclasses eauto. apply pow_fmt. lia. }
  repeat split; auto; try (rewrite A1; now apply G); try (rewrite B1; now apply G).
  - rewrite A1, D2. replace ((val a + val b) * (1 + d) - (val a + val b)) with (d * (val a + val b)) by ring. rewrite Rabs_mult, Rplus_0_r. apply Rmult_le_compat_r; auto. apply Rabs_pos.
  - rewrite B1, D2'. replace ((val a - val b) * (1 + d') - (val a - val b)) with (d' * (val a - val b)) by ring. rewrite Rabs_mult, Rplus_0_r. apply Rmult_le_compat_r; auto. apply Rabs_pos.
Qed.
Lemma step_rounded e h x : (-149 <= e + 1 <= 127)%Z -> length x = (2 * h)%nat -> upto e x ->
  upto (e + 1) (step_f x) /\ length (step_f x) = (2 * h)%nat /\ near u 0 (F (step_f x)) (hadamard_step (F x)).
Proof.
  intros E L U. destruct (pairs_upto e h x L U) as [P1 P2]. unfold step_f, hadamard_step. rewrite (pairs_map h x L). split; [|split].
  - unfold upto. apply Forall_app. split; apply forall_map_; apply Forall_impl with (2 := P2); intros [a b] [[A1 A2] [B1 B2]]; cbn [fst snd] in *; destruct (sum_entry e a b E A1 A2 B1 B2) as [(X1 & X2 & _) (Y1 & Y2 & _)]; auto.
  - rewrite app_length, !map_length. lia.
  - unfold near. rewrite map_app, !map_map. apply Forall2_app; apply forall2_map; apply Forall_impl with (2 := P2); intros [a b] [[A1 A2] [B1 B2]]; cbn [fst snd] in *; destruct (sum_entry e a b E A1 A2 B1 B2) as [(X1 & X2 & X3) (Y1 & Y2 & Y3)]; auto.
Qed.
Definition g (m : nat) : R := (1 + u) ^ m.
Lemma g_ge m : 1 <= g m. Proof. unfold g. apply pow_R1_Rle. pose proof u_small. lra. Qed.
Lemma loop_rounded h : forall m e x, (-149 <= e)%Z -> (e + Z.of_nat m <= 127)%Z -> length x = (2 * h)%nat -> upto e x ->
  upto (e + Z.of_nat m) (loop_f m x) /\ length (loop_f m x) = (2 * h)%nat /\
  norm2 (vsub (F (loop_f m x)) (fwht_loop m (F x))) <= r2 ^ m * ((g m - 1) * norm2 (F x)).
Proof.
  induction m as [|m IH]; intros e x E1 E2 L U.
  - cbn [loop_f fwht_loop]. replace (e + Z.of_nat 0)%Z with e by lia. split; [auto|]. split; [auto|]. unfold g. cbn [pow].
    assert (Z : norm2 (vsub (F x) (F x)) <= 0 * norm2 (F x) + INR (length (F x)) * 0). { apply norm2_err; try lra. clear. induction (F x) as [|a l IH]; constructor; auto. replace (a - a) with 0 by ring. rewrite Rabs_R0. lra. } lra.
  - cbn [loop_f fwht_loop]. rewrite Nat2Z.inj_succ in *. destruct (step_rounded e h x ltac:(lia) L U) as (S1 & S2 & S3).
    destruct (IH (e + 1)%Z (step_f x) ltac:(lia) ltac:(lia) S2 S1) as (I1 & I2 & I3). replace (e + 1 + Z.of_nat m)%Z with (e + Z.succ (Z.of_nat m))%Z in I1 by lia. split; [exact I1|]. split; [exact I2|].
    assert (LF : length (F x) = (2 * h)%nat) by (now rewrite map_length). pose proof (hstep_len h _ LF) as LH. assert (LS : length (F (step_f x)) = (2 * h)%nat) by (now rewrite map_length).
    pose proof u_small as U0. pose proof r2_pos as R2. assert (Rm : 0 < r2 ^ m) by (now apply pow_lt). pose proof (g_ge m) as Gm. pose proof (norm_nonneg (F x)) as N0.
    pose proof (norm2_err u 0 ltac:(lra) ltac:(lra) _ _ S3) as Er. rewrite Rmult_0_r, Rplus_0_r, (step_norm h _ LF) in Er. fold r2 in Er.
    pose proof (norm2_near (F (step_f x)) (hadamard_step (F x)) ltac:(congruence)) as Nr. rewrite (step_norm h _ LF) in Nr. fold r2 in Nr.
    eapply Rle_trans; [apply (norm2_split _ (fwht_loop m (F (step_f x))) _)|].
    { rewrite (loop_len h); auto. rewrite map_length. auto. } { rewrite !(loop_len h); auto. }
    rewrite (loop_diff h m _ _ LS LH). set (N := norm2 (F x)) in *. set (D := norm2 (vsub (F (step_f x)) (hadamard_step (F x)))) in *. set (S' := norm2 (F (step_f x))) in *.
    apply Rle_trans with (r2 ^ m * ((g m - 1) * (r2 * N * (1 + u))) + r2 ^ m * (u * (r2 * N))).
    + apply Rplus_le_compat; [|apply Rmult_le_compat_l; lra]. apply Rle_trans with (1 := I3). apply Rmult_le_compat_l; [lra|]. apply Rmult_le_compat_l; lra.
    + unfold g. cbn [pow]. fold (g m). right. ring.
Qed.

(** ** The whole transform *)
Lemma pow2_bpow k : 2 ^ k = bpow radix2 (Z.of_nat k).
Proof. induction k as [|k IH]; [reflexivity|]. cbn [pow]. rewrite IH, Nat2Z.inj_succ. unfold Z.succ. rewrite pow_dbl. reflexivity. Qed.
Lemma inr_pow2 k : INR (2 ^ k) = 2 ^ k. Proof. rewrite pow_INR. reflexivity. Qed.
Lemma r2_pow k : r2 ^ k = sqrt (2 ^ k).
Proof. induction k as [|k IH]; [cbn; now rewrite sqrt_1|]. cbn [pow]. rewrite sqrt_mult by (try apply pow_le; lra). now rewrite IH. Qed.
Lemma pow2_z k : Z.of_nat (2 ^ k) = (2 ^ Z.of_nat k)%Z. Proof. rewrite Nat2Z.inj_pow. reflexivity. Qed.
Lemma sqrt_rounded k : (k <= 24)%nat -> exists d, Rabs d <= u /\ val (f_sqrt (f_of_int (Z.of_nat (2 ^ k)))) = r2 ^ k * (1 + d) /\ 1 <= val (f_sqrt (f_of_int (Z.of_nat (2 ^ k)))).
Proof.
  intros K. assert (B : (1 <= 2 ^ Z.of_nat k <= 2 ^ 24)%Z). { split; [apply (Z.pow_le_mono_r 2 0); lia|apply Z.pow_le_mono_r; lia]. }
  destruct (of_int_exact (Z.of_nat (2 ^ k))) as [V1 V2]; [rewrite pow2_z; lia|]. unfold f_sqrt. destruct (Bsqrt_correct 24 128 prec24 emax128 mode_NE (f_of_int (Z.of_nat (2 ^ k)))) as [S _].
  change (round_mode mode_NE) with ZnearestE in S. change (round radix2 fexp ZnearestE (sqrt (val (f_of_int (Z.of_nat (2 ^ k)))))) with (rnd (sqrt (val (f_of_int (Z.of_nat (2 ^ k)))))) in S.
  assert (X : val (f_of_int (Z.of_nat (2 ^ k))) = 2 ^ k) by (rewrite V1, <- INR_IZR_INZ; apply inr_pow2). rewrite X, <- r2_pow in S.
  assert (O : 1 <= r2 ^ k). { apply pow_R1_Rle. unfold r2. rewrite <- sqrt_1. apply sqrt_le_1_alt. lra. }
  destruct (rel (r2 ^ k)) as (d & D1 & D2). { apply Rle_trans with 1; auto. change 1 with (bpow radix2 0). apply bpow_le. lia. }
  exists d. split; [exact D1|]. split; [rewrite S; exact D2|]. rewrite S. apply Rle_trans with (rnd 1); [rewrite rnd_id by apply one_fmt; lra|now apply rnd_le].
Qed.
Lemma div_entry k a s d : fin a = true -> Rabs (val a) <= bpow radix2 127 -> Rabs d <= u -> val s = r2 ^ k * (1 + d) -> 1 <= val s ->
  fin (f_div a s) = true /\ Rabs (val (f_div a s)) <= Rabs (rnd (Rabs (val a))) /\ Rabs (val (f_div a s) - val a / r2 ^ k) <= 2.1 * u * Rabs (val a / r2 ^ k) + tn.
Proof.
  intros Fa Ba D S S1. pose proof u_small as U. apply Rabs_le_inv in D. assert (Rk : 0 < r2 ^ k) by (apply pow_lt, r2_pos). set (q := val a / r2 ^ k).
  assert (Q : val a / val s = q * / (1 + d)). { rewrite S. unfold q. field. lra. }
  assert (Le : Rabs (val a / val s) <= Rabs (val a)). { unfold Rdiv. rewrite Rabs_mult. pose proof (Rabs_pos (val a)). assert (0 < / val s <= 1). { split; [apply Rinv_0_lt_compat; lra|]. rewrite <- Rinv_1. apply Rinv_le; lra. } rewrite (Rabs_pos_eq (/ val s)) by lra. nra. }
  destruct (div_val a s Fa ltac:(lra) ltac:(lra)) as [V1 V2]. split; [exact V2|]. rewrite V1. split.
  - destruct (Rle_or_lt 0 (val a / val s)) as [P|P].
    + rewrite (Rabs_pos_eq (rnd (val a / val s))) by (now apply rnd_ge0). eapply Rle_trans; [|apply Rle_abs]. apply rnd_le. eapply Rle_trans; [apply Rle_abs|exact Le].
    + rewrite <- Rabs_Ropp, <- rnd_opp, (Rabs_pos_eq (rnd _)) by (apply rnd_ge0; lra). eapply Rle_trans; [|apply Rle_abs]. apply rnd_le. eapply Rle_trans; [apply Rle_abs|]. now rewrite Rabs_Ropp.
  - pose proof (any_err (val a / val s)) as E. rewrite Q in *. assert (I0 : 0.999 <= / (1 + d) <= 1.001). { split; [|rewrite <- (Rinv_inv 1.001); apply Rinv_le; lra]. rewrite <- (Rinv_inv 0.999). apply Rinv_le; lra. }
    assert (I1 : Rabs (/ (1 + d) - 1) <= 1.01 * u). { replace (/ (1 + d) - 1) with (- d * / (1 + d)) by (field; lra). apply Rabs_le. pose proof (pb (- d) (/ (1 + d)) u 1.001 ltac:(lra) ltac:(lra) ltac:(lra)). lra. }
    assert (M : Rabs (q * / (1 + d)) <= 1.001 * Rabs q). { rewrite Rabs_mult, (Rabs_pos_eq (/ (1 + d))) by lra. rewrite Rmult_comm. apply Rmult_le_compat_r; [apply Rabs_pos|lra]. }
    replace (rnd (q * / (1 + d)) - q) with ((rnd (q * / (1 + d)) - q * / (1 + d)) + q * (/ (1 + d) - 1)) by ring. eapply Rle_trans; [apply Rabs_triang|]. rewrite (Rabs_mult q).
    pose proof (Rmult_le_compat_l (Rabs q) _ _ (Rabs_pos q) I1). pose proof (Rmult_le_compat_l u _ _ ltac:(lra) M). assert (0 <= u * Rabs q) by (apply Rmult_le_pos; [lra|apply Rabs_pos]). lra.
Qed.
