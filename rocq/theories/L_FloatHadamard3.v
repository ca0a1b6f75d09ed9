(** The Hadamard rotation in float32: the transform, encoding and decoding a vector. *)
From Coq Require Import Reals Psatz Lia.
From Flocq Require Import Core BinarySingleNaN.
From Verif Require Import Base M_Float32 L_Float32 L_Float32b L_FloatSchedule L_FloatQuant M_Hadamard S_Hadamard L_Hadamard L_Kashin L_Kashin2 M_FloatCluster M_FloatHadamard L_FloatHadamard L_FloatHadamard2 L_FloatCluster S_FloatHadamard.
From Coq Require Import Lra.
Open Scope R_scope.

Lemma g_bound m : (m <= 100)%nat -> g m - 1 <= 1.01 * (INR m * u).
Proof.
  induction m as [|m IH]; intros M; [unfold g; cbn; lra|]. specialize (IH ltac:(lia)). pose proof u_small as U. rewrite S_INR. unfold g in *. cbn [pow]. assert (I : 0 <= INR m <= 100). { split; [apply pos_INR|]. replace 100 with (INR 100) by (cbn; lra). apply le_INR. lia. }
  pose proof (pp (INR m) u 100 (/ 1000000) I ltac:(lra)) as P. pose proof (Rmult_le_compat_l u (1.01 * (INR m * u)) (/ 100) ltac:(lra) ltac:(lra)) as Q.
  replace ((1 + u) * (1 + u) ^ m - 1) with (((1 + u) ^ m - 1) + u * ((1 + u) ^ m - 1) + u) by ring. pose proof (Rmult_le_compat_l u _ _ ltac:(lra) IH). lra.
Qed.
Lemma map_vscale c x : map (fun a => a / c) x = vscale (/ c) x. Proof. reflexivity. Qed.
Lemma vsub_scale c : forall x y, vsub (vscale c x) (vscale c y) = vscale c (vsub x y).
Proof. induction x as [|a x IH]; intros [|b y]; try reflexivity. change (vsub (vscale c (a :: x)) (vscale c (b :: y))) with ((a * c - b * c) :: vsub (vscale c x) (vscale c y)). rewrite IH. change (vscale c (vsub (a :: x) (b :: y))) with ((a - b) * c :: vscale c (vsub x y)). f_equal. ring. Qed.
Lemma fwht_loop_eq k x : length x = (2 ^ S k)%nat -> fwht x = Ok (vscale (/ r2 ^ S k) (fwht_loop (S k) x)).
Proof.
  intros L. unfold fwht. rewrite L, is_pow2_pow. cbn [negb]. destruct (2 ^ S k =? 1)%nat eqn:E. { apply Nat.eqb_eq in E. pose proof (Nat.pow_lt_mono_r 2 0 (S k) ltac:(lia) ltac:(lia)). cbn in H, E. lia. }
  rewrite Nat.log2_up_pow2 by lia. rewrite inr_pow2, <- r2_pow. reflexivity.
Qed.
Lemma fwht_f_eq k x : length x = (2 ^ S k)%nat -> fwht_f x = Ok (map (fun a => f_div a (f_sqrt (f_of_int (Z.of_nat (2 ^ S k))))) (loop_f (S k) x)).
Proof.
  intros L. unfold fwht_f. change power_of_two with is_pow2. rewrite L, is_pow2_pow. cbn [negb]. destruct (2 ^ S k =? 1)%nat eqn:E. { apply Nat.eqb_eq in E. pose proof (Nat.pow_lt_mono_r 2 0 (S k) ltac:(lia) ltac:(lia)). cbn in H, E. lia. }
  rewrite Nat.log2_up_pow2 by lia. reflexivity.
Qed.
Lemma fwht_rounded k e x : (k <= 24)%nat -> (-149 <= e)%Z -> (e + Z.of_nat k <= 127)%Z -> length x = (2 ^ k)%nat -> upto e x ->
  exists y z, fwht_f x = Ok y /\ fwht (F x) = Ok z /\ length y = (2 ^ k)%nat /\ length z = (2 ^ k)%nat /\ upto (e + Z.of_nat k) y /\
    norm2 (vsub (F y) z) <= (g (k + 3) - 1) * norm2 (F x) + 2 ^ k * tn.
Proof.
  intros K E1 E2 L U. pose proof u_small as U0. pose proof tn_pos as T. destruct k as [|k].
  - exists x, (F x). split. { unfold fwht_f. rewrite !L. reflexivity. } split. { assert (L' : length (F x) = 1%nat) by (rewrite map_length; exact L). unfold fwht. rewrite !L'. reflexivity. } split; [auto|]. split; [rewrite map_length; auto|]. replace (e + Z.of_nat 0)%Z with e by lia. split; [auto|].
    assert (Z : norm2 (vsub (F x) (F x)) <= 0 * norm2 (F x) + INR (length (F x)) * 0). { apply norm2_err; try lra. clear. induction (F x) as [|a l IH]; constructor; auto. replace (a - a) with 0 by ring. rewrite Rabs_R0. lra. }
    pose proof (norm_nonneg (F x)). pose proof (g_ge (0 + 3)). assert (0 <= (g (0 + 3) - 1) * norm2 (F x)) by (apply Rmult_le_pos; lra). cbn [pow]. lra.
  - set (n := S k) in *. assert (Lh : length x = (2 * 2 ^ k)%nat) by (rewrite L; unfold n; cbn [Nat.pow]; lia). destruct (loop_rounded (2 ^ k) n e x E1 E2 Lh U) as (I1 & I2 & I3).
    destruct (sqrt_rounded n K) as (d & D1 & D2 & D3). set (s := f_sqrt (f_of_int (Z.of_nat (2 ^ n)))) in *.
    assert (LF : length (F x) = (2 ^ S k)%nat) by (rewrite map_length; exact L).
    pose proof (fwht_f_eq k x L) as Q1. fold n s in Q1. pose proof (fwht_loop_eq k (F x) LF) as Q2. fold n in Q2. pose proof (fwht_norm _ _ Q2) as Nz.
    exists (map (fun a => f_div a s) (loop_f n x)), (vscale (/ r2 ^ n) (fwht_loop n (F x))). split; [exact Q1|]. split; [exact Q2|].
    assert (Lw : length (F (loop_f n x)) = (2 ^ n)%nat). { rewrite map_length. etransitivity; [exact I2|]. unfold n. cbn [Nat.pow]. lia. }
    assert (Ll : length (fwht_loop n (F x)) = (2 ^ n)%nat). { rewrite (loop_len (2 ^ k)); [unfold n; cbn [Nat.pow]; lia|]. rewrite map_length; auto. }
    split. { rewrite map_length in *. exact Lw. } split. { unfold vscale. rewrite map_length. exact Ll. }
    assert (Bd : bpow radix2 (e + Z.of_nat n) <= bpow radix2 127) by (apply bpow_le; lia).
    assert (En : Forall (fun a => fin (f_div a s) = true /\ Rabs (val (f_div a s)) <= bpow radix2 (e + Z.of_nat n) /\ Rabs (val (f_div a s) - val a / r2 ^ n) <= 2.1 * u * Rabs (val a / r2 ^ n) + tn) (loop_f n x)).
    { apply Forall_impl with (2 := I1). intros a [A1 A2]. destruct (div_entry n a s d A1 ltac:(lra) D1 D2 D3) as (X1 & X2 & X3). split; [exact X1|]. split; [|exact X3].
      apply Rle_trans with (1 := X2). rewrite (rnd_id (Rabs (val a))) by (apply generic_format_abs, val_fmt). rewrite Rabs_pos_eq by apply Rabs_pos. exact A2. }
    split. { unfold upto. apply forall_map_. apply Forall_impl with (2 := En). tauto. }
    assert (Nr : near (2.1 * u) tn (F (map (fun a => f_div a s) (loop_f n x))) (vscale (/ r2 ^ n) (F (loop_f n x)))).
    { unfold near, vscale. rewrite !map_map. apply forall2_map. apply Forall_impl with (2 := En). intros a (_ & _ & A). exact A. }
    pose proof (norm2_err (2.1 * u) tn ltac:(lra) ltac:(lra) _ _ Nr) as Er. unfold vscale in Er at 3. rewrite map_length, Lw, inr_pow2 in Er.
    set (w := F (loop_f n x)) in *. set (l := fwht_loop n (F x)) in *. set (N := norm2 (F x)) in *. set (c := r2 ^ n) in *. assert (C : 0 < c) by (apply pow_lt, r2_pos). assert (Ci : 0 < / c) by (now apply Rinv_0_lt_compat).
    pose proof (norm_nonneg (F x)) as N0. fold N in N0.
    assert (W1 : norm2 (vsub (vscale (/ c) w) (vscale (/ c) l)) <= (g n - 1) * N). { rewrite vsub_scale, norm_scale by lra. apply Rmult_le_reg_r with c; [exact C|]. rewrite Rmult_assoc, Rinv_l by lra. lra. }
    assert (W2 : norm2 (vscale (/ c) w) <= g n * N). { eapply Rle_trans; [apply (norm2_near _ (vscale (/ c) l))|]. { unfold vscale. rewrite !map_length. congruence. } rewrite Nz. fold N. lra. }
    eapply Rle_trans; [apply (norm2_split _ (vscale (/ c) w) _)|]. { unfold vscale. rewrite !map_length. unfold w. rewrite map_length. reflexivity. } { unfold vscale. rewrite !map_length. congruence. }
    assert (G3 : g n * (1 + 2.1 * u) <= g (n + 3)). { unfold g. rewrite pow_add. apply Rmult_le_compat_l; [apply pow_le; lra|]. cbn [pow]. assert (0 <= u * u) by (apply Rmult_le_pos; lra). assert (0 <= u * u * u) by (apply Rmult_le_pos; lra). replace ((1 + u) * ((1 + u) * ((1 + u) * 1))) with (1 + 3 * u + 3 * (u * u) + u * u * u) by ring. lra. }
    pose proof (Rmult_le_compat_r N _ _ N0 G3) as G4. pose proof (Rmult_le_compat_l (2.1 * u) _ _ ltac:(lra) W2) as W3. lra.
Qed.
Lemma fwht_close a b a' b' : length a = length b -> fwht a = Ok a' -> fwht b = Ok b' -> norm2 (vsub a' b') = norm2 (vsub a b).
Proof.
  intros L A B. pose proof (fwht_len _ _ A) as LA. pose proof (fwht_len _ _ B) as LB. assert (Ld : length (vsub a b) = length b) by (rewrite vsub_len; auto).
  destruct (proj2 (fwht_ok_iff (vsub a b))) as [d' D]. { rewrite Ld. apply fwht_ok_iff. eauto. }
  pose proof (fwht_add (vsub a b) b d' b' Ld D B) as S1. rewrite (vadd_vsub a b L) in S1. rewrite A in S1. injection S1 as ->. rewrite vsub_vadd; [now apply fwht_norm in D|]. pose proof (fwht_len _ _ D). congruence.
Qed.

(** ** Signs *)
Lemma half_val : val f_half = / 2 /\ fin f_half = true.
Proof.
  unfold f_half. destruct (of_int_exact 1 ltac:(discriminate)) as [A1 A2]. destruct (of_int_exact 2 ltac:(discriminate)) as [B1 B2]. pose proof bpow127.
  destruct (div_val (f_of_int 1) (f_of_int 2) A2) as [C1 C2]; [rewrite B1; lra|rewrite A1, B1; rewrite Rabs_pos_eq; lra|]. split; [|exact C2]. rewrite C1, A1, B1. replace (1 / 2) with (bpow radix2 (-1)) by (cbn; lra). rewrite rnd_id by (apply pow_fmt; lia). cbn. lra.
Qed.
Definition unit_sign (s : f32) : Prop := fin s = true /\ (val s = 1 \/ val s = -1).
Lemma sign_ok v : sign_draw v -> unit_sign (f_sign (f_sub v f_half)).
Proof.
  intros (F1 & [V1 V2] & V3). unfold real in *. destruct half_val as [H1 H2]. pose proof bpow127. destruct (sub_val v f_half F1 H2) as [S1 S2]. { rewrite H1. apply Rabs_le. lra. } rewrite H1 in S1.
  destruct (diff_rel (val v) (/ 2) (val_fmt v)) as (d & D1 & D2). { rewrite <- H1. apply val_fmt. } pose proof u_small. apply Rabs_le_inv in D1.
  destruct zero_val as [Z1 Z2]. unfold f_sign. rewrite !Bltb_correct by auto. rewrite Z1, S1, D2.
  destruct (of_int_exact 1 ltac:(discriminate)) as [O1 O2]. destruct (of_int_exact (-1) ltac:(discriminate)) as [M1 M2].
  assert (C : val v < / 2 \/ / 2 < val v) by lra. destruct C as [C|C].
  - rewrite Rlt_bool_false by nra. rewrite Rlt_bool_true by nra. split; auto.
  - rewrite Rlt_bool_true by nra. split; auto.
Qed.
Lemma signs_ok draws : Forall sign_draw draws -> Forall unit_sign (signs_f draws) /\ length (signs_f draws) = length draws.
Proof. intros D. split; [|apply map_length]. unfold signs_f. apply forall_map_. apply Forall_impl with (2 := D). exact sign_ok. Qed.
Lemma mul_sign e a s : (-149 <= e <= 127)%Z -> fin a = true -> Rabs (val a) <= bpow radix2 e -> unit_sign s -> fin (f_mul a s) = true /\ val (f_mul a s) = val a * val s /\ Rabs (val (f_mul a s)) <= bpow radix2 e.
Proof.
  intros E Fa Ba [Fs Vs]. assert (A : Rabs (val a * val s) = Rabs (val a)). { rewrite Rabs_mult. destruct Vs as [-> | ->]; [rewrite Rabs_R1|rewrite (Rabs_left (-1)) by lra]; lra. }
  assert (B : bpow radix2 e <= bpow radix2 127) by (apply bpow_le; lia). destruct (mul_val a s Fa Fs ltac:(lra)) as [M1 M2].
  assert (R1 : rnd (val a * val s) = val a * val s). { apply rnd_id. destruct Vs as [-> | ->]; [rewrite Rmult_1_r; apply val_fmt|]. replace (val a * -1) with (- val a) by ring. apply generic_format_opp, val_fmt. }
  split; [exact M2|]. rewrite M1, R1. split; [reflexivity|]. lra.
Qed.
Lemma mul_signs e : (-149 <= e <= 127)%Z -> forall x s, length x = length s -> upto e x -> Forall unit_sign s -> upto e (mul_f x s) /\ F (mul_f x s) = vmul (F x) (F s) /\ length (mul_f x s) = length x.
Proof.
  intros E. induction x as [|a x IH]; intros [|b s] L U S1; try discriminate; [repeat split; constructor|]. inversion U as [|? ? [A1 A2] U1]; subst. inversion S1 as [|? ? B1 S2]; subst.
  destruct (IH s ltac:(now injection L) U1 S2) as (I1 & I2 & I3). destruct (mul_sign e a b E A1 A2 B1) as (M1 & M2 & M3). cbn [mul_f]. split; [constructor; auto|]. split; [cbn [map]; rewrite M2, I2; reflexivity|cbn [length]; congruence].
Qed.
Lemma unit_sq s i : Forall unit_sign s -> (i < length s)%nat -> nth i (F s) 0 * nth i (F s) 0 = 1.
Proof.
  intros S1 I. assert (E : nth i (F s) 0 = val (nth i s (f_of_int 0))). { rewrite <- (map_nth val). apply nth_indep. now rewrite map_length. }
  rewrite E. rewrite Forall_forall in S1. destruct (S1 _ (nth_In s (f_of_int 0) I)) as [_ [-> | ->]]; ring.
Qed.
Lemma vsub_mul : forall a b s, length a = length b -> length b = length s -> vsub (vmul a s) (vmul b s) = vmul (vsub a b) s.
Proof.
  induction a as [|x a IH]; intros [|y b] [|z s] L M; try discriminate; [reflexivity|]. change (vsub (vmul (x :: a) (z :: s)) (vmul (y :: b) (z :: s))) with ((x * z - y * z) :: vsub (vmul a s) (vmul b s)).
  rewrite IH by (try now injection L; now injection M). change (vmul (vsub (x :: a) (y :: b)) (z :: s)) with ((x - y) * z :: vmul (vsub a b) s). f_equal. ring.
Qed.
Lemma norm_firstn n : forall a, norm2 (firstn n a) <= norm2 a.
Proof.
  induction n as [|n IH]; intros [|x a]; cbn [firstn]; try lra; [rewrite norm2_nil; apply norm_nonneg|]. rewrite !norm2_cons. apply hyp_mono; [|lra]. split; [apply norm_nonneg|apply IH].
Qed.
Lemma vsub_firstn n : forall a b, vsub (firstn n a) (firstn n b) = firstn n (vsub a b).
Proof. induction n as [|n IH]; intros [|x a] [|y b]; try reflexivity. change (vsub (firstn (S n) (x :: a)) (firstn (S n) (y :: b))) with ((x - y) :: vsub (firstn n a) (firstn n b)). rewrite IH. reflexivity. Qed.

Lemma norm_sym : forall a b, length a = length b -> norm2 (vsub a b) = norm2 (vsub b a).
Proof.
  induction a as [|x a IH]; intros [|y b] L; try discriminate; [reflexivity|]. change (vsub (x :: a) (y :: b)) with ((x - y) :: vsub a b). change (vsub (y :: b) (x :: a)) with ((y - x) :: vsub b a).
  rewrite !norm2_cons, IH by (now injection L). f_equal. unfold Rsqr. ring.
Qed.
(** ** Encoding and decoding *)
Lemma upto_firstn e n x : upto e x -> upto e (firstn n x).
Proof. unfold upto. rewrite !Forall_forall. intros H v V. apply H. rewrite <- (firstn_skipn n x). apply in_or_app. now left. Qed.
Section Row.
  Variables (draws x : list f32).
  Hypothesis Ld : length draws = length x.
  Hypothesis D : Forall sign_draw draws.
  Hypothesis Ne : x <> [].
  Hypothesis X : upto 60 x.
  Let d := length x.
  Let K := Nat.log2_up d.
  Hypothesis K24 : (K <= 24)%nat.
  Let s := signs_f draws.
  Lemma d_pos : (0 < d)%nat. Proof. unfold d. destruct x; [congruence|cbn; lia]. Qed.
  Lemma d_le : (d <= 2 ^ K)%nat. Proof. apply le_log2_up, d_pos. Qed.
  Definition padded : list f32 := mul_f x s ++ repeat (f_of_int 0) (2 ^ K - d).
  Lemma padded_ok : length padded = (2 ^ K)%nat /\ upto 60 padded /\ F padded = pad_right (2 ^ K) (vmul (F x) (F s)) /\ length (F s) = d /\ norm2 (F padded) = norm2 (F x).
  Proof.
    destruct (signs_ok draws D) as [S1 S2]. fold s in S1, S2. destruct (mul_signs 60 ltac:(lia) x s ltac:(congruence) X S1) as (M1 & M2 & M3). pose proof d_le as L. fold d in M3. destruct zero_val as [Z1 Z2].
    assert (LFS : length (F x) = length (F s)). { etransitivity; [apply map_length|]. symmetry. etransitivity; [apply map_length|]. exact (eq_trans S2 Ld). } assert (LFx : length (F x) = d) by apply map_length.
    assert (P3 : F padded = pad_right (2 ^ K) (vmul (F x) (F s))).
    { unfold padded, pad_right. rewrite map_app. apply f_equal2; [exact M2|]. unfold vmul. rewrite vmap2_len by exact LFS. rewrite LFx. induction (2 ^ K - d)%nat as [|m IH]; [reflexivity|]. cbn [repeat map]. rewrite Z1, IH. reflexivity. }
    split; [|split; [|split; [exact P3|split]]].
    - unfold padded. rewrite app_length, repeat_length, M3. lia.
    - unfold padded, upto. apply Forall_app. split; [exact M1|]. apply Forall_forall. intros v V. apply repeat_spec in V. subst v. split; [exact Z2|]. rewrite Z1, Rabs_R0. apply bpow_ge_0.
    - rewrite <- LFS. exact LFx.
    - rewrite P3, norm_pad. apply norm_signs; [exact LFS|]. intros i Hi. rewrite LFx in Hi. apply unit_sq; auto. rewrite (eq_trans S2 Ld). exact Hi.
  Qed.
  Notation N := (norm2 (F x)).
  Theorem row_roundtrip : exists y z, encode_row_f draws x = Ok y /\ length y = (2 ^ K)%nat /\ upto 84 y /\ decode_row_f draws d y = Ok z /\ length z = d /\ Forall (fun v => fin v = true) z /\
    Rabs (norm2 (F y) - N) <= INR (K + 3) * (2 * u) * N + 2 ^ K * tn /\
    norm2 (vsub (F z) (F x)) <= INR (K + 3) * (4 * u) * N + 2 ^ K * (4 * tn).
  Proof.
    destruct padded_ok as (P1 & P2 & P3 & P4 & P5). destruct (signs_ok draws D) as [S1 S2]. fold s in S1, S2.
    destruct (fwht_rounded K 60 padded K24 ltac:(lia) ltac:(lia) P1 P2) as (y & z1 & Y1 & Y2 & Y3 & Y4 & Y5 & Y6).
    destruct (fwht_rounded K (60 + Z.of_nat K) y K24 ltac:(lia) ltac:(lia) Y3 Y5) as (w & z2 & W1 & W2 & W3 & W4 & W5 & W6).
    pose proof d_pos as D0. pose proof d_le as DL. exists y, (mul_f (firstn d w) s).
    assert (E1 : encode_row_f draws x = Ok y). { unfold encode_row_f. fold d. destruct (d =? 0)%nat eqn:Z; [apply Nat.eqb_eq in Z; lia|]. exact Y1. }
    assert (E2 : decode_row_f draws d y = Ok (mul_f (firstn d w) s)). { unfold decode_row_f. rewrite W1. cbn [bind]. rewrite W3. destruct (d <=? 2 ^ K)%nat eqn:Z; [reflexivity|]. apply Nat.leb_gt in Z. lia. }
    assert (Lf : length (firstn d w) = length s). { rewrite firstn_length, W3, S2, Ld. fold d. lia. }
    destruct (mul_signs (60 + Z.of_nat K + Z.of_nat K) ltac:(lia) (firstn d w) s Lf (upto_firstn _ d w W5) S1) as (M1 & M2 & M3).
    split; [exact E1|]. split; [exact Y3|]. split. { apply Forall_impl with (2 := Y5). intros v [V1 V2]. split; [exact V1|]. apply Rle_trans with (1 := V2). apply bpow_le. lia. }
    split; [exact E2|]. split. { rewrite M3, Lf, S2, Ld. reflexivity. } split. { apply Forall_impl with (2 := M1). tauto. }
    rewrite P5 in Y6. pose proof u_small as U. pose proof tn_pos as T. pose proof (norm_nonneg (F x)) as N0.
    set (ep := g (K + 3) - 1) in *. assert (E0 : 0 <= ep <= 1.01 * (INR (K + 3) * u)). { split; [unfold ep; pose proof (g_ge (K + 3)); lra|apply g_bound; lia]. }
    assert (I27 : 0 <= INR (K + 3) <= 27). { split; [apply pos_INR|]. replace 27 with (INR 27) by (cbn; lra). apply le_INR. lia. }
    set (q := INR (K + 3) * u) in *. assert (Q : 0 <= q <= / 30000). { unfold q. pose proof (pp (INR (K + 3)) u 27 (/ 1000000) I27 ltac:(lra)). lra. }
    pose proof (pow2_pos K) as PK. set (tt := 2 ^ K * tn) in *. assert (T0 : 0 <= tt) by (apply Rmult_le_pos; lra).
    pose proof (fwht_norm _ _ Y2) as Nz. rewrite P5 in Nz.
    assert (Ly : length (F y) = (2 ^ K)%nat) by (now rewrite map_length).
    assert (EN : 0 <= ep * N <= 1.01 * q * N). { split; [apply Rmult_le_pos; lra|apply Rmult_le_compat_r; lra]. } assert (QN : 0 <= q * N) by (apply Rmult_le_pos; lra).
    pose proof (norm2_near (F y) z1 ltac:(congruence)) as NY. rewrite Nz in NY.
    assert (Sym : norm2 (vsub z1 (F y)) = norm2 (vsub (F y) z1)).
    { apply norm_sym. congruence. }
    pose proof (norm2_near z1 (F y) ltac:(congruence)) as NZ. rewrite Nz, Sym in NZ.
    split.
    - replace (INR (K + 3) * (2 * u)) with (2 * q) by (unfold q; ring). fold tt. apply Rabs_le. lra.
    - replace (INR (K + 3) * (4 * u)) with (4 * q) by (unfold q; ring). replace (2 ^ K * (4 * tn)) with (4 * tt) by (unfold tt; ring).
      (* the exact transform of the exact code is the padded vector *)
      pose proof (fwht_involutive _ _ Y2) as Inv. pose proof (fwht_close (F y) z1 z2 (F padded) ltac:(congruence) W2 Inv) as Cl.
      assert (Lw : length (F w) = (2 ^ K)%nat) by (now rewrite map_length). assert (Lp : length (F padded) = (2 ^ K)%nat) by (now rewrite map_length).
      pose proof (norm2_split (F w) z2 (F padded) ltac:(congruence) ltac:(congruence)) as Tr. rewrite Cl in Tr.
      assert (Fx : F x = vmul (firstn d (F padded)) (F s)).
      { assert (LFx : length (F x) = d) by apply map_length. assert (LFS : length (F x) = length (F s)) by (rewrite LFx, P4; reflexivity). assert (Lv : length (vmul (F x) (F s)) = d) by (unfold vmul; rewrite vmap2_len by exact LFS; exact LFx).
        rewrite P3. replace (firstn d (pad_right (2 ^ K) (vmul (F x) (F s)))) with (vmul (F x) (F s)) by (rewrite <- Lv; symmetry; apply pad_firstn). symmetry. apply vmul_signs; [exact LFS|].
        intros i Hi. rewrite LFx in Hi. apply unit_sq; auto. rewrite (eq_trans S2 Ld). exact Hi. }
      assert (Lsd : length s = d) by exact (eq_trans S2 Ld).
      assert (H1 : length (firstn d (F w)) = d) by (rewrite firstn_length, Lw; lia). assert (H2 : length (firstn d (F padded)) = d) by (rewrite firstn_length, Lp; lia).
      assert (M2' : F (mul_f (firstn d w) s) = vmul (firstn d (F w)) (F s)). { etransitivity; [exact M2|]. f_equal. symmetry. apply firstn_map. }
      assert (H3 : length (vsub (firstn d (F w)) (firstn d (F padded))) = d) by (rewrite vsub_len by (rewrite H1; symmetry; exact H2); first [exact H1|exact H2]).
      replace (vsub (F (mul_f (firstn d w) s)) (F x)) with (vmul (vsub (firstn d (F w)) (firstn d (F padded))) (F s)).
      2:{ rewrite <- vsub_mul by (rewrite ?H1, ?H2, ?P4; reflexivity). rewrite <- Fx. f_equal. symmetry. exact M2'. }
      rewrite norm_signs; [|rewrite H3, P4; reflexivity|intros i Hi; rewrite H3 in Hi; apply unit_sq; auto; rewrite Lsd; exact Hi].
      rewrite vsub_firstn. eapply Rle_trans; [apply norm_firstn|]. apply Rle_trans with (1 := Tr).
      assert (NYb : norm2 (F y) <= 1.001 * N + tt). { pose proof (Rmult_le_compat_r N q (/ 30000) N0 ltac:(lra)). lra. }
      pose proof (Rmult_le_compat_l ep _ _ ltac:(lra) NYb) as B1. pose proof (Rmult_le_compat_r tt ep 1 T0 ltac:(lra)) as B2. lra.
  Qed.
End Row.
