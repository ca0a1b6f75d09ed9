(** The number of weights to keep, as computed in float32. *)
From Coq Require Import Reals Psatz Lia Qreals RMicromega.
From Flocq Require Import Core BinarySingleNaN Relative.
From Verif Require Import Base M_Num L_Num M_Tensor M_Mask S_Mask L_Sort L_Mask M_Float32 S_Float32 L_Float32.
From Coq Require Import Lra.
Open Scope R_scope.

Lemma Q2R_int n : Q2R (inject_Z n) = IZR n. Proof. unfold Q2R. cbn. lra. Qed.
Lemma Q2R_pow2 e : Q2R (2 ^ e) = bpow radix2 e.
Proof. rewrite Q2RpowerRZ by (left; discriminate). rewrite bpow_powerRZ. f_equal. unfold Q2R. cbn. lra. Qed.
Lemma number_val (f : f32) : Q2R (number f) = val f.
Proof.
  destruct f as [s|s| |s m e H]; cbn [number B2R]; try (unfold Q2R; cbn; lra).
  rewrite Q2R_mult, Q2R_int, Q2R_pow2. unfold F2R. cbn [Fnum Fexp]. destruct s; reflexivity.
Qed.
Lemma sparsity_val s : is_sparsity s -> fin s = true /\ 0 <= val s <= 1 - u.
Proof.
  intros (F & A & B). split; auto. apply Qle_Rle in A. apply Qlt_Rlt in B. rewrite number_val in A, B. replace (Q2R 0) with 0 in A by (unfold Q2R; cbn; lra). replace (Q2R 1) with 1 in B by (unfold Q2R; cbn; lra).
  split; auto. now apply below_one.
Qed.
Lemma bpow31 : bpow radix2 31 = 2147483648. Proof. reflexivity. Qed.
Lemma bpow127 : 4294967296 <= bpow radix2 127. Proof. change 4294967296 with (bpow radix2 32). apply bpow_le. lia. Qed.
Lemma bm126 : bpow radix2 (-126) <= u * u.
Proof. replace (u * u) with (bpow radix2 (-48)). apply bpow_le; lia. unfold u. cbn. lra. Qed.

Section Count.
  Variables (n : Z) (s : f32).
  Hypothesis N : (0 <= n <= 2 ^ 31)%Z.
  Hypothesis S0 : fin s = true.
  Hypothesis S1 : 0 <= val s <= 1.
  Let a := rnd (IZR n).
  Let b := rnd (1 - val s).
  Lemma a_range : 0 <= a <= 2147483648.
  Proof.
    split; [apply rnd_ge0, IZR_le; lia|]. unfold a. rewrite <- bpow31, <- (rnd_id (bpow radix2 31)) by (apply pow_fmt; lia). apply rnd_le. change (bpow radix2 31) with (IZR (2 ^ 31)). apply IZR_le. lia.
  Qed.
  Lemma b_range : 0 <= b <= 1.
  Proof. split; [apply rnd_ge0; lra|]. unfold b. apply Rle_trans with (rnd 1); [apply rnd_le; lra|]. rewrite rnd_id by apply one_fmt. lra. Qed.
  Lemma keep_count_eq : keep_count n s = Z.max (ZnearestE (rnd (a * b))) 1.
  Proof.
    pose proof a_range as A. pose proof b_range as Bb. pose proof bpow127 as P.
    destruct (of_int n) as [A1 A2]; [lia|]. destruct (of_int_exact 1) as [O1 O2]; [cbn; lia|]. fold a in A1.
    destruct (sub_val (f_of_int 1) s O2 S0) as [B1 B2]. { rewrite O1. rewrite Rabs_pos_eq; lra. } rewrite O1 in B1. fold b in B1.
    destruct (mul_val (f_of_int n) (f_sub (f_of_int 1) s) A2 B2) as [C1 C2]. { rewrite A1, B1. assert (0 <= a * b <= a) by (clear -A Bb; clearbody a b; split; nra). rewrite Rabs_pos_eq; lra. } rewrite A1, B1 in C1.
    destruct (round_val (f_mul (f_of_int n) (f_sub (f_of_int 1) s))) as [D1 D2]. rewrite C1 in D1. rewrite C2 in D2.
    destruct (max_val _ _ D2 O2) as [E1 E2]. rewrite D1, O1 in E1.
    unfold keep_count. apply to_int_val. rewrite E1. destruct (Z.max_spec (ZnearestE (rnd (a * b))) 1) as [[L ->]|[L ->]].
    - apply Rmax_right. apply IZR_le. lia. - apply Rmax_left. now apply IZR_le.
  Qed.
End Count.
Lemma near_le x y : x <= y -> (ZnearestE x <= ZnearestE y)%Z. Proof. apply Zrnd_le. typeclasses eauto. Qed.
Lemma near_int m : ZnearestE (IZR m) = m. Proof. apply Zrnd_IZR. typeclasses eauto. Qed.

Lemma near1 a b d e : 0 <= d <= / 2 -> 0 <= e <= / 2 -> 1 - d <= a <= 1 + d -> 1 - e <= b <= 1 + e -> 1 - (d + e) <= a * b <= 1 + (d + e + d * e).
Proof.
  intros D E A B. split.
  - apply Rle_trans with ((1 - d) * (1 - e)); [nra|]. apply Rmult_le_compat; lra.
  - apply Rle_trans with ((1 + d) * (1 + e)); [|lra]. apply Rmult_le_compat; lra.
Qed.
(** More sparsity never keeps more weights; more weights never fewer. *)
Lemma count_mono n n' s s' : (0 <= n <= n')%Z -> (n' <= 2 ^ 31)%Z -> fin s = true -> fin s' = true -> 0 <= val s' <= val s -> val s <= 1 -> (keep_count n s <= keep_count n' s')%Z.
Proof.
  intros A B F F' C D. rewrite !keep_count_eq by (auto; lia || lra). apply Z.max_le_compat_r. apply near_le, rnd_le. apply Rmult_le_compat.
  - apply rnd_ge0, IZR_le. lia. - apply rnd_ge0. lra. - apply rnd_le, IZR_le. lia. - apply rnd_le. lra.
Qed.
(** The error of the float32 computation. *)
Lemma count_error n s : (1 <= n <= 2 ^ 31)%Z -> fin s = true -> 0 <= val s <= 1 - u ->
  exists x, keep_count n s = Z.max (ZnearestE x) 1 /\ Rabs (x - IZR n * (1 - val s)) <= IZR n * (1 - val s) * (/ 4194304).
Proof.
  intros N F S1. assert (U : 0 < u) by (unfold u; lra). pose proof bm126 as BM. assert (N1 : 1 <= IZR n) by (apply IZR_le; lia).
  assert (BMu : bpow radix2 (-126) <= u). { apply Rle_trans with (1 := BM). unfold u. lra. }
  destruct (rel (IZR n)) as (d1 & D1 & E1). { apply Rle_trans with (1 := BMu). unfold u. lra. }
  destruct (rel (1 - val s)) as (d2 & D2 & E2). { lra. }
  rewrite (keep_count_eq n s) by (auto; lia || (unfold u in S1; lra)).
  apply Rabs_le_inv in D1, D2. set (p := IZR n * (1 - val s)). assert (P : u <= p) by (unfold p; nra).
  assert (Q : 1 - (u + u) <= (1 + d1) * (1 + d2) <= 1 + (u + u + u * u)) by (apply near1; unfold u in *; lra).
  destruct (rel (rnd (IZR n) * rnd (1 - val s))) as (d3 & D3 & E3).
  { rewrite E1, E2. replace (IZR n * (1 + d1) * ((1 - val s) * (1 + d2))) with (p * ((1 + d1) * (1 + d2))) by (unfold p; ring). apply Rle_trans with (1 := BM). apply Rmult_le_compat; unfold u in *; lra. }
  apply Rabs_le_inv in D3. exists (rnd (rnd (IZR n) * rnd (1 - val s))). split; [reflexivity|].
  rewrite E3, E1, E2. replace (IZR n * (1 + d1) * ((1 - val s) * (1 + d2)) * (1 + d3) - p) with (p * ((1 + d1) * (1 + d2) * (1 + d3) - 1)) by (unfold p; ring).
  rewrite Rabs_mult, Rabs_pos_eq by lra. apply Rmult_le_compat_l; [lra|].
  assert (T : 1 - (3 * u + u) <= (1 + d1) * (1 + d2) * (1 + d3) <= 1 + (3 * u + u)).
  { pose proof (near1 ((1 + d1) * (1 + d2)) (1 + d3) (2 * u + u * u) u) as T. assert (1 - (2 * u + u * u + u) <= (1 + d1) * (1 + d2) * (1 + d3) <= 1 + (2 * u + u * u + u + (2 * u + u * u) * u)) by (apply T; unfold u in *; lra). unfold u in *. lra. }
  apply Rabs_le. unfold u in *. lra.
Qed.
Lemma near_error x : Rabs (IZR (ZnearestE x) - x) <= / 2. Proof. rewrite Rabs_minus_sym. apply Znearest_half. Qed.

(** At most all weights, as long as the size has 24 bits or the sparsity is not tiny. *)
Lemma count_le24 n s : (1 <= n <= 2 ^ 24)%Z -> fin s = true -> 0 <= val s <= 1 -> (keep_count n s <= n)%Z.
Proof.
  intros N F S1. rewrite keep_count_eq by (auto; lia). apply Z.max_lub; [|lia]. rewrite (rnd_int n) by lia. apply Z.le_trans with (ZnearestE (IZR n)); [|rewrite near_int; lia]. apply near_le. apply Rle_trans with (rnd (IZR n)); [apply rnd_le|rewrite rnd_int by lia; lra].
  pose proof (b_range s S1). assert (0 <= IZR n) by (apply IZR_le; lia). nra.
Qed.
Lemma count_le_eps n s : (1 <= n <= 2 ^ 31)%Z -> fin s = true -> / 4194304 <= val s <= 1 - u -> (keep_count n s <= n)%Z.
Proof.
  intros N F S1. assert (U : 0 < u) by (unfold u; lra). destruct (count_error n s N F) as (x & -> & E). { lra. }
  apply Z.max_lub; [|lia]. apply Z.le_trans with (ZnearestE (IZR n)); [|rewrite near_int; lia]. apply near_le. apply Rabs_le_inv in E. assert (1 <= IZR n) by (apply IZR_le; lia). nra.
Qed.
(** With zero sparsity, exactly the float32 nearest to the size. *)
Lemma count_zero n : (1 <= n <= 2 ^ 24)%Z -> keep_count n (f_of_int 0) = n.
Proof.
  intros N. destruct (of_int_exact 0) as [O1 O2]; [cbn; lia|]. rewrite keep_count_eq by (rewrite ?O1; auto; lia || lra). rewrite O1, Rminus_0_r. rewrite (rnd_int n), (rnd_int 1), Rmult_1_r, (rnd_int n), near_int by (cbn; lia). lia.
Qed.
(** Between 2^24 and 2^25 every fourth size is rounded up. *)
Lemma size_up n : (2 ^ 24 < n < 2 ^ 25)%Z -> (n mod 4 = 3)%Z -> rnd (IZR n) = IZR (n + 1).
Proof.
  intros N M. assert (X : exists m, n = (4 * m + 3)%Z) by (exists (n / 4)%Z; pose proof (Z.div_mod n 4); lia). destruct X as (m & ->).
  assert (G : mag radix2 (IZR (4 * m + 3)) = 25%Z :> Z).
  { apply mag_unique_pos. split.
    - change (bpow radix2 (25 - 1)) with (IZR (2 ^ 24)). apply IZR_le. lia.
    - change (bpow radix2 25) with (IZR (2 ^ 25)). apply IZR_lt. lia. }
  unfold round, scaled_mantissa, cexp. rewrite G. change (fexp 25) with 1%Z. change (bpow radix2 (-(1))) with (/ 2).
  replace (IZR (4 * m + 3) * / 2) with (IZR (2 * m + 1) + / 2) by (rewrite !plus_IZR, !mult_IZR; lra).
  unfold Znearest. replace (Zfloor (IZR (2 * m + 1) + / 2)) with (2 * m + 1)%Z by (symmetry; apply Zfloor_imp; rewrite (plus_IZR (2 * m + 1) 1); lra).
  rewrite Rcompare_Eq by ring. replace (Z.even (2 * m + 1)) with false by (symmetry; rewrite <- Z.negb_odd, Z.add_comm, Z.odd_add_mul_2; reflexivity). cbn [negb].
  rewrite (Zceil_imp (2 * m + 2)) by (rewrite minus_IZR, !plus_IZR, mult_IZR; lra). unfold F2R. cbn [Fnum Fexp]. change (bpow radix2 1) with 2. rewrite <- mult_IZR. f_equal. lia.
Qed.
Lemma count_up n : (2 ^ 24 < n < 2 ^ 25)%Z -> (n mod 4 = 3)%Z -> keep_count n (f_of_int 0) = (n + 1)%Z.
Proof.
  intros N M. destruct (of_int_exact 0) as [O1 O2]; [cbn; lia|]. rewrite keep_count_eq by (rewrite ?O1; auto; lia || lra).
  rewrite O1, Rminus_0_r, (rnd_int 1), Rmult_1_r by (cbn; lia). rewrite size_up by auto. rewrite <- (size_up n) at 1 by auto. rewrite (rnd_id (rnd _)) by apply rnd_fmt. rewrite size_up, near_int by auto. lia.
Qed.
