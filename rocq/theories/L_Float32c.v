(** The mask update with the count of M_Float32. *)
From Coq Require Import Reals Psatz Lia Qreals RMicromega.
From Flocq Require Import Core BinarySingleNaN Relative.
From Verif Require Import Base M_Num L_Num M_Tensor M_Mask S_Mask L_Sort L_Mask M_Float32 S_Float32 L_Float32 L_Float32b.
From Coq Require Import Lra.
Open Scope Q_scope.

Lemma keep_pos n s : (0 <= n <= 2 ^ 31)%Z -> is_sparsity s -> (1 <= keep_count n s)%Z.
Proof. intros N S1. apply sparsity_val in S1 as (F & A & B). assert (0 < u)%R by (unfold u; lra). rewrite keep_count_eq by (auto; split; lra). lia. Qed.
Lemma half_R : Q2R (1#2) = (/ 2)%R. Proof. unfold Q2R. cbn. lra. Qed.
Lemma eps_R : Q2R eps = (/ 4194304)%R. Proof. unfold Q2R, eps. cbn. lra. Qed.
Lemma one_R : Q2R 1 = 1%R. Proof. unfold Q2R. cbn. lra. Qed.
Lemma p_R n s : Q2R (inject_Z n * (1 - number s)) = (IZR n * (1 - val s))%R.
Proof. rewrite Q2R_mult, Q2R_minus, Q2R_int, one_R, number_val. reflexivity. Qed.
Lemma abs_R x : Q2R (Qabs x) = Rabs (Q2R x).
Proof.
  apply Qabs_case; intros H; apply Qle_Rle in H.
  - replace (Q2R 0) with 0%R in H by (unfold Q2R; cbn; lra). now rewrite Rabs_pos_eq.
  - replace (Q2R 0) with 0%R in H by (unfold Q2R; cbn; lra). rewrite Q2R_opp, Rabs_left1; lra.
Qed.
Theorem count_is n s : (1 <= n <= 2 ^ 31)%Z -> is_sparsity s -> is_keep_count_f n s (keep_count n s).
Proof.
  intros N S1. apply sparsity_val in S1 as (F & S1). destruct (count_error n s N F S1) as (x & E & H). exists (ZnearestE x). split; auto.
  apply Rle_Qle. rewrite abs_R, Q2R_minus, Q2R_plus, (Q2R_mult (_ * _) eps), !p_R, half_R, eps_R, Q2R_int.
  pose proof (near_error x) as H2. replace (IZR (ZnearestE x) - IZR n * (1 - val s))%R with ((IZR (ZnearestE x) - x) + (x - IZR n * (1 - val s)))%R by ring.
  apply Rle_trans with (1 := Rabs_triang _ _). lra.
Qed.
Theorem count_exact n s : (1 <= n <= 2 ^ 31)%Z -> is_sparsity s -> clearly_rounded n s -> is_keep_count (Z.to_nat n) (number s) (keep_count n s).
Proof.
  intros N S1 C. apply sparsity_val in S1 as (F & S1). destruct (count_error n s N F S1) as (x & E & H).
  set (p := inject_Z n * (1 - number s)). exists (round_half_even p). rewrite Z2Nat.id by lia. split; [apply round_is|]. rewrite E. f_equal.
  apply Znearest_imp. pose proof (round_error p) as R. apply Qle_Rle in R. rewrite abs_R, half_R, Q2R_minus, Q2R_int in R. unfold p in R at 2. rewrite p_R in R.
  set (r := round_half_even p) in *. apply Rabs_le_inv in R.
  assert (D : forall m, (IZR n * (1 - val s) * / 4194304 < Rabs (IZR n * (1 - val s) - (IZR m + / 2)))%R).
  { intros m. pose proof (C m) as Cm. apply Qlt_Rlt in Cm. rewrite abs_R, (Q2R_mult (_ * _) eps), (Q2R_minus (_ * _)), Q2R_plus, !p_R, half_R, eps_R, Q2R_int in Cm. exact Cm. }
  apply Rabs_le_inv in H. pose proof (D r) as D1. pose proof (D (r - 1)%Z) as D2. rewrite minus_IZR in D2. revert D1 D2.
  set (P := (IZR n * (1 - val s))%R) in *. intros D1 D2.
  rewrite Rabs_left1 in D1 by lra. rewrite Rabs_pos_eq in D2 by lra. apply Rabs_def1; lra.
Qed.
Theorem count_in_range n s : (1 <= n <= 2 ^ 31)%Z -> is_sparsity s -> (n <= 2 ^ 24)%Z \/ eps <= number s -> (1 <= keep_count n s <= n)%Z.
Proof.
  intros N S1 H. split; [apply keep_pos; auto; lia|]. apply sparsity_val in S1 as (F & S1). assert (0 < u)%R by (unfold u; lra). destruct H as [H|H].
  - apply count_le24; auto; [lia|lra]. - apply count_le_eps; auto. apply Qle_Rle in H. rewrite eps_R, number_val in H. lra.
Qed.
Theorem count_antitone n n' s s' : (1 <= n <= n')%Z -> (n' <= 2 ^ 31)%Z -> is_sparsity s -> is_sparsity s' -> number s' <= number s -> (keep_count n s <= keep_count n' s')%Z.
Proof.
  intros N N' S1 S2 L. apply Qle_Rle in L. rewrite !number_val in L. apply sparsity_val in S1 as (F & S1). apply sparsity_val in S2 as (F' & S2). assert (0 < u)%R by (unfold u; lra).
  apply count_mono; auto; try lia; lra.
Qed.

(** The mask. *)
Theorem update_f_ok s w : (1 <= Z.of_nat (length (data w)) <= 2 ^ 31)%Z -> is_sparsity s -> (Z.of_nat (length (data w)) <= 2 ^ 24)%Z \/ eps <= number s ->
  exists thr mask, update_mask_f s w = Ok (thr, mask).
Proof.
  intros N S1 H. unfold update_mask_f. rewrite map_length. pose proof (count_in_range _ s N S1 H) as [A B].
  destruct (nth_error_top_k_exists (map Qabs (data w)) (Z.to_nat (keep_count (Z.of_nat (length (data w))) s - 1))) as (t & p & E). { rewrite map_length. lia. }
  rewrite E. eauto.
Qed.
Theorem update_f_spec s w thr mask : (1 <= Z.of_nat (length (data w)) <= 2 ^ 31)%Z -> is_sparsity s -> update_mask_f s w = Ok (thr, mask) ->
  shape mask = shape w /\ length (data mask) = length (data w) /\
  exists k, Z.of_nat k = keep_count (Z.of_nat (length (data w))) s /\ kth_largest (magnitudes w) k thr /\
    forall i, (i < length (data w))%nat -> nth i (data mask) 0 = (if Qle_bool thr (Qabs (nth i (data w) 0)) then 1 else 0).
Proof.
  intros N S1. pose proof (keep_pos (Z.of_nat (length (data w))) s ltac:(lia) S1) as Hk. unfold update_mask_f. rewrite map_length.
  set (k := keep_count (Z.of_nat (length (data w))) s) in *.
  destruct (nth_error (top_k_all (map Qabs (data w))) (Z.to_nat (k - 1))) as [[t p]|] eqn:E; [|discriminate].
  intros H. injection H as <- <-. cbn [shape data].
  assert (Hlen : length (map b2q (map (fun p0 => Qle_bool t (fst p0) || (snd p0 =? p)%nat) (indexed (map Qabs (data w)))))%bool = length (data w)).
  { rewrite !map_length, indexed_length, map_length. auto. }
  repeat split; auto. exists (Z.to_nat k). apply sort_kth in E as [HK [Hp Hv]]. repeat split.
  - rewrite Z2Nat.id by lia. reflexivity.
  - unfold magnitudes. destruct HK as [HK _]; auto.
  - replace (Z.to_nat k) with (S (Z.to_nat (k - 1))) by lia. apply HK.
  - replace (Z.to_nat k) with (S (Z.to_nat (k - 1))) by lia. apply HK.
  - intros i Hi.
    rewrite nth_indep with (d' := b2q (Qle_bool t (fst (0, 0%nat)) || (snd (0, 0%nat) =? p)%nat)%bool) by lia.
    rewrite map_map. change (b2q (Qle_bool t (fst (0, 0%nat)) || (snd (0, 0%nat) =? p)%nat)) with ((fun x : Q * nat => b2q (Qle_bool t (fst x) || (snd x =? p)%nat)) (0, 0%nat)).
    rewrite map_nth. rewrite indexed_nth by (rewrite map_length; auto). cbn [fst snd].
    assert (Ei : nth i (map Qabs (data w)) 0 = Qabs (nth i (data w) 0)). { rewrite nth_indep with (d' := Qabs 0) by (rewrite map_length; auto). apply map_nth. }
    rewrite Ei. destruct (Nat.eqb_spec i p) as [->|Hn].
    + rewrite orb_true_r. rewrite <- Ei, Hv. assert (Qle_bool t t = true) as -> by (apply Qle_bool_iff; apply Qle_refl). auto.
    + rewrite orb_false_r. destruct (Qle_bool t (Qabs (nth i (data w) 0))); auto.
Qed.
(** Above 2^24 the size itself is rounded. *)
Theorem update_f_fails w : (2 ^ 24 < Z.of_nat (length (data w)) < 2 ^ 25)%Z -> (Z.of_nat (length (data w)) mod 4 = 3)%Z -> update_mask_f (f_of_int 0) w = Err InvalidArgument.
Proof.
  intros N M. unfold update_mask_f. rewrite map_length, count_up by auto.
  assert (X : nth_error (top_k_all (map Qabs (data w))) (Z.to_nat (Z.of_nat (length (data w)) + 1 - 1)) = None).
  { apply nth_error_None. rewrite top_k_length, map_length. lia. }
  now rewrite X.
Qed.
