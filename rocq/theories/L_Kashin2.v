(** Rejected arguments, recorded shapes and encoded widths of the rotation stages. *)
From Coq Require Import Reals.
From Verif Require Import Base M_Hadamard S_Hadamard L_Hadamard L_Kashin.
From Coq Require Import Lra.
Open Scope R_scope.

Lemma kashin_made iters eta delta lc th : (0 < iters)%Z -> 0 < eta < 1 -> 0 < delta ->
  mk_kashin iters eta delta lc th = Ok (mkKashin (Z.to_nat iters) eta delta lc th).
Proof.
  intros A B C. unfold mk_kashin. destruct (Z.leb_spec iters 0); [lia|]. destruct (Rlt_dec 0 eta); [|lra]. destruct (Rlt_dec eta 1); [|lra].
  destruct (Rle_dec delta 0); [lra|reflexivity].
Qed.
Lemma kashin_refused iters eta delta lc th : ~ ((0 < iters)%Z /\ 0 < eta < 1 /\ 0 < delta) -> mk_kashin iters eta delta lc th = Err ValueError.
Proof.
  intros N. unfold mk_kashin. destruct (Z.leb_spec iters 0); [reflexivity|]. destruct (Rlt_dec 0 eta); [|reflexivity]. destruct (Rlt_dec eta 1); [|reflexivity].
  destruct (Rle_dec delta 0); [reflexivity|]. exfalso. apply N. repeat split; try lra; lia.
Qed.

Lemma smallest_pow2 n : (0 < n)%nat -> smallest_power_of_2 n (2 ^ Nat.log2_up n)%nat.
Proof.
  intros H. split; [eauto|]. split; [apply le_log2_up; auto|]. intros j Hj.
  apply Nat.pow_le_mono_r; [lia|]. destruct (Nat.le_gt_cases (Nat.log2_up n) j) as [L|L]; [auto|].
  pose proof (Nat.log2_up_spec n). destruct (Nat.le_gt_cases n 1) as [K|K]; [assert (n = 1)%nat as -> by lia; cbn in L; lia|].
  specialize (H0 K). destruct H0 as [H0 _]. assert (2 ^ j <= 2 ^ pred (Nat.log2_up n))%nat by (apply Nat.pow_le_mono_r; lia). lia.
Qed.
Lemma mapM_all_len {A B} (f : A -> res (list B)) (P : A -> Prop) n l m : (forall a b, P a -> f a = Ok b -> length b = n) -> Forall P l ->
  mapM f l = Ok m -> length m = length l /\ Forall (fun r => length r = n) m.
Proof.
  intros H F. revert m. induction F as [|a r Pa _ IH]; intros m E; cbn in E; [injection E as <-; split; [reflexivity|constructor]|].
  destruct (f a) eqn:Fa; cbn in E; [|discriminate]. destruct (mapM f r) eqn:Fr; cbn in E; [|discriminate]. injection E as <-.
  destruct (IH _ eq_refl) as [L G]. split; [cbn; auto|]. constructor; eauto.
Qed.
Lemma hadamard_width u x e : good_input x -> hadamard_encode u x = Ok e -> exists p, smallest_power_of_2 (width x) p /\ is_matrix (batch x) p e.
Proof.
  intros G H. destruct (good_rows x G) as (E & W & F & _ & _). unfold hadamard_encode in H. rewrite E in H. cbn [bind] in H.
  unfold hadamard_pad_dim in H. destruct (width x =? 0)%nat eqn:Z; [discriminate|]. cbn [bind] in H.
  exists (2 ^ Nat.log2_up (width x))%nat. split; [now apply smallest_pow2|].
  assert (batch x = length (rows_of x)) as -> by (destruct x; reflexivity).
  refine (mapM_all_len _ (fun r => length r = width x) _ _ _ _ F H). intros a b L A. apply fwht_len in A. rewrite A. apply pad_len.
  unfold vmul. pose proof (le_log2_up (width x) W). rewrite vmap2_len; rewrite ?signs_len; lia.
Qed.
Lemma kashin_row_len k u dim n x c : (0 < dim)%nat -> kashin_pad_dim k dim = Ok (2 ^ n)%nat -> (dim <= 2 ^ n)%nat -> length x = dim ->
  kashin_encode_row k u dim x = Ok c -> length c = (2 ^ n)%nat.
Proof.
  intros D E P Lx H. unfold kashin_encode_row in H. rewrite E in H. cbn [bind] in H.
  destruct (loop_inv k u dim n D E P (k_iters k - 1) x (repeat 0 (2 ^ n)) (repeat 0 dim) (norm2 x / sqrt (k_delta k * INR dim))) as
    (x' & c' & b' & l' & A1 & A2 & A3 & A4 & A5 & A6); auto using repeat_length, decrow_zero.
  rewrite A1 in H. cbn [bind] in H.
  destruct (forward_ok k n dim x' (random_signs dim u) l' (k_last_clip k) D E P A2 (signs_len _ _)) as (y & Ey & Ly & Ef).
  rewrite Ef in H. cbn [bind] in H. injection H as <-. set (f := if k_last_clip k then map (clipR l') y else y).
  assert (length f = 2 ^ n)%nat as Lf by (unfold f; destruct (k_last_clip k); rewrite ?map_length; auto).
  assert (length (vadd c' f) = 2 ^ n)%nat by (unfold vadd; rewrite vmap2_len; congruence).
  destruct (k_last_clip k); [unfold vscale; rewrite map_length|]; auto.
Qed.
Lemma kashin_total k u x : good_input x -> exists e, kashin_encode k u x = Ok e.
Proof.
  intros G. destruct (good_rows x G) as (E & W & F & _ & _). unfold kashin_encode. rewrite E. cbn [bind].
  destruct (kashin_pad_pow k (width x) W) as (n & En & P). rewrite En. cbn [bind]. apply (mapM_total _ (fun r => length r = width x)); [|exact F].
  intros r L. unfold kashin_encode_row. rewrite En. cbn [bind].
  destruct (loop_inv k u (width x) n W En P (k_iters k - 1) r (repeat 0 (2 ^ n)) (repeat 0 (width x)) (norm2 r / sqrt (k_delta k * INR (width x)))) as
    (x' & c' & b' & l' & A1 & A2 & A3 & A4 & A5 & A6); auto using repeat_length, decrow_zero.
  rewrite A1. cbn [bind].
  destruct (forward_ok k n (width x) x' (random_signs (width x) u) l' (k_last_clip k) W En P A2 (signs_len _ _)) as (y & Ey & Ly & ->). cbn [bind]. eauto.
Qed.
Lemma kashin_width k u x : good_input x -> exists e p, kashin_encode k u x = Ok e /\ smallest_power_of_2 (width x) p /\
  (INR (width x) / INR p <= k_threshold k -> is_matrix (batch x) p e) /\ (k_threshold k < INR (width x) / INR p -> is_matrix (batch x) (2 * p) e).
Proof.
  intros G. destruct (kashin_total k u x G) as [e H]. exists e, (2 ^ Nat.log2_up (width x))%nat. split; [exact H|].
  destruct (good_rows x G) as (E & W & F & _ & _). split; [now apply smallest_pow2|]. unfold kashin_encode in H. rewrite E in H. cbn [bind] in H.
  destruct (kashin_pad_pow k (width x) W) as (n & En & P). rewrite En in H. cbn [bind] in H.
  assert (batch x = length (rows_of x)) as -> by (destruct x; reflexivity).
  assert (is_matrix (length (rows_of x)) (2 ^ n) e) as M.
  { refine (mapM_all_len _ (fun r => length r = width x) _ _ _ _ F H). intros a b L A. exact (kashin_row_len k u (width x) n a b W En P L A). }
  unfold kashin_pad_dim in En. destruct (width x =? 0)%nat eqn:Z; [discriminate|].
  destruct (Rlt_dec _ _) as [C|C]; injection En as En; rewrite <- En in M; split; intros K; try lra; auto. now rewrite Nat.mul_comm.
Qed.
