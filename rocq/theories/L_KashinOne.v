(** Kashin encoding with a single, clipped, iteration. *)
From Coq Require Import Reals Psatz Lia.
From Verif Require Import Base M_Hadamard S_Hadamard L_Hadamard L_Kashin L_Kashin2.
From Coq Require Import Lra.
Open Scope R_scope.

Lemma clip_truncated level b : 0 <= level -> truncated level b (clipR level b).
Proof.
  intros L. unfold truncated, clipR, Rmin, Rmax. destruct (Rle_dec (- level) b) as [A|A]; [destruct (Rle_dec level b) as [B|B]|destruct (Rle_dec level (- level)) as [B|B]].
  - destruct (Req_dec level b); [left|right; left]; lra.
  - left. lra.
  - right. right. lra.
  - right. right. lra.
Qed.
Lemma clip_truncated_rows level y : 0 <= level -> Forall2 (truncated level) y (map (clipR level) y).
Proof. intros L. induction y; constructor; auto using clip_truncated. Qed.
Lemma vadd_zeros : forall y n, n = length y -> vadd (repeat 0 n) y = y.
Proof. induction y as [|a y IH]; intros n ->; [reflexivity|]. cbn [length repeat]. change (vadd (0 :: repeat 0 (length y)) (a :: y)) with ((0 + a) :: vadd (repeat 0 (length y)) y). rewrite IH, Rplus_0_l by reflexivity. reflexivity. Qed.
Lemma scaled_by c y : Forall2 (fun a b => b = c * a) y (vscale c y).
Proof. induction y as [|a y IH]; constructor; auto. ring. Qed.
Lemma kashin_one_pass k u dim x c : k_iters k = 1%nat -> k_last_clip k = true -> length x = dim -> kashin_encode_row k u dim x = Ok c ->
  exists y t lam, fwht (pad_right (length c) (vmul x (random_signs dim u))) = Ok y /\ 0 <= lam /\
    Forall2 (truncated (norm2 x / sqrt (k_delta k * INR dim))) y t /\ Forall2 (fun a b => b = lam * a) t c.
Proof.
  intros I C L H. unfold kashin_encode_row in H. destruct (kashin_pad_dim k dim) as [pd|] eqn:P; [|discriminate]. cbn [bind] in H. rewrite I in H. cbn [Nat.sub kashin_loop bind] in H.
  unfold kashin_forward in H. rewrite L, P in H. cbn [bind] in H. destruct (fwht (pad_right pd (vmul x (random_signs dim u)))) as [y|] eqn:Y; [|discriminate]. cbn [bind] in H. rewrite C in H.
  set (level := norm2 x / sqrt (k_delta k * INR dim)) in *. set (f := map (clipR level) y) in *.
  assert (D : (0 < dim)%nat) by (unfold kashin_pad_dim in P; destruct (dim =? 0)%nat eqn:Z; [discriminate|apply Nat.eqb_neq in Z; lia]).
  assert (Ly : length y = pd).
  { pose proof (fwht_len _ _ Y) as E. rewrite E. apply pad_len. unfold vmul. rewrite vmap2_len by (rewrite signs_len; exact L). rewrite L. destruct (kashin_pad_pow k dim D) as (n & En & Pn). rewrite P in En. injection En as ->. exact Pn. }
  assert (Lf : length f = pd) by (unfold f; now rewrite map_length). rewrite (vadd_zeros f pd (eq_sym Lf)) in H. injection H as <-.
  exists y, f, (div_no_nanR (norm2 x) (norm2 f)). split. { unfold vscale. rewrite map_length, Lf. exact Y. }
  split. { unfold div_no_nanR. destruct (Req_EM_T (norm2 f) 0); [lra|]. apply Rmult_le_pos; [apply norm_nonneg|]. left. apply Rinv_0_lt_compat. pose proof (norm_nonneg f). lra. }
  split. { apply clip_truncated_rows. apply Rmult_le_pos; [apply norm_nonneg|]. destruct (Req_dec (sqrt (k_delta k * INR dim)) 0) as [Z|Z]; [rewrite Z, Rinv_0; lra|]. left. apply Rinv_0_lt_compat. pose proof (sqrt_pos (k_delta k * INR dim)). lra. }
  apply scaled_by.
Qed.
