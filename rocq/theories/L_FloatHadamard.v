(** The Hadamard transform in float32: norms of the rounding errors. *)
From Coq Require Import Reals Psatz Lia Rgeom.
From Flocq Require Import Core BinarySingleNaN.
From Verif Require Import Base M_Float32 L_Float32 L_Float32b L_FloatSchedule L_FloatQuant M_Hadamard L_Hadamard L_Kashin M_FloatHadamard.
From Coq Require Import Lra.
Open Scope R_scope.

(** ** Norms *)
Lemma norm2_nil : norm2 [] = 0. Proof. unfold norm2. cbn [map sumR]. apply sqrt_0. Qed.
Lemma sumsq_pos x : 0 <= sumR (map (fun a => a * a) x).
Proof. induction x as [|a x IH]; cbn [map sumR]; [lra|]. pose proof (Rle_0_sqr a). unfold Rsqr in *. lra. Qed.
Lemma norm2_sq x : norm2 x * norm2 x = sumR (map (fun a => a * a) x).
Proof. unfold norm2. apply sqrt_sqrt, sumsq_pos. Qed.
Lemma norm2_cons a x : norm2 (a :: x) = sqrt (Rsqr a + Rsqr (norm2 x)).
Proof. unfold Rsqr. rewrite norm2_sq. reflexivity. Qed.
Lemma hyp_tri a p b q : sqrt (Rsqr (a + b) + Rsqr (p + q)) <= sqrt (Rsqr a + Rsqr p) + sqrt (Rsqr b + Rsqr q).
Proof.
  pose proof (triangle 0 0 (a + b) (p + q) a p) as T. unfold dist_euc in T. 
  replace (Rsqr (0 - (a + b)) + Rsqr (0 - (p + q))) with (Rsqr (a + b) + Rsqr (p + q)) in T by (unfold Rsqr; ring).
  replace (Rsqr (0 - a) + Rsqr (0 - p)) with (Rsqr a + Rsqr p) in T by (unfold Rsqr; ring).
  replace (Rsqr (a - (a + b)) + Rsqr (p - (p + q))) with (Rsqr b + Rsqr q) in T by (unfold Rsqr; ring). exact T.
Qed.
Lemma hyp_mono a p b q : 0 <= p <= q -> Rabs a <= Rabs b -> sqrt (Rsqr a + Rsqr p) <= sqrt (Rsqr b + Rsqr q).
Proof.
  intros P A. apply sqrt_le_1_alt. pose proof (Rsqr_le_abs_1 _ _ A). pose proof (Rsqr_incr_1 p q (proj2 P) (proj1 P) ltac:(lra)). lra.
Qed.
Lemma hyp_sum a p : 0 <= a -> 0 <= p -> sqrt (Rsqr a + Rsqr p) <= a + p.
Proof.
  intros A P. pose proof (hyp_tri a 0 0 p) as T. rewrite Rplus_0_r, Rplus_0_l in T. rewrite Rsqr_0, Rplus_0_r, Rplus_0_l, !sqrt_Rsqr in T by auto. exact T.
Qed.
Lemma norm2_tri : forall x y, length x = length y -> norm2 (vadd x y) <= norm2 x + norm2 y.
Proof.
  induction x as [|a x IH]; intros [|b y] E; try discriminate; [unfold vadd; cbn [vmap2]; rewrite norm2_nil; lra|].
  change (vadd (a :: x) (b :: y)) with ((a + b) :: vadd x y). rewrite !norm2_cons. pose proof (IH y ltac:(now injection E)) as I. pose proof (norm_nonneg (vadd x y)).
  eapply Rle_trans; [|apply hyp_tri]. apply hyp_mono; [lra|lra].
Qed.
(** Vectors that are close entry by entry. *)
Lemma norm2_err c t : 0 <= c -> 0 <= t -> forall a b, Forall2 (fun x y => Rabs (x - y) <= c * Rabs y + t) a b -> norm2 (vsub a b) <= c * norm2 b + INR (length b) * t.
Proof.
  intros C T a b F. induction F as [|x y a b X F IH]; [unfold vsub; cbn [vmap2 length INR]; rewrite norm2_nil; lra|].
  change (vsub (x :: a) (y :: b)) with ((x - y) :: vsub a b). change (length (y :: b)) with (S (length b)). rewrite S_INR, !norm2_cons. pose proof (norm_nonneg (vsub a b)) as P1. pose proof (norm_nonneg b) as P2. pose proof (pos_INR (length b)) as P3.
  assert (P4 : 0 <= INR (length b) * t) by (apply Rmult_le_pos; lra). assert (P5 : 0 <= c * norm2 b) by (apply Rmult_le_pos; lra). assert (P6 : 0 <= c * Rabs y) by (apply Rmult_le_pos; [lra|apply Rabs_pos]).
  apply Rle_trans with (sqrt (Rsqr (c * Rabs y + t) + Rsqr (c * norm2 b + INR (length b) * t))).
  { apply hyp_mono; [lra|]. rewrite (Rabs_pos_eq (c * Rabs y + t)) by lra. exact X. }
  eapply Rle_trans; [apply hyp_tri|]. assert (E : sqrt (Rsqr (c * Rabs y) + Rsqr (c * norm2 b)) = c * sqrt (Rsqr y + Rsqr (norm2 b))).
  { rewrite !Rsqr_mult, <- Rsqr_abs, <- Rmult_plus_distr_l, sqrt_mult; [|apply Rle_0_sqr|]. 2:{ pose proof (Rle_0_sqr y). pose proof (Rle_0_sqr (norm2 b)). lra. } rewrite sqrt_Rsqr by auto. reflexivity. }
  rewrite E. pose proof (hyp_sum t (INR (length b) * t) T P4). lra.
Qed.
Lemma vsub_len x y : length x = length y -> length (vsub x y) = length x. Proof. apply vmap2_len. Qed.
Lemma vadd_vsub : forall x y, length x = length y -> vadd (vsub x y) y = x.
Proof. induction x as [|a x IH]; intros [|b y] E; try discriminate; [reflexivity|]. change (vadd (vsub (a :: x) (b :: y)) (b :: y)) with ((a - b + b) :: vadd (vsub x y) y). rewrite IH by (now injection E). f_equal. ring. Qed.
Lemma vsub_vadd : forall x y, length x = length y -> vsub (vadd x y) y = x.
Proof. induction x as [|a x IH]; intros [|b y] E; try discriminate; [reflexivity|]. change (vsub (vadd (a :: x) (b :: y)) (b :: y)) with ((a + b - b) :: vsub (vadd x y) y). rewrite IH by (now injection E). f_equal. ring. Qed.
Lemma vsub_split : forall x y z, length x = length y -> length y = length z -> vsub x z = vadd (vsub x y) (vsub y z).
Proof.
  induction x as [|a x IH]; intros [|b y] [|c z] E F; try discriminate; [reflexivity|].
  change (vsub (a :: x) (c :: z)) with ((a - c) :: vsub x z). change (vadd (vsub (a :: x) (b :: y)) (vsub (b :: y) (c :: z))) with ((a - b + (b - c)) :: vadd (vsub x y) (vsub y z)).
  rewrite (IH y z) by (try now injection E; now injection F). f_equal. ring.
Qed.
Lemma norm2_split x y z : length x = length y -> length y = length z -> norm2 (vsub x z) <= norm2 (vsub x y) + norm2 (vsub y z).
Proof. intros E F. rewrite (vsub_split x y z E F). apply norm2_tri. rewrite !vsub_len; congruence. Qed.
Lemma norm2_near x y : length x = length y -> norm2 x <= norm2 y + norm2 (vsub x y).
Proof. intros E. rewrite <- (vadd_vsub x y E) at 1. rewrite Rplus_comm. apply norm2_tri. rewrite vsub_len; auto. Qed.
Lemma norm2_entry x a : In a x -> Rabs a <= norm2 x.
Proof.
  induction x as [|b x IH]; [intros []|]. intros [-> |I]; rewrite norm2_cons.
  - rewrite <- sqrt_Rsqr_abs. apply sqrt_le_1_alt. pose proof (Rle_0_sqr (norm2 x)). lra.
  - apply Rle_trans with (1 := IH I). rewrite <- (sqrt_Rsqr (norm2 x)) at 1 by apply norm_nonneg. apply sqrt_le_1_alt. pose proof (Rle_0_sqr b). lra.
Qed.
Lemma norm2_le c x : 0 <= c -> Forall (fun a => Rabs a <= c) x -> norm2 x <= INR (length x) * c.
Proof.
  intros C F. induction F as [|a x A F IH]; [rewrite norm2_nil; cbn; lra|]. rewrite norm2_cons. change (length (a :: x)) with (S (length x)). rewrite S_INR.
  pose proof (norm_nonneg x). rewrite (Rsqr_abs a). pose proof (hyp_sum (Rabs a) (norm2 x) (Rabs_pos a) ltac:(auto)). lra.
Qed.

(** ** The exact loop *)
Lemma step_sub x y h : length x = (2 * h)%nat -> length y = (2 * h)%nat -> hadamard_step (vsub x y) = vsub (hadamard_step x) (hadamard_step y).
Proof.
  intros X Y. assert (E : length x = length y) by congruence. assert (V : length (vsub x y) = (2 * h)%nat) by (rewrite vsub_len; auto).
  pose proof (hstep_len h x X) as HX. pose proof (hstep_len h y Y) as HY.
  apply nth_ext0 with (2 * h)%nat; [now apply hstep_len|unfold vsub; rewrite vmap2_len; congruence|]. intros i Hi.
  rewrite (hstep_nth h _ i V Hi). unfold vsub. rewrite (vmap2_nth Rminus (hadamard_step x)) by (try congruence; lia). rewrite (hstep_nth h x i X Hi), (hstep_nth h y i Y Hi).
  destruct (i <? h)%nat eqn:B; [apply Nat.ltb_lt in B|apply Nat.ltb_ge in B]; rewrite !vmap2_nth by (auto; lia); ring.
Qed.
Lemma pairs_sumsq : forall h x, length x = (2 * h)%nat -> sumR (map (fun p => fst p * fst p + snd p * snd p) (pairs x)) = sumR (map (fun a => a * a) x).
Proof.
  induction h as [|h IH]; intros x E. { destruct x; [reflexivity|discriminate]. }
  destruct x as [|a [|b x]]; cbn [length] in E; try lia. cbn [pairs map sumR fst snd]. rewrite IH by lia. ring.
Qed.
Lemma step_norm h x : length x = (2 * h)%nat -> norm2 (hadamard_step x) = sqrt 2 * norm2 x.
Proof.
  intros E. unfold norm2. rewrite <- sqrt_mult by (try lra; apply sumsq_pos). f_equal. rewrite <- (pairs_sumsq h x E). unfold hadamard_step. rewrite map_app, sumR_app, !map_map.
  induction (pairs x) as [|[p q] l IH]; cbn [map sumR fst snd]; [lra|]. lra.
Qed.
Definition r2 : R := sqrt 2.
Lemma r2_pos : 0 < r2. Proof. apply sqrt_lt_R0. lra. Qed.
Lemma loop_len h : forall m x, length x = (2 * h)%nat -> length (fwht_loop m x) = (2 * h)%nat.
Proof. induction m as [|m IH]; intros x E; cbn [fwht_loop]; auto. apply IH. now apply hstep_len. Qed.
Lemma loop_diff h : forall m x y, length x = (2 * h)%nat -> length y = (2 * h)%nat -> norm2 (vsub (fwht_loop m x) (fwht_loop m y)) = r2 ^ m * norm2 (vsub x y).
Proof.
  induction m as [|m IH]; intros x y X Y; cbn [fwht_loop pow]; [lra|]. rewrite IH by (now apply hstep_len). rewrite <- (step_sub x y h X Y), (step_norm h). unfold r2. ring.
  rewrite vsub_len; congruence.
Qed.
