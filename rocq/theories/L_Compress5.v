From Coq Require Import String Ascii.
From Verif Require Import Base M_Tensor M_Num M_Stages M_Cluster M_Compress S_Cluster S_Compress L_Tensor L_Cluster L_Cluster4 L_Compress L_Compress2 L_Compress3 L_Compress4.
Open Scope string_scope.
Open Scope list_scope.
Open Scope nat_scope.

(** ** The scheduled rank *)
Lemma rank_at_spec rk wm full n : (0 <= rk)%Z -> (0 <= full)%Z -> (0 <= n)%Z -> rank_at rk wm full n = scheduled_rank rk wm full n.
Proof.
  intros. unfold rank_at, scheduled_rank. destruct (Z.ltb_spec n wm); [|apply Z.min_comm].
  rewrite Z.quot_div_nonneg by nia. apply Z.min_comm.
Qed.
Lemma scheduled_props rk wm full : (0 < wm)%Z -> (0 <= rk)%Z -> (0 <= full)%Z ->
  scheduled_rank rk wm full 0 = full /\
  (forall n, (wm <= n)%Z -> scheduled_rank rk wm full n = Z.min full rk) /\
  (forall n, (0 <= n)%Z -> Z.min full rk <= scheduled_rank rk wm full n <= full)%Z /\
  (forall n1 n2, (0 <= n1 <= n2)%Z -> scheduled_rank rk wm full n2 <= scheduled_rank rk wm full n1)%Z.
Proof.
  intros Hw Hr Hf.
  assert (B : forall n, (0 <= n)%Z -> (Z.min full rk <= scheduled_rank rk wm full n <= full)%Z).
  { intros n Hn. unfold scheduled_rank. destruct (Z.ltb_spec n wm); [|lia].
    assert (Z.min full rk <= (full * (wm - n) + rk * n) / wm)%Z; [|lia].
    apply Z.div_le_lower_bound; auto. destruct (Z.le_ge_cases full rk).
    - rewrite Z.min_l by lia. nia.
    - rewrite Z.min_r by lia. nia. }
  split; [|split; [|split; [exact B|]]].
  - unfold scheduled_rank. destruct (Z.ltb_spec 0 wm); [|lia].
    replace (full * (wm - 0) + rk * 0)%Z with (full * wm)%Z by lia. rewrite Z.div_mul by lia. lia.
  - intros n Hn. unfold scheduled_rank. destruct (Z.ltb_spec n wm); lia.
  - intros n1 n2 Hn. destruct (Z.ltb_spec n2 wm) as [L|L].
    + unfold scheduled_rank. destruct (Z.ltb_spec n2 wm); [|lia]. destruct (Z.ltb_spec n1 wm); [|lia].
      destruct (Z.le_ge_cases full rk) as [G|G].
      * assert (full <= (full * (wm - n1) + rk * n1) / wm)%Z by (apply Z.div_le_lower_bound; nia). lia.
      * assert ((full * (wm - n2) + rk * n2) / wm <= (full * (wm - n1) + rk * n1) / wm)%Z by (apply Z.div_le_mono; nia). lia.
    + assert (scheduled_rank rk wm full n2 = Z.min full rk) as ->
        by (unfold scheduled_rank; destruct (Z.ltb_spec n2 wm); lia).
      apply B. lia.
Qed.

Section Periodical.
Variables (svd : svd_op) (rk freq wm : Z).
Hypothesis Hs : svd_shapes svd.
Hypothesis Hrk : (0 <= rk)%Z.

Definition counter (c : nat) : cv := VI (mkT [] [Z.of_nat c]).

Lemma counter_S c : VI (mkT [] [Z.of_nat c + 1]%Z) = counter (S c).
Proof. unfold counter. do 3 f_equal. lia. Qed.

Lemma factor_mat r t : (rank t = 2 \/ rank t = 4) -> (0 <= r <= full_rank t)%Z ->
  exists u sv, factorize svd r t = Ok (u, sv) /\ shape (matmul u sv) = shape t /\ rank_at_most (Z.to_nat r) (matmul u sv).
Proof.
  intros Hr Hb. destruct (split2 (shape t)) as (p & m & n & Hsh). { unfold rank in Hr. lia. }
  destruct (factorize_ok svd r t p m n Hs Hsh Hr) as (u & sv & E & Su & Sv & _).
  unfold full_rank in Hb. rewrite Hsh, col_app, row2_app in Hb.
  assert (Ek : slice_len r (Nat.min m n) = Z.to_nat r). { apply Nat2Z.inj. rewrite slice_len_pos by lia. lia. }
  rewrite Ek in *. exists u, sv. split; auto. split. rewrite Hsh. now apply matmul_shape with (k := Z.to_nat r).
  eapply matmul_rank; eauto.
Qed.

Lemma full_rank_eq t : weight_rank (shape t) = full_rank t. Proof. reflexivity. Qed.
Lemma sched_bounds full c : (0 <= full)%Z -> (0 <= scheduled_rank rk wm full (Z.of_nat c) <= full)%Z.
Proof.
  intros Hf. unfold scheduled_rank. destruct (Z.ltb_spec (Z.of_nat c) wm); [|lia].
  assert (0 <= (full * (wm - Z.of_nat c) + rk * Z.of_nat c) / wm)%Z by (apply Z.div_pos; nia). lia.
Qed.

Lemma period_step t c : (rank t = 2 \/ rank t = 4) ->
  exists t', period_project svd rk freq wm [VF t; counter c] = Ok (VF t, [VF t'; counter (S c)]) /\
    shape t' = shape t /\ (wf t -> wf t') /\
    ((Z.of_nat c mod freq)%Z = 0%Z -> rank_at_most (Z.to_nat (scheduled_rank rk wm (full_rank t) (Z.of_nat c))) t') /\
    ((Z.of_nat c mod freq)%Z <> 0%Z -> t' = t).
Proof.
  intros Hr. unfold period_project. cbn [counter data]. rewrite counter_S.
  destruct (Z.eqb_spec (Z.of_nat c mod freq) 0) as [E|E].
  - assert (0 <= full_rank t)%Z by (unfold full_rank; lia).
    rewrite full_rank_eq, rank_at_spec by lia.
    destruct (factor_mat (scheduled_rank rk wm (full_rank t) (Z.of_nat c)) t Hr (sched_bounds _ c H)) as (u & sv & Ef & Sh & Rk).
    rewrite Ef. cbn [bind fst snd]. exists (matmul u sv). split; [reflexivity|]. split; auto. split; [intros; apply matmul_wf|].
    split; auto. contradiction.
  - exists t. split; [reflexivity|]. split; auto. split; auto. split; [contradiction|auto].
Qed.

Let alg := periodical_svd svd rk freq wm.

Lemma period_history y k b t0 w0 : kernel_and_bias y k b -> lw_value k = VF t0 -> svd_kernel (lw_value k) ->
  create_layer_for_training alg y = Ok w0 ->
  forall n w, history alg w0 n w ->
  exists t bv, w = mkTW y [("kernel", [VF t; counter n])] [("bias", bv)] /\ shape t = shape t0 /\ wf t /\
               stepped (lw_value b) bv.
Proof.
  intros H Ht0 (tt & Ett & Wtt & Rtt) Hc. rewrite Ett in Ht0. injection Ht0 as ->.
  assert (Hc' : create_layer_for_training alg y = Ok (mkTW y [("kernel", [lw_value k; VI (mkT [] [0%Z])])] [("bias", lw_value b)])).
  { apply kb_create with (k := k); auto. apply ck_periodical. }
  rewrite Hc' in Hc. injection Hc as <-. intros n w Hh. induction Hh as [|n w w' Hh IH Ht|n w fw w' Hh IH Hcall].
  - exists t0, (lw_value b). rewrite Ett. split; [reflexivity|]. split; auto. split; auto.
    assert (W : wfv (lw_value b)). { destruct H as ((_ & _ & Hall) & _ & Hw & _). apply (Hall b). rewrite Hw. cbn; auto. }
    repeat split; auto.
  - destruct IH as (t & bv & -> & Sh & Wt & Sb). apply trained_kb in Ht as (ts' & b' & -> & F & G).
    inversion F as [|? v1 ? r1 A B]; subst. inversion B as [|? v2 ? r2 C D]; subst. inversion D; subst.
    destruct A as (A1 & A2 & A3 & _). destruct v1 as [t1|]; [|discriminate]. cbn in A1, A2.
    destruct C as (_ & _ & _ & C). specialize (C eq_refl). subst v2.
    exists t1, b'. split; [reflexivity|]. split; [congruence|]. split; auto.
    destruct Sb as (S1 & S2 & S3 & S4). destruct G as (G1 & G2 & G3 & G4). repeat split; try congruence.
    intros Hf. rewrite <- (S4 Hf). apply G4. congruence.
  - destruct IH as (t & bv & -> & Sh & Wt & Sb).
    assert (Hr : rank t = 2 \/ rank t = 4) by (unfold rank; rewrite Sh; exact Rtt).
    destruct (period_step t n Hr) as (t' & E & Sh' & W' & _).
    unfold train_call in Hcall. cbn [tw_training mapM fst snd] in Hcall.
    change (a_project alg) with (period_project svd rk freq wm) in Hcall. rewrite E in Hcall. cbn [bind map fst snd tw_layer tw_rest] in Hcall.
    injection Hcall as _ <-. exists t', bv. split; [reflexivity|]. split; [congruence|]. auto.
Qed.

Lemma period_call y k b t0 w0 n w : kernel_and_bias y k b -> lw_value k = VF t0 -> svd_kernel (lw_value k) ->
  create_layer_for_training alg y = Ok w0 -> history alg w0 n w ->
  exists t t' bv, tw_training w = [("kernel", [VF t; counter n])] /\ shape t = shape t0 /\ shape t' = shape t0 /\
    train_call alg w = Ok ([("kernel", VF t); ("bias", bv)], mkTW y [("kernel", [VF t'; counter (S n)])] [("bias", bv)]) /\
    ((Z.of_nat n mod freq)%Z = 0%Z -> rank_at_most (Z.to_nat (scheduled_rank rk wm (full_rank t0) (Z.of_nat n))) t') /\
    ((Z.of_nat n mod freq)%Z <> 0%Z -> t' = t).
Proof.
  intros H Ht0 Hk Hc Hh. destruct (period_history y k b t0 w0 H Ht0 Hk Hc n w Hh) as (t & bv & -> & Sh & Wt & _).
  assert (Hr : rank t = 2 \/ rank t = 4).
  { destruct Hk as (tt & Ett & _ & Rtt). rewrite Ett in Ht0. injection Ht0 as ->. unfold rank. rewrite Sh. exact Rtt. }
  destruct (period_step t n Hr) as (t' & E & Sh' & W' & R1 & R2). exists t, t', bv.
  split; [reflexivity|]. split; auto. split; [congruence|]. split; [|split; auto].
  - unfold train_call. cbn [tw_training mapM fst snd]. change (a_project alg) with (period_project svd rk freq wm).
    rewrite E. reflexivity.
  - unfold full_rank in *. rewrite Sh in R1. exact R1.
Qed.
End Periodical.

(** ** Inference kernels *)
Lemma svd_infer_kernel svd rk t : svd_shapes svd -> (1 <= rk)%Z -> wf t -> (rank t = 2 \/ rank t = 4) ->
  exists u sv, factorize svd rk t = Ok (u, sv) /\ shape (matmul u sv) = shape t /\
    rank_at_most (Z.to_nat (Z.min rk (full_rank t))) (matmul u sv) /\
    (svd_exact svd -> (full_rank t <= rk)%Z -> same_tensor (matmul u sv) t) /\
    stored [VF u; VF sv] = prod (lead (shape t)) * (Z.to_nat (Z.min rk (full_rank t)) * (row2 (shape t) + col (shape t))).
Proof.
  intros Hs Hk Wf Hr. destruct (split2 (shape t)) as (p & m & n & Hsh). { unfold rank in Hr. lia. }
  destruct (factorize_ok svd rk t p m n Hs Hsh Hr) as (u & sv & E & Su & Sv & _).
  assert (Ek : slice_len rk (Nat.min m n) = Z.to_nat (Z.min rk (full_rank t))).
  { apply Nat2Z.inj. unfold full_rank. rewrite Hsh, col_app, row2_app, slice_len_pos by lia. lia. }
  exists u, sv. split; auto. rewrite Ek in *.
  assert (Sh : shape (matmul u sv) = shape t) by (rewrite Hsh; eapply matmul_shape; eauto).
  split; auto. split; [eapply matmul_rank; eauto|]. split.
  - intros He Hfull. split; auto. intros idx Hv. rewrite Sh, Hsh in Hv. apply valid2_inv in Hv as (q & i & j & -> & Hq & Hi & Hj).
    eapply factorize_exact; eauto. unfold full_rank in Hfull. rewrite Hsh, col_app, row2_app in Hfull. lia.
  - unfold stored. cbn [map vshape sumN]. rewrite Su, Sv, Hsh, lead_app, row2_app, col_app.
    assert (P : forall a b, prod (p ++ [a; b]) = prod p * (a * b)).
    { intros. clear. induction p; cbn; [lia|]. rewrite IHp. lia. }
    rewrite !P. lia.
Qed.

(** A negative rank goes through Python's slicing: [-j] keeps all but the last [j] singular values. *)
Lemma factorize_negative svd rk t : svd_shapes svd -> (rk < 0)%Z -> (rank t = 2 \/ rank t = 4) ->
  factorize svd rk t = factorize svd (Z.max 0 (full_rank t + rk)) t.
Proof.
  intros Hs Hk Hr. destruct (split2 (shape t)) as (p & m & n & Hsh). { unfold rank in Hr. lia. }
  pose proof (Hs t p m n Hsh) as H. unfold factorize. destruct (svd t) as [[s u] v]. destruct H as (Ss & Su & Sv).
  assert (Ek : slice_len rk (Nat.min m n) = slice_len (Z.max 0 (full_rank t + rk)) (Nat.min m n)).
  { unfold full_rank. rewrite Hsh, col_app, row2_app. apply Nat2Z.inj. rewrite (slice_len_pos (Z.max 0 _)) by lia. unfold slice_len. destruct (Z.ltb_spec rk 0); lia. }
  rewrite Ss, Su, Sv, col_app, col_app1. rewrite Ek. reflexivity.
Qed.
