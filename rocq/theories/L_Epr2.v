From Coq Require Import String Ascii.
From Verif Require Import Base M_Tensor L_Tensor M_Num L_Num M_Compress S_Compress M_Epr S_Epr L_Epr.
Open Scope list_scope.
Open Scope nat_scope.

Lemma scalar_suffix (ls : tensor Q) s : wf ls -> shape ls = [] -> suffix ls s.
Proof. intros W E. split; auto. exists s. rewrite E. now rewrite app_nil_r. Qed.
Lemma conv_suffix (ls : tensor Q) s : wf ls -> shape ls = skipn 2 s -> suffix ls s.
Proof. intros W E. split; auto. exists (firstn 2 s). rewrite E. symmetry. apply firstn_skipn. Qed.
Lemma step_pos o ls idx : positive o -> (0 < step_at o ls idx)%Q.
Proof. intros [P _]. apply P. Qed.

Section Alg.
Variables (fast : bool) (o : epr_ops).
Let alg := algorithm fast o.

Lemma project_dense w ls sc : a_project alg (dense_weights fast w ls sc) = Ok (VF (transform_dense o w ls false), dense_weights fast w ls sc).
Proof. unfold alg, dense_weights. destruct fast; reflexivity. Qed.
Lemma project_conv r ks ls sc : a_project alg (conv_weights fast r ks ls sc) = Ok (VF (transform_conv o r ks ls false), conv_weights fast r ks ls sc).
Proof.
  assert (K : a_project alg (conv_weights fast r ks ls sc) = Ok (VF (transform_conv o r (dims (shape_vector ks)) ls false), conv_weights fast r ks ls sc))
    by (unfold alg, conv_weights; destruct fast; reflexivity).
  now rewrite dims_vector in K.
Qed.

(** Forward pass. *)
Lemma dense_forward w ls sc : positive o -> wf ls -> shape ls = [] ->
  exists v, a_project alg (dense_weights fast w ls sc) = Ok (VF v, dense_weights fast w ls sc) /\ shape v = shape w /\ wf v /\
    forall idx, valid (shape w) idx -> quantized_to (step_at o ls idx) (tget 0%Q w idx) (tget 0%Q v idx).
Proof.
  intros P W E. eexists. split; [apply project_dense|]. split; [apply dense_shape|]. split; [apply dense_wf|]. intros idx V.
  rewrite tget_dense by (auto using scalar_suffix). apply quantize_ok. now apply step_pos.
Qed.
Lemma conv_forward r ks ls sc : positive o -> wf ls -> shape ls = skipn 2 (shape r) ->
  exists x, a_project alg (conv_weights fast r ks ls sc) = Ok (VF (o_irfft o (lead ks) x), conv_weights fast r ks ls sc) /\ shape x = shape r /\
    forall idx, valid (shape r) idx -> exists q, quantized_to (step_at o ls idx) (tget 0%Q r idx) q /\ (tget 0%Q x idx == o_sqrt o (prod (lead ks)) * q)%Q.
Proof.
  intros P W E. exists (coefs o r ks ls false). split; [rewrite project_conv; reflexivity|]. split; [apply coefs_shape|]. intros idx V.
  rewrite tget_coefs by (auto using conv_suffix). eexists. split; [apply quantize_ok; now apply step_pos|]. ring.
Qed.

(** Right after the training model is made. *)
Lemma tget_fill s q idx : valid s idx -> tget 0%Q (fill s q) idx = q.
Proof. intros V. unfold fill. now rewrite tget_tab. Qed.
Lemma dense_start t : positive o -> wf t -> rank t = 1 \/ rank t = 2 ->
  exists tw v, a_init alg (VF t) = Ok tw /\ a_project alg tw = Ok (VF v, tw) /\ shape v = shape t /\ wf v /\
    forall idx, valid (shape t) idx -> (Qabs (tget 0 v idx - tget 0 t idx) <= (1 # 2) * o_exp o (-4))%Q.
Proof.
  intros P W R. destruct (dense_forward t (fill [] (-4)) (fill [] (5 # 2)) P (tab_wf _ _) eq_refl) as (v & E & S & Wv & Q).
  exists (dense_weights fast t (fill [] (-4)) (fill [] (5 # 2))), v.
  split. { unfold alg, dense_weights. assert ((1 <=? rank t) && (rank t <=? 2) = true) as B by (destruct R as [-> | ->]; reflexivity).
    destruct fast; cbn; unfold fast_init, epr_init, init_reparam; rewrite B; reflexivity. }
  split; auto. split; auto. split; auto. intros idx V. destruct (Q idx V) as (z & _ & B). unfold step_at in B. change (rank (fill [] (-4)%Q)) with 0 in B. rewrite Nat.sub_0_r in B.
  rewrite skipn_all in B. rewrite tget_fill in B by constructor. exact B.
Qed.

Lemma rdft_skip s : conv_shape s -> exists a b, rdft_shape s = a :: b :: skipn 2 (rdft_shape s) /\ last2 s = [a; b].
Proof.
  intros [H _]. destruct s as [|a [|b [|c [|d [|e s]]]]]; cbn in H; try lia; cbn; eauto.
Qed.
Lemma conv_start t : positive o -> transform o -> wf t -> conv_shape (shape t) ->
  exists tw v, a_init alg (VF t) = Ok tw /\ a_project alg tw = Ok (VF v, tw) /\ shape v = shape t /\ wf v /\
    forall idx, valid (shape t) idx -> (Qabs (tget 0 v idx - tget 0 t idx) <= (3 # 4) * (o_sqrt o (prod (lead (shape t))) * o_exp o (-4)))%Q.
Proof.
  intros P (T1 & T2 & T3 & T4) W C. assert (R : rank t = 3 \/ rank t = 4) by exact (proj1 C). destruct (T1 t W R) as (S1 & W1).
  set (n := o_sqrt o (prod (lead (shape t)))).
  assert (Pn : (0 < n)%Q).
  { apply (proj2 P). destruct C as [L F]. assert (G : Forall (fun d => 0 < d) (lead (shape t))).
    { clear -F. rewrite Forall_forall in *. intros x I. apply F. unfold lead in I. assert (Z : forall l (y : nat), In y (removelast l) -> In y l).
      { clear. induction l as [|a [|b l] IH]; intros y I; [exact I|destruct I|]. cbn [removelast] in I. destruct I as [-> | I]; [now left|right; now apply IH]. }
      apply Z, Z, I. }
    clear -G. induction G; cbn [prod fold_right]; [lia|]. unfold prod in *. cbn. apply Nat.mul_pos_pos; auto. }
  set (r := tmap (fun x => (x / n)%Q) (o_rfft o t)). set (pr := skipn 2 (shape r)).
  destruct (conv_forward r (shape t) (fill pr (-4)) (fill pr (5 # 2)) P (tab_wf _ _) eq_refl) as (x & E & S & Q).
  assert (Sx : shape x = rdft_shape (shape t)) by (rewrite S; exact S1).
  assert (Ei : a_init alg (VF t) = Ok (conv_weights fast r (shape t) (fill pr (-4)) (fill pr (5 # 2)))).
  { unfold alg, conv_weights. assert ((1 <=? rank t) && (rank t <=? 2) = false /\ (3 <=? rank t) && (rank t <=? 4) = true) as [B1 B2] by (destruct R as [-> | ->]; split; reflexivity).
    destruct fast; cbn [a_init algorithm fast_epr epr]; unfold fast_init, epr_init, init_reparam; rewrite B1, B2; reflexivity. }
  do 2 eexists. split; [exact Ei|]. split; [exact E|]. destruct (T2 (shape t) x C Sx) as (Sv & Wv). split; [exact Sv|]. split; [exact Wv|].
  set (eps := ((1 # 2) * (n * o_exp o (-4)))%Q).
  assert (He : (0 <= eps)%Q). { unfold eps. pose proof (proj1 P (-4)%Q) as P4. apply Qmult_le_0_compat; [discriminate|]. apply Qmult_le_0_compat; apply Qlt_le_weak; assumption. }
  assert (Hc : forall idx, valid (rdft_shape (shape t)) idx -> (Qabs (tget 0 x idx - tget 0 (o_rfft o t) idx) <= eps)%Q).
  { intros idx V. rewrite <- Sx, S in V. destruct (Q idx V) as (q & (z & _ & Bq) & Eq). rewrite Eq. unfold step_at in Bq.
    assert (V2 : valid pr (skipn (List.length idx - rank (fill pr (-4)%Q)) idx)) by (apply (valid_skip (firstn 2 (shape r))); unfold pr; rewrite firstn_skipn; exact V).
    rewrite (tget_fill pr _ _ V2) in Bq. unfold r in Bq. rewrite (tget_tmap _ 0%Q) in Bq by auto. fold n.
    set (f := tget 0%Q (o_rfft o t) idx) in *. assert (X : (n * q - f == n * (q - f / n))%Q) by (field; intro Z0; rewrite Z0 in Pn; discriminate Pn).
    rewrite X, Qabs_Qmult, (Qabs_pos n) by (apply Qlt_le_weak; exact Pn). unfold eps.
    apply Qle_trans with (n * ((1 # 2) * o_exp o (-4)))%Q; [apply Qmult_le_l; assumption|apply Qle_lteq; right; ring]. }
  intros idx V. pose proof (T4 (shape t) x (o_rfft o t) eps C Sx S1 He Hc idx V) as B. destruct (T3 t W C) as (S3 & E3).
  rewrite <- (E3 idx) by (rewrite S3; exact V). eapply Qle_trans; [exact B|]. unfold eps. apply Qle_lteq. right. ring.
Qed.
End Alg.
