(** The corners of PolynomialDecay: an empty interval and powers that are not positive. *)
From Verif Require Import Base M_Schedule L_Schedule.
From Coq Require Import Reals Qreals Lra Psatz.
Open Scope Z_scope.

Lemma empty_interval i fi b pw f s : mk_polynomial i fi b b pw f = Ok s -> (0 < pw)%Q ->
  (forall t, t < b -> target_sparsity s t = Fin (Q2R i)) /\ target_sparsity s b = NaN /\ (forall t, b < t -> target_sparsity s t = Fin (Q2R fi)).
Proof.
  intros M Hp. destruct (mk_polynomial_inv _ _ _ _ _ _ _ M) as [-> _]. cbn [target_sparsity]. unfold poly_progress, ext_div. rewrite Z.sub_diag. cbn [Z.eqb]. split; [|split].
  - intros t Ht. destruct (Z.eqb_spec (t - b) 0); [lia|]. destruct (Z.ltb_spec 0 (t - b)); [lia|]. cbn [clip01]. rewrite pow01_rp by exact Hp. rewrite rp_0 by lra. cbn [ext_axpb]. f_equal. rewrite Q2R_minus. lra.
  - reflexivity.
  - intros t Ht. destruct (Z.eqb_spec (t - b) 0); [lia|]. destruct (Z.ltb_spec 0 (t - b)); [|lia]. cbn [clip01]. rewrite pow01_rp by exact Hp. rewrite rp_1 by lra. cbn [ext_axpb]. f_equal. lra.
Qed.
Lemma zero_power i fi b e pw f s : mk_polynomial i fi b e pw f = Ok s -> b < e -> (pw == 0)%Q -> forall t, target_sparsity s t = Fin (Q2R i).
Proof.
  intros M Hb Hp t. destruct (mk_polynomial_inv _ _ _ _ _ _ _ M) as [-> _]. cbn [target_sparsity]. rewrite progress_fin by exact Hb. unfold pow01. assert (Qeq_bool pw 0 = true) as -> by now apply Qeq_bool_iff.
  pose proof (prog_range b e t) as R. destruct (Qeq_bool (1 - prog b e t) 0) eqn:E; cbn [ext_axpb]; f_equal.
  - rewrite Q2R_minus. lra.
  - rewrite (Qeq_eqR pw 0 Hp). replace (Q2R 0) with 0%R by (unfold Q2R; cbn; lra). rewrite Rpower_O; [rewrite Q2R_minus; lra|]. apply Q2R_pos. apply Qeq_bool_false in E. lra.
Qed.
Lemma negative_power i fi b e pw f s : mk_polynomial i fi b e pw f = Ok s -> b < e -> (pw < 0)%Q -> forall t, e <= t ->
  ((i == fi)%Q -> target_sparsity s t = NaN) /\ ((fi < i)%Q -> target_sparsity s t = PInf) /\ ((i < fi)%Q -> target_sparsity s t = NInf).
Proof.
  intros M Hb Hp t Ht. destruct (mk_polynomial_inv _ _ _ _ _ _ _ M) as [-> _]. cbn [target_sparsity]. rewrite progress_fin by exact Hb. unfold pow01.
  assert (Qeq_bool (1 - prog b e t) 0 = true) as ->. { apply Qeq_bool_iff. rewrite (prog_end b e t Hb Ht). lra. }
  assert (Qeq_bool pw 0 = false) as -> by (destruct (Qeq_bool pw 0) eqn:E; [apply Qeq_bool_iff in E; lra|reflexivity]).
  assert (Qle_bool 0 pw = false) as -> by (destruct (Qle_bool 0 pw) eqn:E; [apply Qle_bool_iff in E; lra|reflexivity]). cbn [ext_axpb].
  split; [|split]; intros H.
  - assert (Qeq_bool (i - fi) 0 = true) as -> by (apply Qeq_bool_iff; lra). reflexivity.
  - assert (Qeq_bool (i - fi) 0 = false) as -> by (destruct (Qeq_bool (i - fi) 0) eqn:E; [apply Qeq_bool_iff in E; lra|reflexivity]). assert (Qle_bool 0 (i - fi) = true) as -> by (apply Qle_bool_iff; lra). reflexivity.
  - assert (Qeq_bool (i - fi) 0 = false) as -> by (destruct (Qeq_bool (i - fi) 0) eqn:E; [apply Qeq_bool_iff in E; lra|reflexivity]). assert (Qle_bool 0 (i - fi) = false) as -> by (destruct (Qle_bool 0 (i - fi)) eqn:E; [apply Qle_bool_iff in E; lra|reflexivity]). reflexivity.
Qed.
