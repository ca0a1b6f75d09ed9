From Verif Require Import Base M_Schedule.
From Coq Require Import Reals Qreals Lra.
Ltac lra := first [Lra.lra | Lqa.lra].
Ltac nra := first [Lra.nra | Lqa.nra].
Open Scope Z_scope.

Lemma should_prune_in_step_iff step b e f :
  0 < f ->
  should_prune_in_step step b e f = true <->
  (exists k, 0 <= k /\ step = b + k * f) /\ (e < 0 \/ step <= e).
Proof.
  intros Hf. unfold should_prune_in_step.
  rewrite !andb_true_iff, orb_true_iff, Z.leb_le, Z.leb_le, Z.ltb_lt, Z.eqb_eq.
  split.
  - intros [[H1 H2] H3]. split; [|lia].
    exists ((step - b) / f). split.
    + apply Z.div_pos; lia.
    + pose proof (Z.div_mod (step - b) f). lia.
  - intros [[k [Hk Hs]] H2]. subst step.
    replace (b + k * f - b) with (k * f) by lia.
    rewrite Z.mod_mul by lia. nia.
Qed.

Lemma validate_step_ok b e f a :
  validate_step b e f a = Ok tt <->
  0 <= b /\ 0 < f /\ ((e = -1 /\ a = true) \/ (0 <= e /\ b <= e)).
Proof.
  unfold validate_step, bind.
  destruct (Z.ltb_spec b 0); [split; [discriminate|lia]|].
  destruct (Z.eqb_spec e (-1)); destruct a; cbn;
    destruct (Z.leb_spec f 0); try destruct (Z.ltb_spec e 0); try destruct (Z.ltb_spec e b);
    (split; [try discriminate; intros _; repeat split; try lia; auto | try lia; reflexivity]).
Qed.

Lemma validate_step_err b e f a :
  validate_step b e f a = Ok tt \/ validate_step b e f a = Err ValueError.
Proof.
  unfold validate_step, bind.
  destruct (b <? 0); auto. destruct (negb a && (e =? -1)); auto.
  destruct (negb (e =? -1)); [destruct (e <? 0); auto; destruct (e <? b); auto|];
  destruct (f <=? 0); auto.
Qed.

Lemma validate_sparsity_ok s : validate_sparsity s = Ok tt <-> (0 <= s /\ s < 1)%Q.
Proof.
  unfold validate_sparsity.
  destruct (Qle_bool 0 s) eqn:E1; destruct (Qle_bool 1 s) eqn:E2; cbn;
  rewrite ?Qle_bool_iff in *.
  - split; [discriminate|]. intros. lra.
  - split; auto. intros _. split; auto. apply Qnot_le_lt. intro H.
    apply Qle_bool_iff in H. congruence.
  - split; [discriminate|]. intros. lra.
  - split; [discriminate|]. intros [H _]. apply Qle_bool_iff in H. congruence.
Qed.

Lemma validate_sparsity_err s : validate_sparsity s = Ok tt \/ validate_sparsity s = Err ValueError.
Proof. unfold validate_sparsity. destruct (_ && _); auto. Qed.

Lemma mk_constant_spec t b e f :
  (exists s, mk_constant t b e f = Ok s) <->
  (0 <= t)%Q /\ (t < 1)%Q /\ 0 <= b /\ 0 < f /\ (e = -1 \/ (0 <= e /\ b <= e)).
Proof.
  unfold mk_constant, bind.
  destruct (validate_step_err b e f true) as [H|H]; rewrite H.
  - pose proof (proj1 (validate_step_ok b e f true) H) as (H1 & H2 & H3).
    destruct (validate_sparsity_err t) as [G|G]; rewrite G.
    + pose proof (proj1 (validate_sparsity_ok t) G). split.
      * intros _. intuition.
      * intros _. eexists; reflexivity.
    + split; [intros [s Hs]; discriminate|]. intros (A & B & _).
      assert (validate_sparsity t = Ok tt) by (apply validate_sparsity_ok; auto). congruence.
  - split; [intros [s Hs]; discriminate|]. intros (A & B & C & D & E).
    assert (validate_step b e f true = Ok tt) by (apply validate_step_ok; intuition). congruence.
Qed.

Lemma mk_constant_inv t b e f s :
  mk_constant t b e f = Ok s -> s = ConstantSparsity t b e f.
Proof.
  unfold mk_constant, bind. destruct (validate_step _ _ _ _); [|discriminate].
  destruct (validate_sparsity _); [|discriminate]. congruence.
Qed.

Lemma mk_constant_err t b e f x : mk_constant t b e f = Err x -> x = ValueError.
Proof.
  unfold mk_constant, bind.
  destruct (validate_step_err b e f true) as [H|H]; rewrite H; [|congruence].
  destruct (validate_sparsity_err t) as [G|G]; rewrite G; congruence.
Qed.

Lemma mk_polynomial_inv i fi b e p f s :
  mk_polynomial i fi b e p f = Ok s ->
  s = PolynomialDecay i fi b e p f /\
  ((0 <= i)%Q /\ (i < 1)%Q /\ (0 <= fi)%Q /\ (fi < 1)%Q /\ 0 <= b /\ 0 < f /\ b <= e).
Proof.
  unfold mk_polynomial, bind.
  destruct (validate_step_err b e f false) as [H|H]; rewrite H; [|discriminate].
  destruct (validate_sparsity_err i) as [G|G]; rewrite G; [|discriminate].
  destruct (validate_sparsity_err fi) as [K|K]; rewrite K; [|discriminate].
  apply validate_step_ok in H. apply validate_sparsity_ok in G. apply validate_sparsity_ok in K.
  intros E. inversion E; subst. split; auto.
  destruct H as (H1 & H2 & [[_ H3]|H3]); [discriminate|]. intuition lia.
Qed.

Lemma mk_polynomial_spec i fi b e p f :
  (exists s, mk_polynomial i fi b e p f = Ok s) <->
  (0 <= i)%Q /\ (i < 1)%Q /\ (0 <= fi)%Q /\ (fi < 1)%Q /\ 0 <= b /\ 0 < f /\ b <= e.
Proof.
  split.
  - intros [s H]. apply mk_polynomial_inv in H. tauto.
  - intros (H1 & H2 & H3 & H4 & H5 & H6 & H7). exists (PolynomialDecay i fi b e p f).
    unfold mk_polynomial, bind.
    rewrite (proj2 (validate_step_ok b e f false)) by (intuition lia).
    rewrite (proj2 (validate_sparsity_ok i)) by auto.
    rewrite (proj2 (validate_sparsity_ok fi)) by auto. reflexivity.
Qed.

Lemma mk_polynomial_err i fi b e p f x : mk_polynomial i fi b e p f = Err x -> x = ValueError.
Proof.
  unfold mk_polynomial, bind.
  destruct (validate_step_err b e f false) as [H|H]; rewrite H; [|congruence].
  destruct (validate_sparsity_err i) as [G|G]; rewrite G; [|congruence].
  destruct (validate_sparsity_err fi) as [K|K]; rewrite K; congruence.
Qed.

(** Whatever constructor produced [s], it fires exactly on its arithmetic progression. *)
Lemma constant_fires t b e f s step :
  mk_constant t b e f = Ok s ->
  should_prune s step = true <->
  (exists k, 0 <= k /\ step = b + k * f) /\ (e = -1 \/ step <= e).
Proof.
  intros H. pose proof (mk_constant_inv _ _ _ _ _ H); subst s.
  assert (Hex : exists s, mk_constant t b e f = Ok s) by eauto.
  apply mk_constant_spec in Hex. cbn. rewrite should_prune_in_step_iff by tauto.
  intuition; left; lia.
Qed.

Lemma polynomial_fires i fi b e p f s step :
  mk_polynomial i fi b e p f = Ok s ->
  should_prune s step = true <->
  (exists k, 0 <= k /\ step = b + k * f) /\ step <= e.
Proof.
  intros H. apply mk_polynomial_inv in H. destruct H as [-> H]. cbn.
  rewrite should_prune_in_step_iff by tauto. intuition; lia.
Qed.

(** ** Polynomial decay *)

Definition prog (b e t : Z) : Q := Qminb 1 (Qmaxb 0 (inject_Z (t - b) / inject_Z (e - b))).

Lemma progress_fin b e t : b < e -> poly_progress b e t = Fin (prog b e t).
Proof.
  intros H. unfold poly_progress, ext_div. destruct (Z.eqb_spec (e - b) 0); [lia|]. reflexivity.
Qed.

Lemma Qminb_spec a b : (a <= b /\ Qminb a b = a \/ b < a /\ Qminb a b = b)%Q.
Proof.
  unfold Qminb. destruct (Qle_bool a b) eqn:E.
  - apply Qle_bool_iff in E. auto.
  - right. split; auto. apply Qnot_le_lt. intro H. apply Qle_bool_iff in H. congruence.
Qed.
Lemma Qmaxb_spec a b : (a <= b /\ Qmaxb a b = b \/ b < a /\ Qmaxb a b = a)%Q.
Proof.
  unfold Qmaxb. destruct (Qle_bool a b) eqn:E.
  - apply Qle_bool_iff in E. auto.
  - right. split; auto. apply Qnot_le_lt. intro H. apply Qle_bool_iff in H. congruence.
Qed.

Lemma frac_le b e t1 t2 : b < e -> t1 <= t2 ->
  (inject_Z (t1 - b) / inject_Z (e - b) <= inject_Z (t2 - b) / inject_Z (e - b))%Q.
Proof.
  intros H1 H2. unfold Qdiv. apply Qmult_le_compat_r.
  - rewrite <- Zle_Qle. lia.
  - apply Qinv_le_0_compat. change 0%Q with (inject_Z 0). rewrite <- Zle_Qle. lia.
Qed.
Lemma frac_0 b e : (inject_Z (b - b) / inject_Z (e - b) == 0)%Q.
Proof. rewrite Z.sub_diag. unfold Qdiv. change (inject_Z 0) with 0%Q. lra. Qed.
Lemma frac_1 b e : b < e -> (inject_Z (e - b) / inject_Z (e - b) == 1)%Q.
Proof.
  intros H. field. intro K. change 0%Q with (inject_Z 0) in K. rewrite inject_Z_injective in K. lia.
Qed.

Lemma prog_range b e t : (0 <= prog b e t <= 1)%Q.
Proof.
  unfold prog. set (x := (_ / _)%Q).
  destruct (Qmaxb_spec 0 x) as [[A ->]|[A ->]];
  [destruct (Qminb_spec 1 x) as [[B ->]|[B ->]]|destruct (Qminb_spec 1 0) as [[B ->]|[B ->]]]; lra.
Qed.
Lemma prog_le b e t1 t2 : b < e -> t1 <= t2 -> (prog b e t1 <= prog b e t2)%Q.
Proof.
  intros H1 H2. pose proof (frac_le b e t1 t2 H1 H2) as H. revert H.
  unfold prog. set (x := (inject_Z (t1 - b) / _)%Q). set (y := (inject_Z (t2 - b) / _)%Q). intros H.
  destruct (Qmaxb_spec 0 x) as [[A ->]|[A ->]]; destruct (Qmaxb_spec 0 y) as [[B ->]|[B ->]];
  repeat match goal with |- context [Qminb ?a ?b] => destruct (Qminb_spec a b) as [[? ->]|[? ->]] end; lra.
Qed.
Lemma prog_begin b e t : b < e -> t <= b -> (prog b e t == 0)%Q.
Proof.
  intros H1 H2. pose proof (frac_le b e t b H1 H2) as H. rewrite frac_0 in H. revert H.
  unfold prog. set (x := (_ / _)%Q). intros H.
  destruct (Qmaxb_spec 0 x) as [[A ->]|[A ->]];
  repeat match goal with |- context [Qminb ?a ?b] => destruct (Qminb_spec a b) as [[? ->]|[? ->]] end; lra.
Qed.
Lemma prog_end b e t : b < e -> e <= t -> (prog b e t == 1)%Q.
Proof.
  intros H1 H2. pose proof (frac_le b e e t H1 H2) as H. rewrite frac_1 in H by auto. revert H.
  unfold prog. set (x := (_ / _)%Q). intros H.
  destruct (Qmaxb_spec 0 x) as [[A ->]|[A ->]];
  repeat match goal with |- context [Qminb ?a ?b] => destruct (Qminb_spec a b) as [[? ->]|[? ->]] end; lra.
Qed.
Lemma prog_mid b e t : b < e -> b <= t <= e ->
  (prog b e t == inject_Z (t - b) / inject_Z (e - b))%Q.
Proof.
  intros H1 H2. pose proof (frac_le b e t e H1 ltac:(lia)) as H. rewrite frac_1 in H by auto.
  pose proof (frac_le b e b t H1 ltac:(lia)) as G. rewrite frac_0 in G. revert H G.
  unfold prog. set (x := (inject_Z (t - b) / _)%Q). intros H G.
  destruct (Qmaxb_spec 0 x) as [[A ->]|[A ->]];
  repeat match goal with |- context [Qminb ?a ?b] => destruct (Qminb_spec a b) as [[? ->]|[? ->]] end; lra.
Qed.

(** The real power with the usual value 0 at base 0 (positive exponents). *)
Definition rp (p pw : Q) : R := if Qeq_bool (1 - p) 0 then 0%R else Rpower (Q2R (1 - p)) (Q2R pw).

Lemma Qpos_bools pw : (0 < pw)%Q -> Qeq_bool pw 0 = false /\ Qle_bool 0 pw = true.
Proof.
  intros H. split.
  - destruct (Qeq_bool pw 0) eqn:E; auto. apply Qeq_bool_iff in E. lra.
  - apply Qle_bool_iff. lra.
Qed.
Lemma pow01_rp p pw : (0 < pw)%Q -> pow01 (1 - p) pw = Fin (rp p pw).
Proof.
  intros H. destruct (Qpos_bools _ H) as [A B]. unfold pow01, rp.
  rewrite A, B. destruct (Qeq_bool (1 - p) 0); reflexivity.
Qed.

Lemma Qeq_bool_false a b : Qeq_bool a b = false -> ~ (a == b)%Q.
Proof. intros H K. apply Qeq_bool_iff in K. congruence. Qed.

Lemma Q2R_pos q : (0 < q)%Q -> (0 < Q2R q)%R.
Proof. intros H. apply Qlt_Rlt in H. rewrite RMicromega.Q2R_0 in H. exact H. Qed.

Lemma rp_0 p pw : (p == 0)%Q -> rp p pw = 1%R.
Proof.
  intros H. unfold rp. destruct (Qeq_bool (1 - p) 0) eqn:E.
  - apply Qeq_bool_iff in E. lra.
  - assert (Q2R (1 - p) = 1%R) as ->.
    { replace 1%R with (Q2R 1) by (unfold Q2R; simpl; lra). apply Qeq_eqR. lra. }
    unfold Rpower. rewrite ln_1, Rmult_0_r. apply exp_0.
Qed.
Lemma rp_1 p pw : (p == 1)%Q -> rp p pw = 0%R.
Proof.
  intros H. unfold rp. replace (Qeq_bool (1 - p) 0) with true; auto.
  symmetry. apply Qeq_bool_iff. lra.
Qed.
Lemma rp_le p q pw : (0 < pw)%Q -> (p <= q)%Q -> (q <= 1)%Q -> (rp q pw <= rp p pw)%R.
Proof.
  intros H A B. unfold rp.
  destruct (Qeq_bool (1 - q) 0) eqn:E.
  - destruct (Qeq_bool (1 - p) 0); [lra|]. left. apply exp_pos.
  - apply Qeq_bool_false in E. destruct (Qeq_bool (1 - p) 0) eqn:F.
    + apply Qeq_bool_iff in F. exfalso. lra.
    + apply Rle_Rpower_l. { left. apply Q2R_pos; auto. }
      split; [apply Q2R_pos; lra|]. apply Qle_Rle. lra.
Qed.
Lemma rp_compat p q pw : (p == q)%Q -> rp p pw = rp q pw.
Proof.
  intros H. unfold rp.
  rewrite (Qeq_eqR (1 - p) (1 - q)) by lra.
  destruct (Qeq_bool (1 - p) 0) eqn:E; destruct (Qeq_bool (1 - q) 0) eqn:F; auto.
  - apply Qeq_bool_iff in E. apply Qeq_bool_false in F. lra.
  - apply Qeq_bool_iff in F. apply Qeq_bool_false in E. lra.
Qed.
Lemma rp_range p pw : (0 < pw)%Q -> (0 <= p <= 1)%Q -> (0 <= rp p pw <= 1)%R.
Proof.
  intros H [A B]. split.
  - rewrite <- (rp_1 1 pw) by lra. apply rp_le; auto; lra.
  - rewrite <- (rp_0 0 pw) by lra. apply rp_le; auto; lra.
Qed.

Definition pval (i fi : Q) (b e : Z) (pw : Q) (t : Z) : R :=
  (Q2R (i - fi) * rp (prog b e t) pw + Q2R fi)%R.

Lemma target_pval i fi b e pw f t : b < e -> (0 < pw)%Q ->
  target_sparsity (PolynomialDecay i fi b e pw f) t = Fin (pval i fi b e pw t).
Proof.
  intros H1 H2. cbn [target_sparsity]. rewrite progress_fin by auto.
  rewrite pow01_rp by auto. reflexivity.
Qed.

Lemma poly_spec i fi b e pw f s :
  mk_polynomial i fi b e pw f = Ok s -> b < e -> (0 < pw)%Q ->
  exists v : Z -> R,
    (forall t, target_sparsity s t = Fin (v t)) /\
    (forall t, t <= b -> v t = Q2R i) /\
    (forall t, e <= t -> v t = Q2R fi) /\
    (forall t, b <= t < e ->
       v t = (Q2R fi + (Q2R i - Q2R fi) *
              Rpower (1 - (IZR (t - b) / IZR (e - b))) (Q2R pw))%R) /\
    (forall t, Rmin (Q2R i) (Q2R fi) <= v t <= Rmax (Q2R i) (Q2R fi))%R /\
    (forall t, 0 <= v t < 1)%R /\
    (forall t1 t2, t1 <= t2 -> (i <= fi)%Q -> (v t1 <= v t2)%R) /\
    (forall t1 t2, t1 <= t2 -> (fi <= i)%Q -> (v t2 <= v t1)%R).
Proof.
  intros Hmk Hbe Hpw. apply mk_polynomial_inv in Hmk.
  destruct Hmk as [-> (Hi & Hi1 & Hf & Hf1 & _)].
  exists (pval i fi b e pw).
  assert (Hb : forall t, (Rmin (Q2R i) (Q2R fi) <= pval i fi b e pw t <= Rmax (Q2R i) (Q2R fi))%R).
  { intros t. unfold pval. rewrite Q2R_minus.
    pose proof (rp_range (prog b e t) pw Hpw (prog_range b e t)) as [A B].
    unfold Rmin, Rmax. destruct (Rle_dec (Q2R i) (Q2R fi)); nra. }
  assert (Hm : forall t1 t2, t1 <= t2 -> (rp (prog b e t2) pw <= rp (prog b e t1) pw)%R).
  { intros. apply rp_le; auto. apply prog_le; auto. apply prog_range. }
  repeat split.
  - intros t. apply target_pval; auto.
  - intros t Ht. unfold pval. rewrite rp_0 by (apply prog_begin; auto). rewrite Q2R_minus. lra.
  - intros t Ht. unfold pval. rewrite rp_1 by (apply prog_end; auto). lra.
  - intros t Ht. unfold pval.
    rewrite (rp_compat _ (inject_Z (t - b) / inject_Z (e - b))) by (apply prog_mid; auto; lia).
    assert (Hne : ~ (inject_Z (e - b) == 0)%Q).
    { intro K. change 0%Q with (inject_Z 0) in K. rewrite inject_Z_injective in K. lia. }
    assert (Hlt : (inject_Z (t - b) / inject_Z (e - b) < 1)%Q).
    { apply Qlt_shift_div_r. change 0%Q with (inject_Z 0). rewrite <- Zlt_Qlt; lia.
      rewrite Qmult_1_l. rewrite <- Zlt_Qlt. lia. }
    unfold rp. destruct (Qeq_bool _ 0) eqn:E. { apply Qeq_bool_iff in E. exfalso. lra. }
    rewrite Q2R_minus, Q2R_minus, Q2R_div by auto.
    assert (J : forall z, Q2R (inject_Z z) = IZR z) by (intros; unfold Q2R, inject_Z; simpl; lra).
    rewrite !J. replace (Q2R 1) with 1%R by (unfold Q2R; simpl; lra). lra.
  - apply Hb.
  - apply Hb.
  - pose proof (Hb t) as [A _]. apply Qle_Rle in Hi, Hf. rewrite RMicromega.Q2R_0 in *.
    unfold Rmin in A. destruct (Rle_dec (Q2R i) (Q2R fi)); lra.
  - pose proof (Hb t) as [_ A]. apply Qlt_Rlt in Hi1, Hf1. rewrite RMicromega.Q2R_1 in *.
    unfold Rmax in A. destruct (Rle_dec (Q2R i) (Q2R fi)); lra.
  - intros t1 t2 H12 Hif. specialize (Hm t1 t2 H12). apply Qle_Rle in Hif.
    unfold pval. rewrite Q2R_minus. nra.
  - intros t1 t2 H12 Hif. specialize (Hm t1 t2 H12). apply Qle_Rle in Hif.
    unfold pval. rewrite Q2R_minus. nra.
Qed.

Lemma constant_value t b e f s step :
  mk_constant t b e f = Ok s -> target_sparsity s step = Fin (Q2R t).
Proof. intros H. apply mk_constant_inv in H. subst. reflexivity. Qed.

Lemma degenerate_nan i fi b pw f :
  target_sparsity (PolynomialDecay i fi b b pw f) b = NaN /\
  should_prune_in_step b b b f = (0 mod f =? 0).
Proof.
  split.
  - cbn. unfold poly_progress. rewrite !Z.sub_diag. reflexivity.
  - unfold should_prune_in_step. rewrite Z.sub_diag, !Z.leb_refl. reflexivity.
Qed.

Lemma schedule_roundtrip_constant t b e f s :
  mk_constant t b e f = Ok s -> schedule_from_config (schedule_get_config s) = Ok s.
Proof. intros H. pose proof (mk_constant_inv _ _ _ _ _ H). subst. exact H. Qed.
Lemma schedule_roundtrip_polynomial i fi b e pw f s :
  mk_polynomial i fi b e pw f = Ok s -> schedule_from_config (schedule_get_config s) = Ok s.
Proof. intros H. pose proof (mk_polynomial_inv _ _ _ _ _ _ _ H) as [-> _]. exact H. Qed.

Lemma poly_nan_iff i fi b e pw f s t :
  mk_polynomial i fi b e pw f = Ok s -> (0 < pw)%Q ->
  (forall v, target_sparsity s t <> Fin v) <-> (b = e /\ t = b).
Proof.
  intros H Hpw. pose proof (mk_polynomial_inv _ _ _ _ _ _ _ H) as [-> (_ & _ & _ & _ & _ & _ & Hbe)].
  split.
  - intros K. destruct (Z.eq_dec b e) as [<-|Hn].
    + split; auto. destruct (Z.eq_dec t b); auto. exfalso. revert K.
      cbn [target_sparsity]. unfold poly_progress, ext_div. rewrite Z.sub_diag. cbn [Z.eqb].
      destruct (Z.eqb_spec (t - b) 0); [lia|].
      destruct (0 <? t - b); cbn [clip01]; rewrite pow01_rp by auto; cbn [ext_axpb];
        intros K; eapply K; reflexivity.
    + exfalso. eapply K. apply target_pval; auto. lia.
  - intros [<- ->] v. destruct (degenerate_nan i fi b pw f) as [A _]. rewrite A. discriminate.
Qed.

Lemma poly_fires_nan_iff i fi b e pw f s :
  mk_polynomial i fi b e pw f = Ok s -> (0 < pw)%Q ->
  (exists t, should_prune s t = true /\ forall v, target_sparsity s t <> Fin v) <-> b = e.
Proof.
  intros H Hpw. split.
  - intros [t [_ K]]. apply (poly_nan_iff _ _ _ _ _ _ _ _ H Hpw) in K. tauto.
  - intros <-. exists b. split.
    + apply (polynomial_fires _ _ _ _ _ _ _ b H). split; [|lia]. exists 0. lia.
    + apply (poly_nan_iff _ _ _ _ _ _ _ _ H Hpw). auto.
Qed.
