(** Lemmas: the iterated Hadamard step is the Sylvester-Hadamard transform; it is linear, involutive, norm preserving. *)
From Coq Require Import Reals.
From Verif Require Import Base M_Hadamard.
From Coq Require Import Lra Psatz.
Open Scope R_scope.

Lemma nth_ext0 (x y : list R) n : length x = n -> length y = n -> (forall i, (i < n)%nat -> nth i x 0 = nth i y 0) -> x = y.
Proof. intros A B H. apply (nth_ext _ _ 0 0). congruence. intros i Hi. apply H. lia. Qed.

Lemma pairs_len : forall h x, length x = (2 * h)%nat -> length (pairs x) = h.
Proof.
  induction h; intros x H. - destruct x; [reflexivity|discriminate].
  - destruct x as [|a [|b r]]; cbn in *; try lia. f_equal. apply IHh. lia.
Qed.
Lemma pairs_nth : forall h x i, length x = (2 * h)%nat -> (i < h)%nat ->
  nth i (pairs x) (0, 0) = (nth (2 * i) x 0, nth (2 * i + 1) x 0).
Proof.
  induction h; intros x i H Hi; [lia|]. destruct x as [|a [|b r]]; cbn [length] in H; try lia.
  destruct i as [|i]; [reflexivity|]. cbn [pairs nth]. rewrite IHh by lia.
  replace (2 * S i)%nat with (S (S (2 * i))) by lia. replace (S (S (2 * i)) + 1)%nat with (S (S (2 * i + 1))) by lia. reflexivity.
Qed.
Lemma hstep_len h x : length x = (2 * h)%nat -> length (hadamard_step x) = (2 * h)%nat.
Proof. intros H. unfold hadamard_step. rewrite app_length, !map_length, (pairs_len h) by auto. lia. Qed.
Lemma hstep_nth h x i : length x = (2 * h)%nat -> (i < 2 * h)%nat ->
  nth i (hadamard_step x) 0 = if (i <? h)%nat then nth (2 * i) x 0 + nth (2 * i + 1) x 0
                               else nth (2 * (i - h)) x 0 - nth (2 * (i - h) + 1) x 0.
Proof.
  intros H Hi. unfold hadamard_step. pose proof (pairs_len h x H) as L.
  destruct (i <? h)%nat eqn:E.
  - apply Nat.ltb_lt in E. rewrite app_nth1 by (rewrite map_length; lia).
    rewrite (nth_indep _ 0 ((fun p : R * R => fst p + snd p) (0, 0))) by (rewrite map_length; lia).
    rewrite (map_nth (fun p : R * R => fst p + snd p)). rewrite (pairs_nth h) by auto. reflexivity.
  - apply Nat.ltb_ge in E. rewrite app_nth2 by (rewrite map_length; lia). rewrite map_length, L.
    rewrite (nth_indep _ 0 ((fun p : R * R => fst p - snd p) (0, 0))) by (rewrite map_length; lia).
    rewrite (map_nth (fun p : R * R => fst p - snd p)). rewrite (pairs_nth h) by lia. reflexivity.
Qed.

(** Sylvester-Hadamard transform of a function on [0, 2^j). *)
Fixpoint had (j : nat) (f : nat -> R) (i : nat) : R :=
  match j with
  | O => f i
  | S m => if (i <? 2 ^ m)%nat then had m (fun t => f t + f (2 ^ m + t)%nat) i
           else had m (fun t => f t - f (2 ^ m + t)%nat) (i - 2 ^ m)%nat
  end.
Lemma had_ext j : forall f g i, (i < 2 ^ j)%nat -> (forall t, (t < 2 ^ j)%nat -> f t = g t) -> had j f i = had j g i.
Proof.
  induction j as [|j IH]; intros f g i Hi H; cbn [had].
  - apply H; auto.
  - cbn [Nat.pow] in Hi. destruct (i <? 2 ^ j)%nat eqn:E.
    + apply Nat.ltb_lt in E. apply IH; [auto|]. intros t Ht. rewrite !H by (cbn [Nat.pow]; lia). reflexivity.
    + apply Nat.ltb_ge in E. apply IH; [lia|]. intros t Ht. rewrite !H by (cbn [Nat.pow]; lia). reflexivity.
Qed.
Lemma had_lin j : forall a b f g i, (i < 2 ^ j)%nat -> had j (fun t => a * f t + b * g t) i = a * had j f i + b * had j g i.
Proof.
  induction j as [|j IH]; intros a b f g i Hi; cbn [had]; [reflexivity|].
  cbn [Nat.pow] in Hi. destruct (i <? 2 ^ j)%nat eqn:E.
  - apply Nat.ltb_lt in E. rewrite <- IH by auto. apply had_ext; auto. intros; ring.
  - apply Nat.ltb_ge in E. rewrite <- IH by lia. apply had_ext; [lia|]. intros; ring.
Qed.
Lemma had_add j f g i : (i < 2 ^ j)%nat -> had j (fun t => f t + g t) i = had j f i + had j g i.
Proof. intros H. transitivity (1 * had j f i + 1 * had j g i); [|ring]. rewrite <- had_lin by auto. apply had_ext; auto; intros; ring. Qed.
Lemma had_sub j f g i : (i < 2 ^ j)%nat -> had j (fun t => f t - g t) i = had j f i - had j g i.
Proof. intros H. transitivity (1 * had j f i + (-1) * had j g i); [|ring]. rewrite <- had_lin by auto. apply had_ext; auto; intros; ring. Qed.
Lemma had_scale j k f i : (i < 2 ^ j)%nat -> had j (fun t => k * f t) i = k * had j f i.
Proof. intros H. transitivity (k * had j f i + 0 * had j f i); [|ring]. rewrite <- had_lin by auto. apply had_ext; auto; intros; ring. Qed.

Lemma had_invol j : forall f i, (i < 2 ^ j)%nat -> had j (had j f) i = 2 ^ j * f i.
Proof.
  induction j as [|j IH]; intros f i Hi; [cbn [had pow]; ring|].
  pose proof (Nat.pow_nonzero 2 j ltac:(lia)) as P.
  assert (forall t, (t < 2 ^ j)%nat -> had (S j) f t = had j (fun s => f s + f (2 ^ j + s)%nat) t) as Hlo.
  { intros t Ht. cbn [had]. apply Nat.ltb_lt in Ht. now rewrite Ht. }
  assert (forall t, (t < 2 ^ j)%nat -> had (S j) f (2 ^ j + t) = had j (fun s => f s - f (2 ^ j + s)%nat) t) as Hhi.
  { intros t Ht. cbn [had]. replace (2 ^ j + t <? 2 ^ j)%nat with false by (symmetry; apply Nat.ltb_ge; lia).
    now replace (2 ^ j + t - 2 ^ j)%nat with t by lia. }
  remember (had (S j) f) as h. cbn [had]. cbn [Nat.pow] in Hi.
  destruct (i <? 2 ^ j)%nat eqn:E.
  - apply Nat.ltb_lt in E.
    rewrite (had_ext j _ (had j (fun s => 2 * f s))) by
      (auto; intros t Ht; rewrite Hlo, Hhi by auto; rewrite <- had_add by auto; apply had_ext; auto; intros; ring).
    rewrite IH by auto. cbn [pow]. ring.
  - apply Nat.ltb_ge in E.
    rewrite (had_ext j _ (had j (fun s => 2 * f (2 ^ j + s)%nat))) by
      (try lia; intros t Ht; rewrite Hlo, Hhi by auto; rewrite <- had_sub by auto; apply had_ext; auto; intros; ring).
    rewrite IH by lia. cbn [pow]. replace (2 ^ j + (i - 2 ^ j))%nat with i by lia. ring.
Qed.

Fixpoint sumf (n : nat) (f : nat -> R) : R := match n with O => 0 | S m => sumf m f + f m end.
Lemma sumf_ext n f g : (forall i, (i < n)%nat -> f i = g i) -> sumf n f = sumf n g.
Proof. induction n; intros H; cbn [sumf]; [reflexivity|]. rewrite H, IHn by auto. reflexivity. Qed.
Lemma sumf_app n m f : sumf (n + m) f = sumf n f + sumf m (fun i => f (n + i)%nat).
Proof. induction m; cbn [sumf]. rewrite Nat.add_0_r. lra. rewrite Nat.add_succ_r. cbn [sumf]. rewrite IHm. lra. Qed.
Lemma sumf_add n f g : sumf n (fun i => f i + g i) = sumf n f + sumf n g.
Proof. induction n; cbn [sumf]; [lra|]. rewrite IHn. lra. Qed.
Lemma sumf_scale n k f : sumf n (fun i => k * f i) = k * sumf n f.
Proof. induction n; cbn [sumf]; [lra|]. rewrite IHn. lra. Qed.
Lemma had_norm j : forall f, sumf (2 ^ j) (fun i => had j f i * had j f i) = 2 ^ j * sumf (2 ^ j) (fun i => f i * f i).
Proof.
  induction j as [|j IH]; intros f; [cbn [Nat.pow sumf had pow]; ring|].
  replace (2 ^ S j)%nat with (2 ^ j + 2 ^ j)%nat by (cbn; lia). rewrite !sumf_app.
  rewrite (sumf_ext _ (fun i => had (S j) f i * had (S j) f i) (fun i => had j (fun t => f t + f (2 ^ j + t)%nat) i * had j (fun t => f t + f (2 ^ j + t)%nat) i)).
  2:{ intros i Hi. cbn [had]. apply Nat.ltb_lt in Hi. now rewrite Hi. }
  rewrite (sumf_ext _ (fun i => had (S j) f (2 ^ j + i) * had (S j) f (2 ^ j + i)) (fun i => had j (fun t => f t - f (2 ^ j + t)%nat) i * had j (fun t => f t - f (2 ^ j + t)%nat) i)).
  2:{ intros i Hi. cbn [had]. replace (2 ^ j + i <? 2 ^ j)%nat with false by (symmetry; apply Nat.ltb_ge; lia). now replace (2 ^ j + i - 2 ^ j)%nat with i by lia. }
  rewrite !IH. rewrite <- Rmult_plus_distr_l, <- !sumf_add.
  rewrite (sumf_ext _ (fun i => _ + _) (fun i => 2 * (f i * f i + f (2 ^ j + i)%nat * f (2 ^ j + i)%nat))) by (intros; ring).
  rewrite sumf_scale. cbn [pow]. ring.
Qed.

(** The loop computes [had]. *)
Fixpoint iter_step (n : nat) (x : list R) : list R := match n with O => x | S m => hadamard_step (iter_step m x) end.
Lemma fwht_loop_iter n : forall x, fwht_loop n x = iter_step n x.
Proof.
  assert (forall m y, iter_step m (hadamard_step y) = hadamard_step (iter_step m y)) as C by (induction m; intros; cbn [iter_step]; [reflexivity|now rewrite IHm]).
  induction n; intros x; cbn [fwht_loop iter_step]; [reflexivity|]. now rewrite IHn, C.
Qed.
Lemma iter_len k x j : length x = (2 ^ S k)%nat -> length (iter_step j x) = (2 ^ S k)%nat.
Proof. intros H. induction j; cbn [iter_step]; [exact H|]. cbn [Nat.pow] in *. now apply (hstep_len (2 ^ k)). Qed.
Lemma iter_had k x : length x = (2 ^ S k)%nat -> forall j, (j <= S k)%nat -> forall c r, (c < 2 ^ j)%nat -> (r < 2 ^ (S k - j))%nat ->
  nth (c * 2 ^ (S k - j) + r) (iter_step j x) 0 = had j (fun b => nth (r * 2 ^ j + b) x 0) c.
Proof.
  intros L. induction j as [|j IH]; intros Hj c r Hc Hr.
  - cbn [Nat.pow] in Hc. assert (c = 0)%nat as -> by lia. cbn [iter_step had]. f_equal. cbn [Nat.pow]. lia.
  - cbn [iter_step]. pose proof (iter_len k x j L) as Lj.
    assert (2 ^ (S k - j) = 2 * 2 ^ (S k - S j))%nat as E1.
    { replace (S k - j)%nat with (S (S k - S j)) by lia. reflexivity. }
    assert (2 ^ k = 2 ^ j * 2 ^ (S k - S j))%nat as E2.
    { rewrite <- Nat.pow_add_r. f_equal. lia. }
    set (q := (2 ^ (S k - S j))%nat) in *. assert (0 < q)%nat by lia.
    assert (2 ^ S j = 2 * 2 ^ j)%nat as E3 by reflexivity.
    assert (2 ^ S k = 2 * 2 ^ k)%nat as E4 by reflexivity.
    rewrite (hstep_nth (2 ^ k)); [|lia|].
    2:{ rewrite E2, Nat.mul_assoc, <- E3. nia. }
    cbn [had]. destruct (c <? 2 ^ j)%nat eqn:E.
    + apply Nat.ltb_lt in E. replace (c * q + r <? 2 ^ k)%nat with true by (symmetry; apply Nat.ltb_lt; nia).
      replace (2 * (c * q + r))%nat with (c * 2 ^ (S k - j) + 2 * r)%nat by (rewrite E1; lia).
      replace (c * 2 ^ (S k - j) + 2 * r + 1)%nat with (c * 2 ^ (S k - j) + (2 * r + 1))%nat by lia.
      rewrite !IH by (try rewrite E1; lia). rewrite <- had_add by auto. apply had_ext; auto.
      intros t Ht. f_equal; f_equal; nia.
    + apply Nat.ltb_ge in E. replace (c * q + r <? 2 ^ k)%nat with false by (symmetry; apply Nat.ltb_ge; nia).
      replace (2 * (c * q + r - 2 ^ k))%nat with ((c - 2 ^ j) * 2 ^ (S k - j) + 2 * r)%nat by (rewrite E1, E2; nia).
      replace ((c - 2 ^ j) * 2 ^ (S k - j) + 2 * r + 1)%nat with ((c - 2 ^ j) * 2 ^ (S k - j) + (2 * r + 1))%nat by lia.
      rewrite !IH by (try rewrite E1; lia). rewrite <- had_sub by lia. apply had_ext; [lia|].
      intros t Ht. f_equal; f_equal; nia.
Qed.

Lemma is_pow2_pow k : is_pow2 (2 ^ k) = true.
Proof.
  unfold is_pow2. pose proof (Nat.pow_nonzero 2 k ltac:(lia)). apply andb_true_intro. split.
  - apply negb_true_iff, Nat.eqb_neq. auto.
  - apply Nat.eqb_eq. replace (2 ^ k - 1)%nat with (Nat.pred (2 ^ k)) by lia. rewrite <- Nat.ones_equiv, Nat.land_ones.
    apply Nat.mod_same. auto.
Qed.
Lemma is_pow2_inv n : is_pow2 n = true -> exists k, n = (2 ^ k)%nat.
Proof.
  unfold is_pow2. intros H. apply andb_prop in H. destruct H as [A B]. apply negb_true_iff, Nat.eqb_neq in A. apply Nat.eqb_eq in B.
  exists (Nat.log2 n). destruct (Nat.log2_spec n ltac:(lia)) as [C D].
  destruct (Nat.eq_dec n (2 ^ Nat.log2 n)) as [E|E]; [exact E|exfalso].
  pose proof (Nat.pow_nonzero 2 (Nat.log2 n) ltac:(lia)).
  assert (Nat.log2 (n - 1) = Nat.log2 n) as F by (apply Nat.log2_unique; lia).
  assert (Nat.testbit (Nat.land n (n - 1)) (Nat.log2 n) = true) as G.
  { rewrite Nat.land_spec, Nat.bit_log2 by lia. rewrite <- F, Nat.bit_log2; [reflexivity|]. intro Z. rewrite Z in F. cbn in F.
    rewrite <- F in *. cbn in *. lia. }
  rewrite B, Nat.bits_0 in G. discriminate.
Qed.

Lemma fwht_spec k x : length x = (2 ^ k)%nat -> exists y, fwht x = Ok y /\ length y = (2 ^ k)%nat /\
  forall i, (i < 2 ^ k)%nat -> nth i y 0 = had k (fun j => nth j x 0) i / sqrt (2 ^ k).
Proof.
  intros H. unfold fwht. rewrite H, is_pow2_pow. cbn [negb]. destruct k as [|k].
  - cbn [Nat.pow Nat.eqb]. exists x. repeat split; auto. intros i Hi. cbn. rewrite sqrt_1. field.
  - destruct (2 ^ S k =? 1)%nat eqn:E.
    { apply Nat.eqb_eq in E. cbn in E. pose proof (Nat.pow_nonzero 2 k ltac:(lia)). lia. }
    eexists. split; [reflexivity|]. rewrite Nat.log2_up_pow2, fwht_loop_iter by lia.
    assert (INR (2 ^ S k) = 2 ^ S k) as -> by (rewrite pow_INR; reflexivity).
    split. { rewrite map_length. now apply iter_len. }
    intros i Hi. set (g := fun a => a / sqrt (2 ^ S k)).
    rewrite (nth_indep _ 0 (g 0)) by (rewrite map_length, (iter_len k) by auto; auto). rewrite map_nth. unfold g. f_equal.
    pose proof (iter_had k x H (S k) ltac:(lia) i 0 Hi) as K. rewrite Nat.sub_diag in K. cbn [Nat.pow] in K.
    specialize (K ltac:(lia)). rewrite Nat.mul_1_r, Nat.add_0_r in K. rewrite K. cbn [Nat.mul Nat.add]. reflexivity.
Qed.
Lemma pow2_pos k : 0 < 2 ^ k. Proof. apply pow_lt. lra. Qed.
Lemma sqrt_pow2_pos k : 0 < sqrt (2 ^ k). Proof. apply sqrt_lt_R0, pow2_pos. Qed.

Theorem fwht_involutive x y : fwht x = Ok y -> fwht y = Ok x.
Proof.
  intros H. assert (exists k, length x = (2 ^ k)%nat) as [k L].
  { unfold fwht in H. destruct (is_pow2 (length x)) eqn:E; [|discriminate]. now apply is_pow2_inv. }
  destruct (fwht_spec k x L) as (y' & E & Ly & Hy). rewrite H in E. injection E as <-.
  destruct (fwht_spec k y Ly) as (z & Ez & Lz & Hz). rewrite Ez. f_equal. apply (nth_ext0 _ _ (2 ^ k)); auto.
  intros i Hi. rewrite Hz by auto. pose proof (sqrt_pow2_pos k) as P.
  rewrite (had_ext k _ (fun j => (/ sqrt (2 ^ k)) * had k (fun j => nth j x 0) j) i Hi) by (intros t Ht; rewrite Hy by auto; field; lra).
  rewrite had_scale, had_invol by auto.
  replace (2 ^ k * nth i x 0) with (sqrt (2 ^ k) * sqrt (2 ^ k) * nth i x 0) by (rewrite sqrt_sqrt by (pose proof (pow2_pos k); lra); reflexivity).
  field. lra.
Qed.
Lemma fwht_ok_iff x : (exists y, fwht x = Ok y) <-> exists k, length x = (2 ^ k)%nat.
Proof.
  split.
  - intros [y H]. unfold fwht in H. destruct (is_pow2 (length x)) eqn:E; [|discriminate]. now apply is_pow2_inv.
  - intros [k H]. destruct (fwht_spec k x H) as (y & E & _). eauto.
Qed.
Lemma fwht_len x y : fwht x = Ok y -> length y = length x.
Proof.
  intros H. destruct (proj1 (fwht_ok_iff x) (ex_intro _ y H)) as [k L].
  destruct (fwht_spec k x L) as (y' & E & Ly & _). rewrite H in E. injection E as <-. congruence.
Qed.

Lemma sumR_sumf x : sumR x = sumf (length x) (fun i => nth i x 0).
Proof.
  induction x as [|a r IH]; cbn [sumR length]; [reflexivity|]. change (S (length r)) with (1 + length r)%nat. rewrite sumf_app. cbn [sumf nth Nat.add]. rewrite IH. lra.
Qed.
Theorem fwht_norm x y : fwht x = Ok y -> norm2 y = norm2 x.
Proof.
  intros H. destruct (proj1 (fwht_ok_iff x) (ex_intro _ y H)) as [k L].
  destruct (fwht_spec k x L) as (y' & E & Ly & Hy). rewrite H in E. injection E as <-. unfold norm2. f_equal.
  assert (forall z, sumR (map (fun a => a * a) z) = sumf (length z) (fun i => nth i z 0 * nth i z 0)) as S.
  { intros z. rewrite sumR_sumf, map_length. apply sumf_ext. intros i Hi.
    rewrite (nth_indep _ 0 ((fun a => a * a) 0)) by (rewrite map_length; auto). now rewrite (map_nth (fun a => a * a)). }
  rewrite !S, L, Ly. pose proof (sqrt_pow2_pos k) as P. pose proof (pow2_pos k) as P2.
  rewrite (sumf_ext _ _ (fun i => / (2 ^ k) * (had k (fun j => nth j x 0) i * had k (fun j => nth j x 0) i))).
  - rewrite sumf_scale, had_norm. field. lra.
  - intros i Hi. rewrite Hy by auto. rewrite <- (sqrt_sqrt (2 ^ k)) at 3 by lra. field. lra.
Qed.

(** Linearity on lists. *)
Lemma vmap2_len f : forall x y, length x = length y -> length (vmap2 f x y) = length x.
Proof. induction x; destruct y; cbn; intros; try lia. f_equal. apply IHx. lia. Qed.
Lemma vmap2_nth f : forall x y i, length x = length y -> (i < length x)%nat -> nth i (vmap2 f x y) 0 = f (nth i x 0) (nth i y 0).
Proof. induction x; destruct y; cbn; intros i H Hi; try lia. destruct i; [reflexivity|]. apply IHx; lia. Qed.

Lemma fwht_add x1 x2 y1 y2 : length x1 = length x2 -> fwht x1 = Ok y1 -> fwht x2 = Ok y2 -> fwht (vadd x1 x2) = Ok (vadd y1 y2).
Proof.
  intros L H1 H2. destruct (proj1 (fwht_ok_iff x1) (ex_intro _ _ H1)) as [k L1].
  assert (length x2 = 2 ^ k)%nat as L2 by congruence.
  destruct (fwht_spec k x1 L1) as (z1 & E1 & M1 & N1). rewrite H1 in E1. injection E1 as <-.
  destruct (fwht_spec k x2 L2) as (z2 & E2 & M2 & N2). rewrite H2 in E2. injection E2 as <-.
  assert (length (vadd x1 x2) = 2 ^ k)%nat as L3 by (unfold vadd; rewrite vmap2_len; auto).
  destruct (fwht_spec k _ L3) as (z & E & M & N). rewrite E. f_equal. unfold vadd in *.
  apply (nth_ext0 _ _ (2 ^ k)); auto. rewrite vmap2_len; congruence.
  intros i Hi. rewrite N, vmap2_nth, N1, N2 by (auto; congruence).
  rewrite (had_ext k _ (fun j => nth j x1 0 + nth j x2 0) i Hi) by (intros t Ht; apply vmap2_nth; congruence).
  rewrite had_add by auto. pose proof (sqrt_pow2_pos k). field. lra.
Qed.
