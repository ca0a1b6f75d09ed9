(** Lemmas: the Hadamard and Kashin stages. *)
From Coq Require Import Reals.
From Verif Require Import Base M_Hadamard S_Hadamard L_Hadamard.
From Coq Require Import Lra Psatz.
Open Scope R_scope.

Lemma signs_len n u : length (random_signs n u) = n.
Proof. unfold random_signs. now rewrite map_length, seq_length. Qed.
Lemma signs_nth n u i : (i < n)%nat -> nth i (random_signs n u) 0 = signR (u i - 1/2).
Proof.
  intros H. unfold random_signs. set (f := fun i : nat => signR (u i - 1/2)).
  rewrite (nth_indep _ 0 (f 0%nat)) by (rewrite map_length, seq_length; auto). rewrite map_nth, seq_nth by auto. reflexivity.
Qed.
Lemma signR_sq r : r <> 0 -> signR r * signR r = 1.
Proof. intros H. unfold signR. destruct (Rlt_dec 0 r); [lra|]. destruct (Rlt_dec r 0); lra. Qed.
Lemma signR_values r : signR r = 1 \/ signR r = -1 \/ (signR r = 0 /\ r = 0).
Proof. unfold signR. destruct (Rlt_dec 0 r); [auto|]. destruct (Rlt_dec r 0); [auto|]. right; right. split; lra. Qed.
Lemma signs_sq n u i : (forall j, (j < n)%nat -> u j <> 1/2) -> (i < n)%nat -> nth i (random_signs n u) 0 * nth i (random_signs n u) 0 = 1.
Proof. intros H Hi. rewrite signs_nth by auto. apply signR_sq. specialize (H i Hi). lra. Qed.

Lemma pad_len n x : (length x <= n)%nat -> length (pad_right n x) = n.
Proof. intros. unfold pad_right. rewrite app_length, repeat_length. lia. Qed.
Lemma pad_firstn n x : firstn (length x) (pad_right n x) = x.
Proof. unfold pad_right. rewrite firstn_app, Nat.sub_diag, firstn_all. cbn [firstn]. apply app_nil_r. Qed.
Lemma vmul_signs x s : length x = length s -> (forall i, (i < length x)%nat -> nth i s 0 * nth i s 0 = 1) -> vmul (vmul x s) s = x.
Proof.
  intros L H. assert (length (vmul x s) = length x) as L1 by (unfold vmul; now rewrite vmap2_len).
  apply (nth_ext0 _ _ (length x)); auto. unfold vmul at 1. rewrite vmap2_len; congruence.
  intros i Hi. unfold vmul in *. rewrite !vmap2_nth by (auto; congruence). rewrite Rmult_assoc, H by auto. ring.
Qed.
Lemma le_log2_up n : (0 < n)%nat -> (n <= 2 ^ Nat.log2_up n)%nat.
Proof. intros H. destruct (Nat.eq_dec n 1) as [->|]; [cbn; lia|]. apply Nat.log2_up_spec. lia. Qed.

(** Decoding of one row, shared by both stages. *)
Definition decrow (u : nat -> R) (dim : nat) (r : list R) : res (list R) :=
  do y <- fwht r ;; do z <- slice dim y ;; Ok (vmul z (random_signs dim u)).
Lemma decrow_spec u dim k r : length r = (2 ^ k)%nat -> (dim <= 2 ^ k)%nat -> exists y, decrow u dim r = Ok y /\ length y = dim /\
  forall i, (i < dim)%nat -> nth i y 0 = had k (fun j => nth j r 0) i / sqrt (2 ^ k) * signR (u i - 1/2).
Proof.
  intros L D. destruct (fwht_spec k r L) as (y & E & Ly & Hy). unfold decrow. rewrite E. cbn [bind]. unfold slice.
  rewrite Ly. apply Nat.leb_le in D as D'. rewrite D'. cbn [bind]. eexists. split; [reflexivity|].
  assert (length (firstn dim y) = dim) as Lf by (rewrite firstn_length; lia).
  unfold vmul. split. rewrite vmap2_len; [auto|now rewrite signs_len].
  intros i Hi. rewrite vmap2_nth by (rewrite ?signs_len; lia). rewrite signs_nth by auto. f_equal.
  rewrite <- Hy by lia. rewrite <- (firstn_skipn dim y) at 2. rewrite app_nth1 by lia. reflexivity.
Qed.
Lemma decrow_forward u dim p x y : (forall i, (i < dim)%nat -> u i <> 1/2) -> length x = dim -> (dim <= p)%nat ->
  fwht (pad_right p (vmul x (random_signs dim u))) = Ok y -> decrow u dim y = Ok x.
Proof.
  intros U L D E. apply fwht_involutive in E. unfold decrow. rewrite E. cbn [bind]. unfold slice.
  assert (length (vmul x (random_signs dim u)) = dim) as Lv by (unfold vmul; rewrite vmap2_len; rewrite ?signs_len; auto).
  rewrite pad_len by lia. apply Nat.leb_le in D as D'. rewrite D'. cbn [bind]. f_equal.
  rewrite <- Lv at 1. rewrite pad_firstn. apply vmul_signs; [now rewrite signs_len|].
  intros i Hi. apply signs_sq; [auto|lia].
Qed.
Lemma kashin_decode_eq u enc shape : kashin_decode u enc shape = hadamard_decode u enc shape.
Proof.
  unfold kashin_decode, hadamard_decode. f_equal. induction enc as [|r e IH]; cbn [mapM]; [reflexivity|]. rewrite IH. f_equal.
  unfold kashin_backward. destruct (fwht r); cbn [bind]; [|reflexivity]. destruct (slice (fst shape) a); reflexivity.
Qed.

Lemma mapM_rt {A B C} (f : A -> res B) (g : B -> res C) (P : A -> Prop) (h : A -> C) l m :
  (forall a b, P a -> f a = Ok b -> g b = Ok (h a)) -> Forall P l -> mapM f l = Ok m -> mapM g m = Ok (map h l).
Proof.
  intros H. revert m. induction l as [|a r IH]; intros m F E; cbn in *; [injection E as <-; reflexivity|].
  inversion F; subst. destruct (f a) as [b|] eqn:Fa; cbn in E; [|discriminate]. destruct (mapM f r) as [bs|] eqn:Fr; cbn in E; [|discriminate].
  injection E as <-. cbn. rewrite (H a b) by auto. cbn. rewrite (IH bs) by auto. reflexivity.
Qed.
Lemma mapM_total {A B} (f : A -> res B) (P : A -> Prop) l : (forall a, P a -> exists b, f a = Ok b) -> Forall P l -> exists m, mapM f l = Ok m.
Proof.
  intros H F. induction F as [|a r Pa _ IH]; cbn; [eauto|]. destruct (H a Pa) as [b ->]. destruct IH as [m ->]. cbn. eauto.
Qed.

Definition rows_of (x : hinput) : list (list R) := match x with Vec v => [v] | Mat _ rows => rows | OtherRank => [] end.
Lemma good_rows x : good_input x -> expand x = Ok (width x, rows_of x) /\ (0 < width x)%nat /\ Forall (fun r => length r = width x) (rows_of x)
  /\ fst (input_shape x) = width x /\ collapse (input_shape x) (rows_of x) = Ok x.
Proof.
  destruct x as [v|d rows|]; cbn; [|intros [? ?]; repeat split; auto|tauto].
  intros H. destruct v; [congruence|]. repeat split; cbn; try lia. constructor; auto.
Qed.

Theorem hadamard_lossless u x : good_input x -> (forall i, (i < width x)%nat -> u i <> 1/2) ->
  exists e, hadamard_encode u x = Ok e /\ hadamard_decode u e (input_shape x) = Ok x.
Proof.
  intros G U. destruct (good_rows x G) as (E & W & F & S & C).
  unfold hadamard_encode. rewrite E. cbn [bind]. unfold hadamard_pad_dim.
  destruct (width x =? 0)%nat eqn:Z; [apply Nat.eqb_eq in Z; lia|]. cbn [bind].
  pose proof (le_log2_up (width x) W) as P.
  destruct (mapM_total (fun r => fwht (pad_right (2 ^ Nat.log2_up (width x)) (vmul r (random_signs (width x) u)))) (fun r => length r = width x) (rows_of x)) as [m M]; [|auto|].
  { intros r L. apply fwht_ok_iff. exists (Nat.log2_up (width x)). apply pad_len. unfold vmul. rewrite vmap2_len; rewrite ?signs_len; lia. }
  exists m. split; [exact M|]. unfold hadamard_decode. rewrite S.
  erewrite (mapM_rt _ _ (fun r => length r = width x) (fun r => r)); [|  | exact F | exact M].
  - cbn [bind]. rewrite map_id. exact C.
  - cbn beta. intros a b L A. apply (decrow_forward u _ _ _ _ U L P A).
Qed.

(** Kashin. *)
Lemma kashin_pad_pow k dim : (0 < dim)%nat -> exists n, kashin_pad_dim k dim = Ok (2 ^ n)%nat /\ (dim <= 2 ^ n)%nat.
Proof.
  intros H. unfold kashin_pad_dim. destruct (dim =? 0)%nat eqn:Z; [apply Nat.eqb_eq in Z; lia|].
  pose proof (le_log2_up dim H). destruct (Rlt_dec _ _).
  - exists (S (Nat.log2_up dim)). cbn [Nat.pow]. rewrite Nat.mul_comm. split; [reflexivity|lia].
  - eauto.
Qed.
Lemma forward_ok k n dim x s level c : (0 < dim)%nat -> kashin_pad_dim k dim = Ok (2 ^ n)%nat -> (dim <= 2 ^ n)%nat ->
  length x = dim -> length s = dim -> exists y, fwht (pad_right (2 ^ n) (vmul x s)) = Ok y /\ length y = (2 ^ n)%nat /\
  kashin_forward k x s level c = Ok (if c then map (clipR level) y else y).
Proof.
  intros D E P Lx Ls. assert (length (pad_right (2 ^ n) (vmul x s)) = 2 ^ n)%nat as L.
  { apply pad_len. unfold vmul. rewrite vmap2_len; lia. }
  destruct (fwht_spec n _ L) as (y & Ey & Ly & _). exists y. split; [exact Ey|]. split; [exact Ly|].
  unfold kashin_forward. rewrite Lx, E. cbn [bind]. rewrite Ey. reflexivity.
Qed.
Lemma decrow_add u dim n r1 r2 y1 y2 : length r1 = (2 ^ n)%nat -> length r2 = (2 ^ n)%nat -> (dim <= 2 ^ n)%nat ->
  decrow u dim r1 = Ok y1 -> decrow u dim r2 = Ok y2 -> decrow u dim (vadd r1 r2) = Ok (vadd y1 y2).
Proof.
  intros L1 L2 D E1 E2.
  destruct (decrow_spec u dim n r1 L1 D) as (z1 & F1 & M1 & N1). rewrite E1 in F1. injection F1 as <-.
  destruct (decrow_spec u dim n r2 L2 D) as (z2 & F2 & M2 & N2). rewrite E2 in F2. injection F2 as <-.
  assert (length (vadd r1 r2) = 2 ^ n)%nat as L3 by (unfold vadd; rewrite vmap2_len; congruence).
  destruct (decrow_spec u dim n _ L3 D) as (z & F & M & N). rewrite F. f_equal. unfold vadd in *.
  apply (nth_ext0 _ _ dim); auto. rewrite vmap2_len; congruence. intros i Hi. rewrite N, vmap2_nth, N1, N2 by (auto; congruence).
  rewrite (had_ext n _ (fun j => nth j r1 0 + nth j r2 0) i) by (try lia; intros t Ht; apply vmap2_nth; congruence).
  rewrite had_add by lia. pose proof (sqrt_pow2_pos n). field. lra.
Qed.

Lemma backward_some u dim n f : length f = (2 ^ n)%nat -> (dim <= 2 ^ n)%nat ->
  kashin_backward f dim (Some (random_signs dim u)) = decrow u dim f.
Proof. intros. unfold kashin_backward, decrow. reflexivity. Qed.

Lemma loop_inv k u dim n : (0 < dim)%nat -> kashin_pad_dim k dim = Ok (2 ^ n)%nat -> (dim <= 2 ^ n)%nat ->
  forall m x c b level, length x = dim -> length c = (2 ^ n)%nat -> decrow u dim c = Ok b ->
  exists x' c' b' level', kashin_loop m k x c (random_signs dim u) level = Ok (x', c', level') /\ length x' = dim /\ length c' = (2 ^ n)%nat /\
    decrow u dim c' = Ok b' /\ length b' = dim /\ (forall i, (i < dim)%nat -> nth i b' 0 + nth i x' 0 = nth i b 0 + nth i x 0).
Proof.
  intros D E P. induction m as [|m IH]; intros x c b level Lx Lc Eb; cbn [kashin_loop].
  - exists x, c, b, level. repeat split; auto. destruct (decrow_spec u dim n c Lc P) as (z & F & M & _). rewrite Eb in F. now injection F as ->.
  - unfold kashin_iter. destruct (forward_ok k n dim x (random_signs dim u) level true D E P Lx (signs_len _ _)) as (y & Ey & Ly & ->).
    cbn [bind]. set (f := map (clipR level) y). assert (length f = 2 ^ n)%nat as Lf by (unfold f; now rewrite map_length).
    rewrite Lx, (backward_some u dim n f Lf P).
    destruct (decrow_spec u dim n f Lf P) as (bf & Ef & Lbf & _). rewrite Ef. cbn [bind].
    assert (length b = dim) as Lb. { destruct (decrow_spec u dim n c Lc P) as (z & F & M & _). rewrite Eb in F. now injection F as ->. }
    assert (length (vsub x bf) = dim) as Lx' by (unfold vsub; rewrite vmap2_len; congruence).
    assert (length (vadd c f) = 2 ^ n)%nat as Lc' by (unfold vadd; rewrite vmap2_len; congruence).
    pose proof (decrow_add u dim n c f b bf Lc Lf P Eb Ef) as Eb'.
    destruct (IH (vsub x bf) (vadd c f) (vadd b bf) (level * k_eta k) Lx' Lc' Eb') as (x' & c' & b' & l' & A1 & A2 & A3 & A4 & A5 & A6).
    exists x', c', b', l'. repeat split; auto. intros i Hi. rewrite A6 by auto. unfold vadd, vsub. rewrite !vmap2_nth by (auto; congruence). ring.
Qed.
Lemma decrow_zero u dim n : (dim <= 2 ^ n)%nat -> decrow u dim (repeat 0 (2 ^ n)) = Ok (repeat 0 dim).
Proof.
  intros P. assert (length (repeat 0%R (2 ^ n)) = 2 ^ n)%nat as L by apply repeat_length.
  destruct (decrow_spec u dim n _ L P) as (y & E & Ly & H). rewrite E. f_equal. apply (nth_ext0 _ _ dim); auto. apply repeat_length.
  intros i Hi. rewrite H, nth_repeat by auto.
  rewrite (had_ext n _ (fun j => 0 * 0) i) by (try lia; intros; rewrite nth_repeat; ring).
  rewrite had_scale by lia. pose proof (sqrt_pow2_pos n). field. lra.
Qed.

Lemma kashin_row_lossless k u dim x : (0 < dim)%nat -> k_last_clip k = false -> length x = dim -> (forall i, (i < dim)%nat -> u i <> 1/2) ->
  exists c, kashin_encode_row k u dim x = Ok c /\ decrow u dim c = Ok x.
Proof.
  intros D LC Lx U. destruct (kashin_pad_pow k dim D) as (n & E & P). unfold kashin_encode_row. rewrite E. cbn [bind].
  destruct (loop_inv k u dim n D E P (k_iters k - 1) x (repeat 0 (2 ^ n)) (repeat 0 dim) (norm2 x / sqrt (k_delta k * INR dim))) as
    (x' & c' & b' & l' & A1 & A2 & A3 & A4 & A5 & A6); auto using repeat_length, decrow_zero.
  rewrite A1. cbn [bind]. rewrite LC.
  destruct (forward_ok k n dim x' (random_signs dim u) l' false D E P A2 (signs_len _ _)) as (y & Ey & Ly & ->). cbn [bind].
  eexists. split; [reflexivity|].
  pose proof (decrow_forward u dim _ x' y U A2 P Ey) as Dy.
  rewrite (decrow_add u dim n c' y b' x' A3 Ly P A4 Dy). f_equal. unfold vadd. apply (nth_ext0 _ _ dim); auto. rewrite vmap2_len; congruence.
  intros i Hi. rewrite vmap2_nth by congruence. rewrite A6, nth_repeat by auto. ring.
Qed.

Theorem kashin_lossless k u x : good_input x -> k_last_clip k = false -> (forall i, (i < width x)%nat -> u i <> 1/2) ->
  exists e, kashin_encode k u x = Ok e /\ kashin_decode u e (input_shape x) = Ok x.
Proof.
  intros G LC U. destruct (good_rows x G) as (E & W & F & S & C).
  unfold kashin_encode. rewrite E. cbn [bind]. destruct (kashin_pad_pow k (width x) W) as (n & -> & P). cbn [bind].
  destruct (mapM_total (kashin_encode_row k u (width x)) (fun r => length r = width x) (rows_of x)) as [m M]; [|auto|].
  { intros r L. destruct (kashin_row_lossless k u (width x) r W LC L U) as (c & ? & _). eauto. }
  exists m. split; [exact M|]. rewrite kashin_decode_eq. unfold hadamard_decode. rewrite S.
  erewrite (mapM_rt _ _ (fun r => length r = width x) (fun r => r)); [|  | exact F | exact M].
  - cbn [bind]. rewrite map_id. exact C.
  - intros a b L A. destruct (kashin_row_lossless k u (width x) a W LC L U) as (c & A' & B). rewrite A in A'. injection A' as <-. exact B.
Qed.

(** Commuting with sums. *)
Lemma had_sum {A} k (F : A -> nat -> R) es i : (i < 2 ^ k)%nat ->
  had k (fun t => sumR (map (fun e => F e t) es)) i = sumR (map (fun e => had k (F e) i) es).
Proof.
  intros Hi. induction es as [|e es IH]; cbn [map sumR].
  - rewrite (had_ext k _ (fun t => 0 * 0) i Hi) by (intros; ring). rewrite had_scale by auto. ring.
  - rewrite had_add by auto. now rewrite IH.
Qed.
Lemma sumR_mul {A} (f : A -> R) c es : sumR (map (fun e => f e * c) es) = sumR (map f es) * c.
Proof. induction es; cbn [map sumR]; [ring|]. rewrite IHes. ring. Qed.
Definition decf u dim r := match decrow u dim r with Ok y => y | Err _ => [] end.
Lemma decf_spec u dim k r : length r = (2 ^ k)%nat -> (dim <= 2 ^ k)%nat -> decrow u dim r = Ok (decf u dim r) /\ length (decf u dim r) = dim /\
  forall i, (i < dim)%nat -> nth i (decf u dim r) 0 = had k (fun j => nth j r 0) i / sqrt (2 ^ k) * signR (u i - 1/2).
Proof. intros L D. destruct (decrow_spec u dim k r L D) as (y & E & H). unfold decf. rewrite E. auto. Qed.
Lemma mapM_decf u dim k e : (dim <= 2 ^ k)%nat -> Forall (fun r => length r = 2 ^ k)%nat e ->
  mapM (decrow u dim) e = Ok (map (decf u dim) e).
Proof.
  intros D F. induction F as [|r e L _ IH]; cbn [mapM map]; [reflexivity|]. destruct (decf_spec u dim k r L D) as (-> & _). rewrite IH. reflexivity.
Qed.
Theorem hadamard_sum u b k dim es v : (dim <= 2 ^ k)%nat -> Forall (is_matrix b (2 ^ k)) es -> is_matrix_sum b (2 ^ k) es v ->
  exists y ys, hadamard_decode u v (dim, 2%nat) = Ok (Mat dim y) /\
    mapM (fun e => hadamard_decode u e (dim, 2%nat)) es = Ok (map (Mat dim) ys) /\ is_matrix_sum b dim ys y.
Proof.
  intros D F [[Lv Fv] Sv]. exists (map (decf u dim) v), (map (map (decf u dim)) es).
  split; [|split].
  - unfold hadamard_decode. cbn [fst]. change (bind (mapM (decrow u dim) v) (collapse (dim, 2%nat)) = Ok (Mat dim (map (decf u dim) v))).
    rewrite (mapM_decf u dim k) by auto. reflexivity.
  - clear Sv. induction F as [|e es [Le Fe] _ IH]; [reflexivity|]. cbn [mapM map]. rewrite IH.
    unfold hadamard_decode. cbn [fst]. change (mapM _ e) with (mapM (decrow u dim) e). rewrite (mapM_decf u dim k) by auto. reflexivity.
  - assert (forall i e, (i < b)%nat -> is_matrix b (2 ^ k) e -> nth i (map (decf u dim) e) [] = decf u dim (nth i e []) /\ length (nth i e []) = (2 ^ k)%nat) as N.
    { intros i e Hi [Le Fe]. split.
      - rewrite (nth_indep _ [] (decf u dim [])) by (rewrite map_length; lia). apply map_nth.
      - rewrite Forall_forall in Fe. apply Fe. apply nth_In. lia. }
    split.
    + split; [now rewrite map_length|]. apply Forall_map. eapply Forall_impl; [|exact Fv]. intros r L. apply (decf_spec u dim k r L D).
    + intros i j Hi Hj. rewrite map_map. destruct (N i v Hi (conj Lv Fv)) as [-> Lr].
      destruct (decf_spec u dim k _ Lr D) as (_ & _ & ->); [|auto].
      rewrite (had_ext k _ (fun t => sumR (map (fun e => nth t (nth i e []) 0) es)) j) by (try lia; intros; apply Sv; auto).
      rewrite (had_sum k (fun e t => nth t (nth i e []) 0)) by lia.
      unfold Rdiv. rewrite Rmult_assoc, <- sumR_mul. f_equal. apply map_ext_in. intros e He. rewrite Forall_forall in F.
      destruct (N i e Hi (F e He)) as [-> Le]. destruct (decf_spec u dim k _ Le D) as (_ & _ & ->); [|auto]. unfold Rdiv. ring.
Qed.

(** Scaling after a clipped last iteration preserves the norm. *)
Lemma norm_scale c x : 0 <= c -> norm2 (vscale c x) = norm2 x * c.
Proof.
  intros H. unfold norm2, vscale. rewrite map_map.
  assert (sumR (map (fun a => a * c * (a * c)) x) = sumR (map (fun a => a * a) x) * (c * c)) as ->.
  { rewrite <- (sumR_mul (fun a => a * a)). f_equal. apply map_ext. intros; ring. }
  assert (0 <= sumR (map (fun a => a * a) x)). { induction x; cbn [map sumR]; [lra|nra]. }
  rewrite sqrt_mult by nra. now rewrite sqrt_square.
Qed.
Lemma norm_nonneg x : 0 <= norm2 x. Proof. apply sqrt_pos. Qed.
Lemma norm_zero_all (x : list R) : norm2 x = 0 -> Forall (fun a => a = 0) x.
Proof.
  unfold norm2. intros H.
  assert (forall z, 0 <= sumR (map (fun a => a * a) z)) as P. { induction z; cbn [map sumR]; [lra|nra]. }
  apply sqrt_eq_0 in H; [|apply P]. induction x as [|a r IH]; constructor.
  - cbn [map sumR] in H. specialize (P r). assert (a * a = 0) by nra. nra.
  - apply IH. cbn [map sumR] in H. specialize (P r). nra.
Qed.
Lemma sumR_app a b : sumR (a ++ b) = sumR a + sumR b.
Proof. induction a; cbn [app sumR]; [ring|]. rewrite IHa. ring. Qed.
Lemma norm_pad n x : norm2 (pad_right n x) = norm2 x.
Proof.
  unfold norm2, pad_right. f_equal. rewrite map_app, sumR_app.
  assert (forall m, sumR (map (fun a => a * a) (repeat 0 m)) = 0) as H by (induction m; cbn [repeat map sumR]; [lra|rewrite IHm; ring]).
  rewrite H. ring.
Qed.
Lemma norm_signs x s : length x = length s -> (forall i, (i < length x)%nat -> nth i s 0 * nth i s 0 = 1) -> norm2 (vmul x s) = norm2 x.
Proof.
  intros L H. unfold norm2. f_equal. revert s L H. induction x as [|a x IH]; destruct s as [|b s]; cbn [length]; intros L H; try lia; [reflexivity|].
  unfold vmul in *. cbn [vmap2 map sumR]. rewrite (IH s) by (try lia; intros i Hi; apply (H (S i)); lia).
  specialize (H 0%nat ltac:(lia)). cbn [nth] in H. replace (a * b * (a * b)) with (a * a * (b * b)) by ring. rewrite H. ring.
Qed.
Theorem hadamard_encode_norm u x e : good_input x -> (forall i, (i < width x)%nat -> u i <> 1/2) -> hadamard_encode u x = Ok e ->
  map norm2 e = map norm2 (rows_of x).
Proof.
  intros G U H. destruct (good_rows x G) as (E & W & F & S & C). unfold hadamard_encode in H. rewrite E in H. cbn [bind] in H.
  unfold hadamard_pad_dim in H. destruct (width x =? 0)%nat; [discriminate|]. cbn [bind] in H. clear G E S C. revert e H.
  induction F as [|r rows Lr _ IH]; cbn [mapM]; intros e H; [injection H as <-; reflexivity|].
  destruct (fwht _) as [y|] eqn:Ey; cbn [bind] in H; [|discriminate]. destruct (mapM _ rows) as [ys|]; cbn [bind] in H; [|discriminate].
  injection H as <-. cbn [map]. rewrite (IH ys eq_refl). f_equal. rewrite (fwht_norm _ _ Ey), norm_pad. apply norm_signs.
  now rewrite signs_len. intros i Hi. apply signs_sq; [auto|lia].
Qed.
Theorem kashin_clipped_norm k u dim x c : k_last_clip k = true -> kashin_encode_row k u dim x = Ok c ->
  norm2 c = norm2 x \/ Forall (fun a => a = 0) c.
Proof.
  intros LC H. unfold kashin_encode_row in H. destruct (kashin_pad_dim k dim); cbn [bind] in H; [|discriminate].
  destruct (kashin_loop _ _ _ _ _ _) as [[[r c0] l]|]; cbn [bind] in H; [|discriminate].
  destruct (kashin_forward _ _ _ _ _) as [f|]; cbn [bind] in H; [|discriminate]. rewrite LC in H. injection H as <-.
  set (d := vadd c0 f). unfold div_no_nanR. destruct (Req_EM_T (norm2 d) 0) as [Z|Z].
  - right. apply Forall_forall. intros w Ha. unfold vscale in Ha. apply in_map_iff in Ha. destruct Ha as (b & <- & _). ring.
  - left. pose proof (norm_nonneg d). pose proof (norm_nonneg x). rewrite norm_scale.
    + field. auto.
    + apply Rle_mult_inv_pos; lra.
Qed.
