(** Properties C54 (Hadamard), C55 (random signs), C56 (Kashin), C72 (commuting with sums, rotation stages), C73 (norms).
    Statements only. *)
From Coq Require Import Reals.
From Verif Require Import Base M_Hadamard S_Hadamard L_Hadamard L_Kashin L_Kashin2 L_KashinOne.
From Coq Require Import Lra.
Open Scope R_scope.

(** The transform is defined exactly for power-of-two dimensions, and is its own inverse. *)
Theorem C54_fwht_defined_iff : forall x, (exists y, fwht x = Ok y) <-> exists k, length x = (2 ^ k)%nat.
Proof. exact fwht_ok_iff. Qed.
Print Assumptions C54_fwht_defined_iff.
Theorem C54_fwht_involution : forall x y, fwht x = Ok y -> fwht y = Ok x.
Proof. exact fwht_involutive. Qed.
Print Assumptions C54_fwht_involution.
(** The stage is lossless for every vector or batch of vectors of any positive dimension, unless a draw is exactly 1/2. *)
Theorem C54_stage_lossless : forall u x, good_input x -> (forall i, (i < width x)%nat -> u i <> 1/2) ->
  exists e, hadamard_encode u x = Ok e /\ hadamard_decode u e (input_shape x) = Ok x.
Proof. exact hadamard_lossless. Qed.
Print Assumptions C54_stage_lossless.
(** The loop on 4 elements is multiplication by the 4x4 Hadamard matrix. *)
Example C54_ex : forall a b c d, fwht_loop 2 [a; b; c; d] = [(a + b) + (c + d); (a - b) + (c - d); (a + b) - (c + d); (a - b) - (c - d)].
Proof. reflexivity. Qed.
Example C54_ex_input : good_input (Mat 3 [[1; 2; 3]; [4; 5; 6]]) /\ (forall i, (i < 3)%nat -> (fun _ : nat => 0) i <> 1/2).
Proof. split; [split; [lia|repeat constructor]|intros; lra]. Qed.

(** The recorded shape is the input's: (dim) or (batch, dim). *)
Theorem C54_shape_recorded : forall v d rows, input_shape (Vec v) = (length v, 1%nat) /\ input_shape (Mat d rows) = (d, 2%nat).
Proof. intros. split; reflexivity. Qed.
Print Assumptions C54_shape_recorded.
(** The encoding has one row per input vector, each padded to the smallest power of two. *)
Theorem C54_encoded_width : forall u x e, good_input x -> hadamard_encode u x = Ok e ->
  exists p, smallest_power_of_2 (width x) p /\ is_matrix (batch x) p e.
Proof. exact hadamard_width. Qed.
Print Assumptions C54_encoded_width.
(** Scalars and tensors of three or more dimensions are refused; so are vectors of dimension zero. *)
Theorem C54_refused : forall u k, hadamard_encode u OtherRank = Err ValueError /\ kashin_encode k u OtherRank = Err ValueError /\
  (forall x, (x = Vec [] \/ exists rows, x = Mat 0 rows) -> hadamard_encode u x = Err OverflowError /\ kashin_encode k u x = Err OverflowError).
Proof. intros u k. split; [reflexivity|]. split; [reflexivity|]. intros x [-> | [rows ->]]; split; reflexivity. Qed.
Print Assumptions C54_refused.

(** Every sign is +1 or -1, except where the draw is exactly 1/2, where it is 0. *)
Theorem C55_signs_partial : forall n u i, (i < n)%nat ->
  nth i (random_signs n u) 0 = 1 \/ nth i (random_signs n u) 0 = -1 \/ (nth i (random_signs n u) 0 = 0 /\ u i = 1/2).
Proof.
  intros n u i H. rewrite signs_nth by auto. destruct (signR_values (u i - 1/2)) as [E|[E|[E F]]]; rewrite E; auto.
  right; right. split; [reflexivity|lra].
Qed.
Print Assumptions C55_signs_partial.
(** A draw of exactly 1/2, which lies in [0,1), gives the sign 0, and a Hadamard encoded vector decodes to 0. *)
Theorem C55_zero_sign_refuted : exists u : nat -> R, (forall i, 0 <= u i < 1) /\ random_signs 1 u = [0] /\
  exists e, hadamard_encode u (Vec [7]) = Ok e /\ hadamard_decode u e (1%nat, 1%nat) = Ok (Vec [0]).
Proof.
  exists (fun _ => 1/2). split; [intros; lra|]. assert (signR (1/2 - 1/2) = 0) as S.
  { unfold signR. destruct (Rlt_dec _ _); [lra|]. destruct (Rlt_dec _ _); [lra|reflexivity]. }
  assert (random_signs 1 (fun _ => 1/2) = [0]) as S1 by (unfold random_signs; cbn [seq map]; now rewrite S).
  split; [exact S1|]. eexists. unfold hadamard_encode, hadamard_decode. cbn [expand bind length hadamard_pad_dim Nat.eqb fst].
  rewrite S1. change (Nat.log2_up 1) with 0%nat. cbn [Nat.pow mapM vmul vmap2 pad_right length Nat.sub repeat app].
  split; [reflexivity|]. cbn. repeat f_equal. ring.
Qed.
Print Assumptions C55_zero_sign_refuted.

(** Lossless for every constructible stage without final clipping. *)
Theorem C56_kashin_lossless : forall iters eta delta threshold k u x,
  mk_kashin iters eta delta false threshold = Ok k -> good_input x -> (forall i, (i < width x)%nat -> u i <> 1/2) ->
  exists e, kashin_encode k u x = Ok e /\ kashin_decode u e (input_shape x) = Ok x.
Proof.
  intros iters eta delta threshold k u x H G U. apply kashin_lossless; auto. unfold mk_kashin in H.
  destruct (iters <=? 0)%Z; [discriminate|]. destruct (Rlt_dec 0 eta); [|discriminate]. destruct (Rlt_dec eta 1); [|discriminate].
  destruct (Rle_dec delta 0); [discriminate|]. injection H as <-. reflexivity.
Qed.
Print Assumptions C56_kashin_lossless.
(** Exactly the documented parameters are accepted; anything else is a ValueError. *)
Theorem C56_parameters : forall iters eta delta last_clip threshold,
  ((0 < iters)%Z /\ 0 < eta < 1 /\ 0 < delta ->
    mk_kashin iters eta delta last_clip threshold = Ok (mkKashin (Z.to_nat iters) eta delta last_clip threshold)) /\
  (~ ((0 < iters)%Z /\ 0 < eta < 1 /\ 0 < delta) -> mk_kashin iters eta delta last_clip threshold = Err ValueError).
Proof. intros. split; [intros (A & B & C); now apply kashin_made|apply kashin_refused]. Qed.
Print Assumptions C56_parameters.
(** Encoding always succeeds (clipped or not); each row is padded to the smallest power of two, and to twice that exactly when
    the ratio of the dimension to it exceeds the threshold. *)
Theorem C56_encoded_width : forall k u x, good_input x -> exists e p, kashin_encode k u x = Ok e /\ smallest_power_of_2 (width x) p /\
  (INR (width x) / INR p <= k_threshold k -> is_matrix (batch x) p e) /\ (k_threshold k < INR (width x) / INR p -> is_matrix (batch x) (2 * p) e).
Proof. exact kashin_width. Qed.
Print Assumptions C56_encoded_width.
Example C56_ex_width : smallest_power_of_2 3 4.
Proof. apply (smallest_pow2 3). lia. Qed.
Example C56_ex : exists k, mk_kashin 3 (9/10) 1 false (85/100) = Ok k.
Proof. unfold mk_kashin. destruct (Rlt_dec 0 (9/10)); [|lra]. destruct (Rlt_dec (9/10) 1); [|lra]. destruct (Rle_dec 1 0); [lra|]. eexists; reflexivity. Qed.

(** Hadamard and Kashin decoding of an entrywise sum of encodings is the sum of the decodings (any number of summands, also
    of encodings changed by a lossy child stage). *)
Theorem C72_hadamard_commutes : forall u b k dim es v,
  (dim <= 2 ^ k)%nat -> Forall (is_matrix b (2 ^ k)) es -> is_matrix_sum b (2 ^ k) es v ->
  exists y ys, hadamard_decode u v (dim, 2%nat) = Ok (Mat dim y) /\
    mapM (fun e => hadamard_decode u e (dim, 2%nat)) es = Ok (map (Mat dim) ys) /\ is_matrix_sum b dim ys y.
Proof. exact hadamard_sum. Qed.
Print Assumptions C72_hadamard_commutes.
Theorem C72_kashin_commutes : forall u b k dim es v,
  (dim <= 2 ^ k)%nat -> Forall (is_matrix b (2 ^ k)) es -> is_matrix_sum b (2 ^ k) es v ->
  exists y ys, kashin_decode u v (dim, 2%nat) = Ok (Mat dim y) /\
    mapM (fun e => kashin_decode u e (dim, 2%nat)) es = Ok (map (Mat dim) ys) /\ is_matrix_sum b dim ys y.
Proof.
  intros u b k dim es v D F S. destruct (hadamard_sum u b k dim es v D F S) as (y & ys & A & B & C). exists y, ys.
  rewrite kashin_decode_eq. split; [exact A|]. split; [|exact C]. rewrite <- B. clear. induction es; cbn [mapM]; [reflexivity|].
  now rewrite kashin_decode_eq, IHes.
Qed.
Print Assumptions C72_kashin_commutes.
Example C72_ex_sum : is_matrix_sum 1 2 [[[1; 2]]; [[3; 4]]; [[5; 6]]] [[9; 12]].
Proof. split; [repeat constructor|]. intros i j Hi Hj. destruct i; [|lia]. destruct j as [|[|]]; [| |lia]; cbn; lra. Qed.

(** The transform and the Hadamard stage preserve Euclidean norms; a clipped Kashin representation is rescaled to the norm
    of the input (or is all zero). *)
Theorem C73_fwht_norm : forall x y, fwht x = Ok y -> norm2 y = norm2 x.
Proof. exact fwht_norm. Qed.
Print Assumptions C73_fwht_norm.
Theorem C73_hadamard_stage_norm : forall u d rows e, good_input (Mat d rows) -> (forall i, (i < d)%nat -> u i <> 1/2) ->
  hadamard_encode u (Mat d rows) = Ok e -> map norm2 e = map norm2 rows.
Proof. intros u d rows e. exact (hadamard_encode_norm u (Mat d rows) e). Qed.
Print Assumptions C73_hadamard_stage_norm.
Theorem C73_kashin_clipped_norm : forall k u dim x c, k_last_clip k = true -> kashin_encode_row k u dim x = Ok c ->
  norm2 c = norm2 x \/ Forall (fun a => a = 0) c.
Proof. exact kashin_clipped_norm. Qed.
Print Assumptions C73_kashin_clipped_norm.
(** With one iteration, clipped: the rotated (padded, signed) vector truncated to the clip level, times a common factor. *)
Theorem C73_kashin_one_pass : forall k u dim x c, k_iters k = 1%nat -> k_last_clip k = true -> length x = dim -> kashin_encode_row k u dim x = Ok c ->
  exists y t lam, fwht (pad_right (length c) (vmul x (random_signs dim u))) = Ok y /\ 0 <= lam /\
    Forall2 (truncated (norm2 x / sqrt (k_delta k * INR dim))) y t /\ Forall2 (fun a b => b = lam * a) t c.
Proof. exact kashin_one_pass. Qed.
Print Assumptions C73_kashin_one_pass.
Example C73_ex_one_pass : exists c, kashin_encode_row (mkKashin 1 (9/10) 1 true (85/100)) (fun _ => 1) 1 [3] = Ok c.
Proof.
  set (k := mkKashin 1 (9/10) 1 true (85/100)). assert (G : good_input (Vec [3])) by discriminate. destruct (kashin_width k (fun _ => 1) (Vec [3]) G) as (e & p & E & _). unfold kashin_encode in E. cbn [expand bind length] in E.
  destruct (kashin_pad_dim k 1); [|discriminate]. cbn [bind mapM] in E. destruct (kashin_encode_row k (fun _ => 1) 1 [3]) as [c|]; [eauto|discriminate].
Qed.
