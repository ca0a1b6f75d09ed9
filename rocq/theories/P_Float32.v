(** C144: the mask update in float32. *)
From Coq Require Import Reals Psatz Lia.
From Flocq Require Import Core BinarySingleNaN.
From Verif Require Import Base M_Num M_Tensor M_Mask S_Mask M_Float32 S_Float32 L_Float32 L_Float32b L_Float32c.
Open Scope Q_scope.

(** The number of weights kept is at least one and at most the size of the tensor... *)
Theorem C144_count_in_range_partial : forall n s, (1 <= n <= 2 ^ 31)%Z -> is_sparsity s -> (n <= 2 ^ 24)%Z \/ eps <= number s ->
  (1 <= keep_count n s <= n)%Z.
Proof. exact count_in_range. Qed.
(** ... it is size * (1 - sparsity), rounded, up to the rounding errors... *)
Theorem C144_count_is : forall n s, (1 <= n <= 2 ^ 31)%Z -> is_sparsity s -> is_keep_count_f n s (keep_count n s).
Proof. exact count_is. Qed.
(** ... exactly the documented count unless the product is next to a half-integer... *)
Theorem C144_count_exact : forall n s, (1 <= n <= 2 ^ 31)%Z -> is_sparsity s -> clearly_rounded n s ->
  is_keep_count (Z.to_nat n) (number s) (keep_count n s).
Proof. exact count_exact. Qed.
(** ... it falls when the sparsity rises, and a bigger tensor keeps more... *)
Theorem C144_count_antitone : forall n n' s s', (1 <= n <= n')%Z -> (n' <= 2 ^ 31)%Z -> is_sparsity s -> is_sparsity s' ->
  number s' <= number s -> (keep_count n s <= keep_count n' s')%Z.
Proof. exact count_antitone. Qed.
(** ... and everything is kept while the sparsity is zero. *)
Theorem C144_zero_keeps_all_partial : forall n, (1 <= n <= 2 ^ 24)%Z -> keep_count n (f_of_int 0) = n.
Proof. exact count_zero. Qed.
(** So the update succeeds... *)
Theorem C144_update_ok_partial : forall s w, (1 <= Z.of_nat (length (data w)) <= 2 ^ 31)%Z -> is_sparsity s ->
  (Z.of_nat (length (data w)) <= 2 ^ 24)%Z \/ eps <= number s -> exists thr mask, update_mask_f s w = Ok (thr, mask).
Proof. exact update_f_ok. Qed.
(** ... and keeps exactly the entries at least as large as the k-th largest magnitude, k being that count. *)
Theorem C144_mask : forall s w thr mask, (1 <= Z.of_nat (length (data w)) <= 2 ^ 31)%Z -> is_sparsity s ->
  update_mask_f s w = Ok (thr, mask) ->
  shape mask = shape w /\ length (data mask) = length (data w) /\
  exists k, Z.of_nat k = keep_count (Z.of_nat (length (data w))) s /\ kth_largest (magnitudes w) k thr /\
    forall i, (i < length (data w))%nat -> nth i (data mask) 0 = (if Qle_bool thr (Qabs (nth i (data w) 0)) then 1 else 0).
Proof. exact update_f_spec. Qed.
(** But sizes above 2^24 are themselves rounded: every tensor with between 2^24 and 2^25 entries, 3 modulo 4, asks for more
    weights than it has, and the update at sparsity zero fails. *)
Theorem C144_refuted : exists w : tensor Q, is_sparsity (f_of_int 0) /\ (1 <= Z.of_nat (length (data w)) <= 2 ^ 31)%Z /\
  update_mask_f (f_of_int 0) w = Err InvalidArgument.
Proof.
  set (N := Z.to_nat (2 ^ 24 + 3)). assert (E : Z.of_nat N = (2 ^ 24 + 3)%Z) by (unfold N; rewrite Z2Nat.id; [reflexivity|discriminate]).
  exists (mkT [N] (repeat 0 N)). cbn [data]. rewrite repeat_length. split; [|split].
  - vm_compute. repeat split; congruence.
  - clearbody N. lia.
  - apply update_f_fails; cbn [data]; rewrite repeat_length; clearbody N; rewrite E; [lia|reflexivity].
Qed.

(** Ten weights at sparsity 0.75: 2.5 rounds to 2; at sparsity 0.7 in float32 the product is 3.0000002, and three are kept. *)
(** The float32 number m * 2^e. *)
Definition fl (m e : Z) : f32 := binary_normalize 24 128 prec24 emax128 mode_NE m e false.
Example C144_example :
  number (fl 3 (-2)) == 3#4 /\ keep_count 10 (fl 3 (-2)) = 2%Z /\
  keep_count 10 (fl 11744051 (-24)) = 3%Z /\ keep_count 16777215 (f_of_int 0) = 16777215%Z /\
  update_mask_f (fl 1 (-1)) (mkT [4%nat] [1; -4; 3; -2]) = Ok (3, mkT [4%nat] [0; 1; 1; 0]).
Proof. vm_compute. repeat split; congruence. Qed.
Example C144_hypotheses : is_sparsity (fl 3 (-2)) /\ is_sparsity (fl 11744051 (-24)) /\ eps <= number (fl 3 (-2)).
Proof. repeat split; vm_compute; congruence. Qed.
(** A tensor of 7 weights at sparsity 0.75 is clearly rounded (1.75). *)
Example C144_clear : clearly_rounded 7 (fl 3 (-2)).
Proof.
  intros n. assert (E : inject_Z 7 * (1 - number (fl 3 (-2))) == 7#4) by (vm_compute; reflexivity).
  rewrite E. destruct (Z.le_gt_cases n 1) as [H|H].
  - apply Qlt_le_trans with (1#4); [vm_compute; reflexivity|]. rewrite Qabs_pos. 
    + assert (inject_Z n <= 1) by (change 1 with (inject_Z 1); rewrite <- Zle_Qle; lia). lra.
    + assert (inject_Z n <= 1) by (change 1 with (inject_Z 1); rewrite <- Zle_Qle; lia). lra.
  - apply Qlt_le_trans with (1#4); [vm_compute; reflexivity|]. assert (inject_Z 2 <= inject_Z n) by (rewrite <- Zle_Qle; lia). change (inject_Z 2) with 2 in *.
    rewrite Qabs_neg by lra. lra.
Qed.

Print Assumptions C144_count_in_range_partial.
Print Assumptions C144_count_is.
Print Assumptions C144_count_exact.
Print Assumptions C144_count_antitone.
Print Assumptions C144_zero_keeps_all_partial.
Print Assumptions C144_update_ok_partial.
Print Assumptions C144_mask.
Print Assumptions C144_refuted.
