(** C150: the Hadamard rotation in float32. *)
From Coq Require Import Reals Psatz Lia.
From Flocq Require Import Core BinarySingleNaN.
From Verif Require Import Base M_Float32 L_Float32 L_FloatSchedule L_FloatQuant M_Hadamard S_Hadamard L_Kashin L_Kashin2 M_FloatHadamard S_FloatHadamard L_FloatHadamard L_FloatHadamard2 L_FloatHadamard3.
From Coq Require Import Lra.
Open Scope R_scope.

Lemma modest_upto x : modest x -> upto 60 x.
Proof. intros M. apply Forall_impl with (2 := M). intros v [A B]. split; [exact A|]. unfold real in B. replace (bpow radix2 60) with (2 ^ 60) by (cbn; lra). exact B. Qed.
Lemma upto_finite e x : upto e x -> finite_all x.
Proof. intros M. apply Forall_impl with (2 := M). intros v [A B]. exact A. Qed.
Lemma tn_eq : tn = 1 / 2 ^ 150. Proof. unfold tn. cbn. lra. Qed.
Lemma u_eq : u = 1 / 2 ^ 24. Proof. unfold u. cbn. lra. Qed.

(** The float32 transform of 2^k numbers (k at most 24) is the exact transform up to a relative (k+3)/8388608 of the norm of
    the vector, and 2^k/2^150. *)
Theorem C150_transform_partial : forall k x, (k <= 24)%nat -> length x = (2 ^ k)%nat -> modest x ->
  exists y z, fwht_f x = Ok y /\ fwht (reals x) = Ok z /\ length y = length x /\ finite_all y /\
    distance (reals y) z <= INR (k + 3) / 2 ^ 23 * norm2 (reals x) + 2 ^ k / 2 ^ 150.
Proof.
  intros k x K L M. destruct (fwht_rounded k 60 x K ltac:(lia) ltac:(lia) L (modest_upto x M)) as (y & z & A & B & C & D & E & G).
  exists y, z. split; [exact A|]. split; [exact B|]. split; [congruence|]. split; [now apply upto_finite in E|].
  unfold distance. apply Rle_trans with (1 := G). pose proof (g_bound (k + 3) ltac:(lia)) as B1. pose proof (norm_nonneg (reals x)) as N0. pose proof u_small as U. pose proof (pos_INR (k + 3)) as P.
  assert (Q : 0 <= INR (k + 3) * u) by (apply Rmult_le_pos; lra). pose proof (Rmult_le_compat_r _ _ _ N0 B1) as H. pose proof (Rmult_le_pos _ _ Q N0) as H2.
  replace (INR (k + 3) / 2 ^ 23 * norm2 (reals x)) with (2 * (INR (k + 3) * u * norm2 (reals x))) by (rewrite u_eq; field). rewrite tn_eq.
  replace (2 ^ k * (1 / 2 ^ 150)) with (2 ^ k / 2 ^ 150) by field. change (reals x) with (map (@B2R 24 128) x) in *. set (nn := norm2 (map (@B2R 24 128) x)) in *. lra.
Qed.
Print Assumptions C150_transform_partial.

Section Stage.
  (** A vector of at most 2^24 values, and its random draws. *)
  Context (draws x : list f32) (k : nat).
  Definition usable : Prop := length draws = length x /\ Forall sign_draw draws /\ x <> [] /\ modest x /\ smallest_power_of_2 (length x) (2 ^ k) /\ (k <= 24)%nat.
  Lemma usable_k : usable -> k = Nat.log2_up (length x).
  Proof.
    intros (A & B & C & D & (E1 & E2 & E3) & G). assert (P : (0 < length x)%nat) by (destruct x; [congruence|cbn; lia]).
    destruct (smallest_pow2 (length x) P) as (F1 & F2 & F3). pose proof (E3 _ F2) as H1. pose proof (F3 _ E2) as H2. apply (Nat.pow_inj_r 2); lia.
  Qed.
  (** Encoding keeps the norm of the vector... *)
  Theorem C150_norm_partial : usable -> exists y, encode_row_f draws x = Ok y /\ length y = (2 ^ k)%nat /\ finite_all y /\
    Rabs (norm2 (reals y) - norm2 (reals x)) <= INR (k + 3) / 2 ^ 23 * norm2 (reals x) + 2 ^ k / 2 ^ 150.
  Proof.
    intros H. pose proof (usable_k H) as EK. destruct H as (A & B & C & D & E & G). destruct (row_roundtrip draws x A B C (modest_upto x D)) as (y & z & Y1 & Y2 & Y3 & Z1 & Z2 & Z3 & N1 & N2); rewrite <- ?EK; [exact G|].
    rewrite <- EK in *. exists y. split; [exact Y1|]. split; [exact Y2|]. split; [now apply upto_finite in Y3|].
    apply Rle_trans with (1 := N1). rewrite u_eq, tn_eq. right. change (reals x) with (map (@B2R 24 128) x). field.
  Qed.
  (** ... and decoding returns the vector, up to a relative (k+3)/4194304 of its norm, and 4 * 2^k / 2^150. *)
  Theorem C150_roundtrip_partial : usable -> exists y z, encode_row_f draws x = Ok y /\ decode_row_f draws (length x) y = Ok z /\ length z = length x /\ finite_all z /\
    distance (reals z) (reals x) <= INR (k + 3) / 2 ^ 22 * norm2 (reals x) + 2 ^ k / 2 ^ 148.
  Proof.
    intros H. pose proof (usable_k H) as EK. destruct H as (A & B & C & D & E & G). destruct (row_roundtrip draws x A B C (modest_upto x D)) as (y & z & Y1 & Y2 & Y3 & Z1 & Z2 & Z3 & N1 & N2); rewrite <- ?EK; [exact G|].
    rewrite <- EK in *. exists y, z. split; [exact Y1|]. split; [exact Z1|]. split; [exact Z2|]. split; [exact Z3|].
    unfold distance. apply Rle_trans with (1 := N2). rewrite u_eq, tn_eq. right. change (reals x) with (map (@B2R 24 128) x). field.
  Qed.
End Stage.
Print Assumptions C150_norm_partial.
Print Assumptions C150_roundtrip_partial.

(** Decoding does not return the vector exactly: [1; 2^-25], both signs +1. *)
Definition parts (v : f32) : option (bool * positive * Z) := match v with B754_finite s m e _ => Some (s, m, e) | _ => None end.
Lemma parts_real v s m e : parts v = Some (s, m, e) -> real v = IZR (cond_Zopp s (Zpos m)) * bpow radix2 e /\ is_finite v = true.
Proof. destruct v; try discriminate. intros H. cbn in H. injection H as -> -> ->. split; reflexivity. Qed.
Definition is_zero_f (v : f32) : bool := match v with B754_zero _ => true | _ => false end.
Lemma zero_real v : is_zero_f v = true -> real v = 0. Proof. destruct v; try discriminate. reflexivity. Qed.
Definition fl (m e : Z) : f32 := binary_normalize 24 128 prec24 emax128 mode_NE m e false.
Lemma one_real : real (f_of_int 1) = 1 /\ is_finite (f_of_int 1) = true.
Proof. destruct (parts_real (f_of_int 1) false 8388608 (-23) ltac:(vm_compute; reflexivity)) as [A B]. split; [rewrite A; cbn; lra|exact B]. Qed.
Lemma tiny_real : real (fl 1 (-25)) = / 33554432 /\ is_finite (fl 1 (-25)) = true.
Proof. destruct (parts_real (fl 1 (-25)) false 8388608 (-48) ltac:(vm_compute; reflexivity)) as [A B]. split; [rewrite A; cbn; lra|exact B]. Qed.
Definition plus_draws : list f32 := [f_of_int 1; f_of_int 1].
Definition one_tiny : list f32 := [f_of_int 1; fl 1 (-25)].
Lemma usable_ex : usable plus_draws one_tiny 1.
Proof.
  destruct one_real as [A B]. destruct tiny_real as [C D]. split; [reflexivity|]. split. { repeat constructor; auto; rewrite A; lra. }
  split; [discriminate|]. split. { repeat constructor; auto; rewrite ?A, ?C, Rabs_pos_eq; lra. } split; [|lia]. apply (smallest_pow2 2). lia.
Qed.
Theorem C150_exact_refuted : exists draws x y z, length draws = length x /\ Forall sign_draw draws /\ modest x /\
  encode_row_f draws x = Ok y /\ decode_row_f draws (length x) y = Ok z /\ real (nth 1 x (f_of_int 0)) <> 0 /\ real (nth 1 z (f_of_int 0)) = 0.
Proof.
  destruct (C150_roundtrip_partial _ _ _ usable_ex) as (y & z & Y & Z & _). destruct usable_ex as (A & B & _ & D & _). exists plus_draws, one_tiny, y, z.
  split; [exact A|]. split; [exact B|]. split; [exact D|]. split; [exact Y|]. split; [exact Z|]. split. { destruct tiny_real as [T _]. cbn [nth one_tiny]. rewrite T. lra. }
  apply zero_real. assert (T : (match encode_row_f plus_draws one_tiny with Ok y => match decode_row_f plus_draws 2 y with Ok z => is_zero_f (nth 1 z (f_of_int 0)) | _ => false end | _ => false end) = true) by (vm_compute; reflexivity).
  rewrite Y in T. change (length one_tiny) with 2%nat in Z. rewrite Z in T. exact T.
Qed.
Print Assumptions C150_exact_refuted.

(** The hypotheses can be met. *)
Example C150_ex : exists draws x k, usable draws x k. Proof. exact (ex_intro _ _ (ex_intro _ _ (ex_intro _ _ usable_ex))). Qed.
Example C150_ex_transform : exists x, length x = (2 ^ 1)%nat /\ modest x. Proof. exists one_tiny. destruct usable_ex as (_ & _ & _ & D & _). split; [reflexivity|exact D]. Qed.
