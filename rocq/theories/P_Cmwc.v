(** Property C133: the deterministic pseudo-random generator. *)
From Verif Require Import Base M_Num M_Cmwc L_Num L_Cmwc L_Cmwc2.
From Coq Require Import ZArith Lia.
Open Scope Z_scope.

(** For every int64 seed and every positive count the generator terminates and returns exactly that many values, each a
    multiple of 2^-53 in [0, 1). *)
Theorem C133_floats : forall n seed, 0 < n -> exists vs, random_floats_cmwc n seed Float64 = Ok vs /\ length vs = Z.to_nat n /\
  forall v, In v vs -> (0 <= v < 1)%Q /\ exists k, (v == inject_Z k / inject_Z (2 ^ 53))%Q.
Proof.
  intros n seed H. destruct (sequence_ok n seed H) as (ks & E & L & F). unfold random_floats_cmwc. rewrite E. cbn [bind].
  eexists. split; [reflexivity|]. split; [now rewrite map_length|]. intros v V. apply in_map_iff in V. destruct V as (k & <- & K).
  rewrite Forall_forall in F. destruct (F k K) as [A B]. split; [|exists k; reflexivity]. unfold as_dtype. split.
  - apply Qle_shift_div_l; [reflexivity|]. rewrite Qmult_0_l. change 0%Q with (inject_Z 0). now rewrite <- Zle_Qle.
  - apply Qlt_shift_div_r; [reflexivity|]. rewrite Qmult_1_l. now rewrite <- Zlt_Qlt.
Qed.
Print Assumptions C133_floats.
(** Cast to float32 the values still lie in [0, 1]; missing: that they are below 1 ... *)
Theorem C133_float32_partial : forall n seed, 0 < n -> exists vs, random_floats_cmwc n seed Float32 = Ok vs /\ length vs = Z.to_nat n /\
  forall v, In v vs -> (0 <= v <= 1)%Q.
Proof.
  intros n seed H. destruct (sequence_ok n seed H) as (ks & E & L & F). unfold random_floats_cmwc. rewrite E. cbn [bind].
  eexists. split; [reflexivity|]. split; [now rewrite map_length|]. intros v V. apply in_map_iff in V. destruct V as (k & <- & K).
  rewrite Forall_forall in F. destruct (to_float32_range k (F k K)) as [A B]. unfold as_dtype. split.
  - apply Qle_shift_div_l; [reflexivity|]. rewrite Qmult_0_l. change 0%Q with (inject_Z 0). now rewrite <- Zle_Qle.
  - apply Qle_shift_div_r; [reflexivity|]. rewrite Qmult_1_l. now rewrite <- Zle_Qle.
Qed.
Print Assumptions C133_float32_partial.
(** ... which is false: this seed yields 1 - 2^-53, which rounds to 1. *)
Theorem C133_float32_refuted : exists seed, - 2 ^ 63 <= seed < 2 ^ 63 /\
  exists v, random_floats_cmwc 1 seed Float32 = Ok [v] /\ (v == 1)%Q.
Proof. exists 8461270697437887767. split; [lia|]. eexists. split; vm_compute; reflexivity. Qed.
Print Assumptions C133_float32_refuted.
(** The signs are +1 or -1 according to the float64 values with the same seed, and 0 exactly where that value is 1/2 ... *)
Theorem C133_signs_partial : forall n seed, 0 < n -> exists signs vs, random_signs_cmwc n seed = Ok signs /\
  random_floats_cmwc n seed Float64 = Ok vs /\ length signs = Z.to_nat n /\
  Forall2 (fun s v => s = 1 /\ (1#2 < v)%Q \/ s = -1 /\ (v < 1#2)%Q \/ s = 0 /\ (v == 1#2)%Q) signs vs.
Proof.
  intros n seed H. destruct (sequence_ok n seed H) as (ks & E & L & F). unfold random_floats_cmwc, random_signs_cmwc. rewrite E. cbn [bind].
  do 2 eexists. split; [reflexivity|]. split; [reflexivity|]. split; [now rewrite map_length|]. clear. induction ks as [|k ks IH]; cbn [map]; constructor; [|exact IH].
  unfold as_dtype. destruct (Z.sgn_spec (k - 2 ^ 52)) as [[A ->] | [[A ->] | [A ->]]].
  - left. split; [reflexivity|]. apply Qlt_shift_div_l; [reflexivity|]. change ((1 # 2) * inject_Z (2 ^ 53))%Q with (2 ^ 53 # 2)%Q.
    unfold Qlt. cbn [Qnum Qden inject_Z]. lia.
  - right; right. split; [reflexivity|]. assert (k = 2 ^ 52) as -> by lia. reflexivity.
  - right; left. split; [reflexivity|]. apply Qlt_shift_div_r; [reflexivity|]. change ((1 # 2) * inject_Z (2 ^ 53))%Q with (2 ^ 53 # 2)%Q.
    unfold Qlt. cbn [Qnum Qden inject_Z]. lia.
Qed.
Print Assumptions C133_signs_partial.
(** ... and a value of exactly 1/2 occurs. *)
Theorem C133_signs_refuted : exists seed, - 2 ^ 63 <= seed < 2 ^ 63 /\ random_signs_cmwc 2 seed = Ok [1; 0].
Proof. exists 9125515503767732655. split; [lia|]. vm_compute. reflexivity. Qed.
Print Assumptions C133_signs_refuted.
(** Counts that use the same number of parallel sequences (at most 100 values: one) give prefixes of each other. *)
Theorem C133_prefix : forall p m n seed, 1 <= p -> 100 * (p - 1) ^ 2 < m -> m <= n -> n <= 100 * p ^ 2 ->
  forall vs, random_floats_cmwc n seed Float64 = Ok vs -> random_floats_cmwc m seed Float64 = Ok (firstn (Z.to_nat m) vs).
Proof.
  intros p m n seed P A B C vs H. unfold random_floats_cmwc in *. destruct (cmwc_random_sequence n seed) as [ks|] eqn:E; cbn [bind] in H; [|discriminate].
  injection H as <-. rewrite (sequence_prefix p m n seed ks P A B C E). cbn [bind]. now rewrite firstn_map.
Qed.
Print Assumptions C133_prefix.
(** Different numbers of parallel sequences do not: 100 and 101 values. *)
Theorem C133_prefix_refuted : exists seed a b, random_floats_cmwc 100 seed Float64 = Ok a /\ random_floats_cmwc 101 seed Float64 = Ok b /\
  ~ (nth 1 a 0 == nth 1 b 0)%Q.
Proof.
  exists 5. destruct (random_floats_cmwc 100 5 Float64) as [a|] eqn:A; [|vm_compute in A; discriminate].
  destruct (random_floats_cmwc 101 5 Float64) as [b|] eqn:B; [|vm_compute in B; discriminate].
  exists a, b. split; [reflexivity|]. split; [reflexivity|]. apply (f_equal (fun r => match r with Ok l => nth 1 l 0%Q | _ => 0%Q end)) in A, B.
  cbn beta iota in A, B. rewrite <- A, <- B. vm_compute. discriminate.
Qed.
Print Assumptions C133_prefix_refuted.
(** All seeds that are multiples of 2048 give the same values. *)
Theorem C133_seed_collision_refuted : forall n t i j, random_floats_cmwc n (2048 * i) t = random_floats_cmwc n (2048 * j) t.
Proof.
  intros n t i j. unfold random_floats_cmwc. rewrite (sequence_same n (2048 * i) (2048 * j)); [reflexivity|]. now rewrite !next_seed_multiple.
Qed.
Print Assumptions C133_seed_collision_refuted.
(** The third value is not independent of the second: for every seed its leading 21 bits are the last 21 bits of the second
    value, plus at most 1023 or minus at most 1024. *)
Theorem C133_bits_reused_refuted : forall n seed, 3 <= n <= 100 -> exists v1 v2 v3 rest k2 k3 d,
  random_floats_cmwc n seed Float64 = Ok (v1 :: v2 :: v3 :: rest) /\
  (v2 == inject_Z k2 / inject_Z (2 ^ 53))%Q /\ (v3 == inject_Z k3 / inject_Z (2 ^ 53))%Q /\
  - 1024 <= d < 1024 /\ k3 / 2 ^ 32 = (k2 + d) mod 2 ^ 21.
Proof.
  intros n seed N. destruct (third_value n seed N) as (k1 & k2 & k3 & rest & E & d & D & K). unfold random_floats_cmwc. rewrite E. cbn [bind map].
  do 4 eexists. exists k2, k3, d. split; [reflexivity|]. repeat split; try reflexivity; try tauto.
Qed.
Print Assumptions C133_bits_reused_refuted.
(** Other dtypes and non-positive counts are refused. *)
Theorem C133_refused : forall n seed t, random_floats_cmwc n seed OtherDtype = Err TypeError /\
  (n <= 0 -> t <> OtherDtype -> random_floats_cmwc n seed t = Err ValueError /\ random_signs_cmwc n seed = Err ValueError).
Proof.
  intros n seed t. split; [reflexivity|]. intros N T. unfold random_floats_cmwc, random_signs_cmwc, cmwc_random_sequence.
  destruct (Z.leb_spec n 0); [|lia]. destruct t; [split; reflexivity|split; reflexivity|congruence].
Qed.
Print Assumptions C133_refused.
(** The numerators for the seed 5, as computed by the Python code's formulas (independently evaluated). *)
Example C133_ex : cmwc_random_sequence 3 5 = Ok [2629695877309539; 2613123304833996; 6407464414889578].
Proof. vm_compute. reflexivity. Qed.
