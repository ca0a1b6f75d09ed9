(** Reuse of random bits between consecutive values. *)
From Verif Require Import Base M_Num M_Cmwc L_Num L_Cmwc.
From Coq Require Import ZArith Lia.
Open Scope Z_scope.

Lemma wrap_eq z : exists m, wrap64 z = z + m * 2 ^ 64.
Proof. unfold wrap64. exists (- ((z + 2 ^ 63) / 2 ^ 64)). pose proof (Z.div_mod (z + 2 ^ 63) (2 ^ 64)). lia. Qed.
Lemma wrap_range z : - 2 ^ 63 <= wrap64 z < 2 ^ 63.
Proof. unfold wrap64. pose proof (Z.mod_pos_bound (z + 2 ^ 63) (2 ^ 64)). lia. Qed.
Lemma lor_add h q : 0 <= q < 2 ^ 32 -> Z.lor (h * 2 ^ 32) q = h * 2 ^ 32 + q.
Proof.
  intros Q. assert (Z.land (h * 2 ^ 32) q = 0) as E.
  2:{ rewrite Z.add_nocarry_lxor by exact E. symmetry. now apply Z.lxor_lor. }
  apply Z.bits_inj'. intros i Hi. rewrite Z.land_spec, Z.bits_0. destruct (Z.lt_ge_cases i 32).
  - rewrite Z.mul_pow2_bits_low by lia. reflexivity.
  - apply andb_false_intro2. destruct (Z.eq_dec q 0) as [-> | NZ]; [apply Z.bits_0|]. apply Z.bits_above_log2; [lia|].
    apply Z.lt_le_trans with 32; [apply Z.log2_lt_pow2; lia|auto].
Qed.
Lemma step_f l : exists h q, 0 <= q < 2 ^ 32 /\ (exists m, h = ln_f l + m * 2 ^ 32) /\ - 2 ^ 31 <= h < 2 ^ 31 /\ ln_f (lane_step l) = h * 2 ^ 32 + q.
Proof.
  unfold lane_step. cbn [ln_f]. set (q := Z.land _ _).
  assert (0 <= q < 2 ^ 32) as Q. { unfold q. change (cm_b - 1) with (Z.ones 32). rewrite Z.land_ones by lia. apply Z.mod_pos_bound. lia. }
  rewrite Z.shiftl_mul_pow2 by lia. destruct (wrap_eq (ln_f l * 2 ^ 32)) as [m M].
  pose proof (wrap_range (ln_f l * 2 ^ 32)) as Rg. rewrite M in *. replace (ln_f l * 2 ^ 32 + m * 2 ^ 64) with ((ln_f l + m * 2 ^ 32) * 2 ^ 32) in * by ring.
  exists (ln_f l + m * 2 ^ 32), q. split; [auto|]. split; [eauto|]. split; [lia|]. now apply lor_add.
Qed.
Lemma value_mod l : lane_value l = ln_f l mod 2 ^ 53.
Proof. unfold lane_value. change (2 ^ 53 - 1) with (Z.ones 53). now rewrite Z.land_ones by lia. Qed.
Lemma mod_high h q : 0 <= q < 2 ^ 32 -> ((h * 2 ^ 32 + q) mod 2 ^ 53) / 2 ^ 32 = h mod 2 ^ 21.
Proof.
  intros Q. pose proof (Z.div_mod h (2 ^ 21) ltac:(lia)). pose proof (Z.mod_pos_bound h (2 ^ 21) ltac:(lia)).
  assert ((h * 2 ^ 32 + q) mod 2 ^ 53 = h mod 2 ^ 21 * 2 ^ 32 + q) as ->.
  { symmetry. apply Z.mod_unique with (h / 2 ^ 21); lia. }
  symmetry. apply Z.div_unique_pos with q; lia.
Qed.
Lemma mod_mod_add f d : (f mod 2 ^ 53 + d) mod 2 ^ 21 = (f + d) mod 2 ^ 21.
Proof.
  pose proof (Z.div_mod f (2 ^ 53) ltac:(lia)). rewrite <- (Z_mod_plus_full (f mod 2 ^ 53 + d) (f / 2 ^ 53 * 2 ^ 32) (2 ^ 21)). f_equal. lia.
Qed.
Lemma overlap l : - 2 ^ 63 <= ln_f l < 2 ^ 63 ->
  exists d, - 1024 <= d < 1024 /\ lane_value (lane_step (lane_shift l)) / 2 ^ 32 = (lane_value l + d) mod 2 ^ 21.
Proof.
  intros F. exists (ln_f l / 2 ^ 53). split; [pose proof (Z.div_mod (ln_f l) (2 ^ 53) ltac:(lia)); pose proof (Z.mod_pos_bound (ln_f l) (2 ^ 53) ltac:(lia)); lia|].
  rewrite !value_mod. destruct (step_f (lane_shift l)) as (h & q & Q & (m & M) & _ & ->). rewrite mod_high, mod_mod_add by auto. subst h.
  cbn [lane_shift ln_f]. rewrite Z.shiftr_div_pow2 by lia. destruct (wrap_eq (ln_f l + ln_f l / 2 ^ 53)) as [m2 ->].
  rewrite <- (Z_mod_plus_full (ln_f l + ln_f l / 2 ^ 53) (m2 * 2 ^ 43 + m * 2 ^ 11) (2 ^ 21)). f_equal. ring.
Qed.
Lemma step_range l : - 2 ^ 63 <= ln_f (lane_step l) < 2 ^ 63.
Proof. destruct (step_f l) as (h & q & Q & _ & H & ->). lia. Qed.
Lemma third seed : exists k1 k2 k3, cmwc_random_sequence 3 seed = Ok [k1; k2; k3] /\
  exists d, - 1024 <= d < 1024 /\ k3 / 2 ^ 32 = (k2 + d) mod 2 ^ 21.
Proof.
  unfold cmwc_random_sequence. change (3 <=? 0) with false. cbv iota zeta.
  change (Z.to_nat (num_iters 3)) with 4%nat. change (Z.to_nat (parallelism 3)) with 1%nat. change (2 * 4 + 1)%nat with 9%nat.
  cbn [seeds map]. set (l0 := mkLane 0 _ _). 
  do 7 (rewrite loop_S; match goal with |- context [if ?b then _ else _] => let r := eval vm_compute in b in change b with r end; cbv iota; cbn [map]).
  cbn [cmwc_loop bind]. do 3 eexists. split; [reflexivity|]. apply overlap, step_range.
Qed.
Lemma third_value n seed : 3 <= n <= 100 -> exists k1 k2 k3 rest, cmwc_random_sequence n seed = Ok (k1 :: k2 :: k3 :: rest) /\
  exists d, - 1024 <= d < 1024 /\ k3 / 2 ^ 32 = (k2 + d) mod 2 ^ 21.
Proof.
  intros N. destruct (sequence_ok n seed ltac:(lia)) as (ks & E & L & _). pose proof (sequence_prefix 1 3 n seed ks ltac:(lia) ltac:(lia) ltac:(lia) ltac:(lia) E) as P.
  destruct (third seed) as (k1 & k2 & k3 & T & D). rewrite T in P. injection P as P. change (Z.to_nat 3) with 3%nat in P.
  destruct ks as [|a [|b [|c rest]]]; try discriminate. injection P as -> -> ->. exists a, b, c, rest. auto.
Qed.
