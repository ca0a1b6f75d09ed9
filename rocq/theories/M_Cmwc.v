(** The deterministic pseudo-random generator (complementary multiply with carry).
    Source: internal/tensor_encoding/utils/tf_utils.py:117-223, 272-284.  Integers are tf.int64, two's complement: every result
    is wrapped.  Values are kept as the integer numerator of a multiple of 2^-53 until the final cast.  Simplifications:
    [math.ceil(math.sqrt(n) / 10)] is computed without floating-point rounding; the Python-type checks (num_elements an int,
    seed an int64 tensor) are the Coq types. *)
From Verif Require Import Base M_Num.
From Coq Require Import ZArith.
Open Scope Z_scope.

(** tf.int64 arithmetic. *)
Definition wrap64 (z : Z) : Z := (z + 2 ^ 63) mod 2 ^ 64 - 2 ^ 63.
(** tf_utils.py:156-169: constants a, b, logb, val_53. *)
Definition cm_a : Z := 3636507990.
Definition cm_b : Z := 2 ^ 32.
(** tf_utils.py:151-152. *)
Definition parallelism (n : Z) : Z := (Z.sqrt_up n + 9) / 10.
Definition num_iters (n : Z) : Z := n / parallelism n + 1.
(** tf_utils.py:174-183 [next_seed_fn] and its loop: the starting seeds of the parallel sequences. *)
Definition next_seed (v : Z) : Z := wrap64 (v ^ 7 + v ^ 6 + 1).
Fixpoint seeds (count : nat) (v : Z) : list Z :=
  match count with O => [] | S k => next_seed v :: seeds k (next_seed v) end.
(** One lane's loop state: f, q, c. *)
Record lane := mkLane { ln_f : Z; ln_q : Z; ln_c : Z }.
(** tf_utils.py:186-194 [cmwc_step], up to the conditional. *)
Definition lane_step (l : lane) : lane :=
  let t := wrap64 (cm_a * ln_q l + ln_c l) in
  let c := wrap64 (cm_b - 1 - Z.shiftr t 32) in
  let q := Z.land t (cm_b - 1) in
  mkLane (Z.lor (wrap64 (Z.shiftl (ln_f l) 32)) q) q c.
(** tf_utils.py:195-203 [add_val]: the value written and the new f. *)
Definition lane_value (l : lane) : Z := Z.land (ln_f l) (2 ^ 53 - 1).
Definition lane_shift (l : lane) : lane := mkLane (wrap64 (ln_f l + Z.shiftr (ln_f l) 53)) (ln_q l) (ln_c l).
(** tf_utils.py:204-216: the while loop.  [todo] is num_iters - num; the rows written are returned in order.  [fuel] bounds the
    number of iterations (TensorFlow has no such bound): [Err RuntimeError] would mean that it is too small. *)
Fixpoint cmwc_loop (fuel : nat) (todo : nat) (bits : Z) (ls : list lane) : res (list (list Z)) :=
  match todo with
  | O => Ok []
  | S todo' =>
    match fuel with
    | O => Err RuntimeError
    | S fuel' =>
      let ls := map lane_step ls in
      let bits := bits + 32 in
      if 53 <=? bits
      then do rest <- cmwc_loop fuel' todo' (bits - 53) (map lane_shift ls) ;; Ok (map lane_value ls :: rest)
      else cmwc_loop fuel' todo bits ls
    end
  end.
(** tf_utils.py:141-223 [_cmwc_random_sequence]: numerators over 2^53; rows stacked, flattened, the first [n] kept. *)
Definition cmwc_random_sequence (n seed : Z) : res (list Z) :=
  if n <=? 0 then Err ValueError
  else
    let iters := Z.to_nat (num_iters n) in
    let q := seeds (Z.to_nat (parallelism n)) seed in
    do rows <- cmwc_loop (2 * iters + 1) iters 0 (map (fun v => mkLane 0 v v) q) ;;
    Ok (firstn (Z.to_nat n) (concat rows)).

(** The dtype argument. *)
Inductive fdtype := Float32 | Float64 | OtherDtype.
(** tf.cast of k / 2^53 to float32: 24 significant bits, ties to even. *)
Definition to_float32 (k : Z) : Z :=
  if k <? 2 ^ 24 then k
  else let s := Z.log2 k - 23 in round_half_even (inject_Z k / inject_Z (2 ^ s)) * 2 ^ s.
Definition as_dtype (t : fdtype) (k : Z) : Q :=
  (inject_Z (match t with Float32 => to_float32 k | _ => k end) / inject_Z (2 ^ 53))%Q.
(** tf_utils.py:278-284 [random_floats_cmwc]. *)
Definition random_floats_cmwc (n seed : Z) (t : fdtype) : res (list Q) :=
  match t with
  | OtherDtype => Err TypeError
  | _ => do ks <- cmwc_random_sequence n seed ;; Ok (map (as_dtype t) ks)
  end.
(** tf_utils.py:272-275 [random_signs_cmwc]: tf.sign(sequence - 0.5), exact in any dtype. *)
Definition random_signs_cmwc (n seed : Z) : res (list Z) :=
  do ks <- cmwc_random_sequence n seed ;; Ok (map (fun k => Z.sgn (k - 2 ^ 52)) ks).
