(** Elementwise encoding stages.  Sources: internal/tensor_encoding/stages/stages_impl.py:236-398
    (UniformQuantization), stages/research/quantization.py:27-165 (PRNGUniformQuantization), stages/research/misc.py
    (SplitBySmallValue, DifferenceBetweenIntegers), stages/research/clipping.py.  Exact rational arithmetic; tensors as
    flat lists where the stage is elementwise. *)
From Verif Require Import Base M_Num.
Open Scope Q_scope.

(** tf.reduce_min / tf.reduce_max of a non-empty tensor. *)
Fixpoint lmin (a : Q) (l : list Q) : Q := match l with [] => a | b :: r => qmin a (lmin b r) end.
Fixpoint lmax (a : Q) (l : list Q) : Q := match l with [] => a | b :: r => qmax a (lmax b r) end.
Definition reduce_min (l : list Q) : Q := match l with [] => 0 | a :: r => lmin a r end.
Definition reduce_max (l : list Q) : Q := match l with [] => 0 | a :: r => lmax a r end.
(** tf.clip_by_value. *)
Definition clip (lo hi x : Q) : Q := qmin hi (qmax lo x).
(** tf.compat.v1.div_no_nan. *)
Definition div_no_nan (a b : Q) : Q := if Qeq_bool b 0 then 0 else a / b.
(** stages_impl.py:325-326: 2**bits - 1. *)
Definition max_value (bits : nat) : Q := inject_Z (2 ^ Z.of_nat bits - 1).

(** stages_impl.py:279-302 [UniformQuantizationEncodingStage.__init__], Python arguments. *)
Record uq_stage := mkUQ { uq_bits : nat; uq_min_max : option (Q * Q); uq_stochastic : bool }.
Definition mk_uq (bits : nat) (min_max : option (list Q)) (stochastic : bool) : res uq_stage :=
  if negb ((1 <=? bits) && (bits <=? 16))%nat then Err ValueError
  else match min_max with
       | None => Ok (mkUQ bits None stochastic)
       | Some [a; b] => if Qle_bool b a then Err ValueError else Ok (mkUQ bits (Some (a, b)) stochastic)
       | Some _ => Err ValueError
       end.

(** Rounding, stages_impl.py:350-367: floor + (u < residual), or round half to even. *)
Definition quantize_one (stochastic : bool) (u x : Q) : Q :=
  if stochastic then inject_Z (Qfloor x) + b2q (qltb u (x - inject_Z (Qfloor x)))
  else inject_Z (round_half_even x).

(** stages_impl.py:333-373 [encode]; [u i] is the i-th uniform draw of tf.random.uniform. *)
Definition uq_range (s : uq_stage) (x : list Q) : Q * Q :=
  match uq_min_max s with Some r => r | None => (reduce_min x, reduce_max x) end.
Definition uq_clip (s : uq_stage) (v : Q) : Q :=
  match uq_min_max s with Some (lo, hi) => clip lo hi v | None => v end.
Definition uq_scale (bits : nat) (lo hi v : Q) : Q := div_no_nan (v - lo) (hi - lo) * max_value bits.
Definition uq_encode (s : uq_stage) (u : nat -> Q) (x : list Q) : list Q * option (Q * Q) :=
  let '(lo, hi) := uq_range s x in
  (map (fun iv => quantize_one (uq_stochastic s) (u (fst iv)) (uq_scale (uq_bits s) lo hi (uq_clip s (snd iv))))
       (combine (seq 0 (length x)) x),
   match uq_min_max s with Some _ => None | None => Some (lo, hi) end).

(** stages_impl.py:307-314 [commutes_with_sum]. *)
Definition uq_commutes (s : uq_stage) : bool := match uq_min_max s with Some _ => true | None => false end.

(** stages_impl.py:375-398 [decode]. *)
Definition uq_decode (s : uq_stage) (enc : list Q * option (Q * Q)) (num_summands : option Z) : res (list Q) :=
  match (match uq_min_max s with Some r => Some r | None => snd enc end) with
  | None => Err KeyError
  | Some (lo, hi) =>
      let shift := match num_summands with
                   | Some n => if uq_commutes s then lo * inject_Z n else lo
                   | None => lo end in
      Ok (map (fun q => q / max_value (uq_bits s) * (hi - lo) + shift) (fst enc))
  end.

(** research/quantization.py:97-165 [PRNGUniformQuantizationEncodingStage]; encode and decode see the same draws
    because they share the seed. *)
Definition prng_encode (bits : nat) (u : nat -> Q) (x : list Q) : list Q * (Q * Q) :=
  let lo := reduce_min x in let hi := reduce_max x in
  (map (fun iv => quantize_one true (u (fst iv)) (uq_scale bits lo hi (snd iv))) (combine (seq 0 (length x)) x), (lo, hi)).
Definition prng_decode (bits : nat) (u : nat -> Q) (enc : list Q * (Q * Q)) : list Q :=
  let '(q, (lo, hi)) := enc in
  map (fun iq => (snd iq + u (fst iq) - (1#2)) / max_value bits * (hi - lo) + lo) (combine (seq 0 (length q)) q).

(** research/misc.py:78-108 [SplitBySmallValueEncodingStage] on a vector: indices of the entries of magnitude above the
    threshold, and their values; decode scatters into zeros. *)
Definition split_encode (threshold : Q) (x : list Q) : list nat * list Q :=
  let keep := filter (fun iv => qltb threshold (Qabs (snd iv))) (combine (seq 0 (length x)) x) in
  (map fst keep, map snd keep).
(** tf.SparseTensor + tf.sparse.to_dense: value at i, 0 elsewhere; out of range indices are an error. *)
Definition scatter (n : nat) (idx : list nat) (vals : list Q) : list Q :=
  map (fun i => match find (fun p => Nat.eqb (fst p) i) (combine idx vals) with Some p => snd p | None => 0 end) (seq 0 n).
Definition split_decode (enc : list nat * list Q) (n : nat) : res (list Q) :=
  if forallb (fun i => (i <? n)%nat) (fst enc) then Ok (scatter n (fst enc) (snd enc)) else Err InvalidArgument.

(** research/misc.py:151-173 [DifferenceBetweenIntegersEncodingStage] on w-bit two's complement integers: subtraction
    and cumsum wrap around. *)
Definition wrap (w : nat) (z : Z) : Z :=
  let m := (2 ^ Z.of_nat w)%Z in let r := (z mod m)%Z in if (r <? 2 ^ (Z.of_nat w - 1))%Z then r else (r - m)%Z.
Fixpoint diff_from (w : nat) (prev : Z) (x : list Z) : list Z :=
  match x with [] => [] | a :: r => wrap w (a - prev) :: diff_from w a r end.
Definition diff_encode (w : nat) (x : list Z) : list Z := diff_from w 0 x.
Fixpoint cumsum_from (w : nat) (acc : Z) (x : list Z) : list Z :=
  match x with [] => [] | a :: r => let s := wrap w (acc + a) in s :: cumsum_from w s r end.
Definition diff_decode (w : nat) (d : list Z) : list Z := cumsum_from w 0 d.
