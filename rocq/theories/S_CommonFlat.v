(** Specification vocabulary for the library's encoders behind GatherEncoder and SimpleEncoder. *)
From Coq Require Import Reals.
From Verif Require Import Base M_Tensor M_Bitpack M_Hadamard M_Encoder M_CommonEncoders S_CommonEncoders M_Dicts M_Gather M_CoreTree M_CommonFlat.
Open Scope R_scope.

(** A float tensor of shape [sh]. *)
Definition float_of (sh : list nat) (v : fval) : Prop := exists t, v = FV (F t) /\ shape t = sh /\ wf t.
(** Elementwise addition of tensors, from left to right. *)
Definition fadd (a b : fval) : fval :=
  match a, b with
  | FV (F s), FV (F t) => FV (F (mkT (shape s) (map (fun p => fst p + snd p) (combine (data s) (data t)))))
  | FV (I l), FV (I m) => FV (I (map (fun p => fst p + snd p)%Z (combine l m)))
  | _, _ => a
  end.
Definition fsum (l : list fval) : fval := match l with [] => FNone | t :: r => fold_left fadd r t end.

(** Which shapes a stage can encode: Hadamard rotation wants a non-empty vector or matrix; the constructors limit bit packing
    and quantization to 1 to 16 bits. *)
Definition accepts (k : skind) (sh : list nat) : Prop :=
  match k with
  | KIdentity | KFlatten => True
  | KHadamard => (exists d, sh = [d] /\ d <> O) \/ (exists b d, sh = [b; d] /\ b <> O /\ d <> O)
  | KUniform bits mm _ => (1 <= bits <= 16)%nat
  | KBitpack bits _ => (1 <= bits <= 16)%nat
  end.
(** The shape of what it hands to an encoder underneath. *)
Definition passes_on (k : skind) (sh : list nat) : list nat :=
  match k with
  | KIdentity | KUniform _ _ _ | KBitpack _ _ => sh
  | KFlatten => [prod sh]
  | KHadamard => match sh with [d] => [1%nat; (2 ^ Nat.log2_up d)%nat] | [b; d] => [b; (2 ^ Nat.log2_up d)%nat] | _ => sh end
  end.
(** A tree of library stages, composed at the keys the composer allows, for inputs of shape [sh]. *)
Inductive lib_tree : ftree -> list nat -> Prop :=
| LT k kids sh : accepts k sh -> NoDup (dkeys kids) ->
    (forall key c, In (key, c) kids -> In key (compressible k) /\ lib_tree c (passes_on k sh)) -> lib_tree (AEnc (as_adaptive (lib_stage k)) kids) sh.

(** Draws of tf.random.stateless_uniform: in [0, 1). *)
Definition unit_draws (w : list string -> nat -> R) : Prop := forall p i, 0 <= w p i < 1.
(** [y] is [x] up to [bits]-bit quantization on the range that [given] (or the data of [x]) determines: every entry is within one
    step of the entry of [x] moved into the range, within half a step without randomness, exact at the ends of the range. *)
Definition quantized (bits : nat) (stochastic : bool) (given : option (list R)) (x y : fval) : Prop :=
  exists tx ty lo hi, x = FV (F tx) /\ y = FV (F ty) /\ shape ty = shape tx /\ wf ty /\ working_rangeR given (data tx) lo hi /\
  let step := (hi - lo) / IZR (2 ^ Z.of_nat bits - 1) in
  forall i, (i < prod (shape tx))%nat -> exists c, clipped_toR lo hi (nth i (data tx) 0) c /\
    (lo < hi -> Rabs (nth i (data ty) 0 - c) < step) /\ (stochastic = false -> Rabs (nth i (data ty) 0 - c) <= 1/2 * step) /\ (c = lo \/ c = hi -> nth i (data ty) 0 = c).
(** [y] is [x] up to [bits]-bit quantization after rotation: the Euclidean error is bounded by the norm of [x]. *)
Definition quantized_rotated (bits : nat) (x y : fval) : Prop :=
  exists tx ty, x = FV (F tx) /\ y = FV (F ty) /\ shape ty = shape tx /\ wf ty /\
  dist2 (data ty) (data tx) <= sqrt (INR (2 ^ Nat.log2_up (prod (shape tx)))) * (2 * norm2 (data tx)) / IZR (2 ^ Z.of_nat bits - 1).
(** Which stages' decoding can wait until after the sum: all but bit packing and quantization on a range taken from the data. *)
Definition waits_for_sum (k : skind) : Prop :=
  match k with KIdentity | KFlatten | KHadamard => True | KUniform _ mm _ => mm <> None | KBitpack _ _ => False end.
