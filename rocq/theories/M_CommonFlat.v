(** The library's encoding stages as they meet GatherEncoder and SimpleEncoder: the methods of M_CommonEncoders' stages on
    dictionaries of Python values and tensors, and the ready-made encoders as trees of M_CoreTree.
    Sources: internal/tensor_encoding/stages/stages_impl.py:24-502, encoders/common_encoders.py:82-137,
    core/core_encoder.py:535-548. *)
From Coq Require Import Reals.
From Verif Require Import Base M_Tensor M_Bitpack M_Hadamard M_Encoder M_Composer M_CommonEncoders M_Dicts M_Gather M_CoreTree.
Open Scope R_scope.

(** Values: tensors, the static shape of a tensor, numeric parameters (max_value, min_max), the seed of a random stream
    (standing for the stream generated from it), None. *)
Inductive fval := FV (t : ten) | FShape (s : list nat) | FPar (l : list R) | FSeed (u : nat -> R) | FNone.
(** tf.TensorSpec: dtype and shape.  The element count tells well-formed tensors (count = product of the shape) from others,
    which do not exist in TensorFlow. *)
Inductive fspec := SFloat (s : list nat) (n : nat) | SInt (n : nat) | SShape (n : nat) | SPar (n : nat) | SSeed | SNone.
Definition fspec_of (v : fval) : fspec :=
  match v with FV (F t) => SFloat (shape t) (List.length (data t)) | FV (I l) => SInt (List.length l) | FShape s => SShape (List.length s) | FPar l => SPar (List.length l) | FSeed _ => SSeed | FNone => SNone end.
Definition fspec_dec (a b : fspec) : {a = b} + {a <> b}.
Proof. decide equality; try apply Nat.eq_dec; apply (list_eq_dec Nat.eq_dec). Defined.
(** TensorSpec.is_compatible_with, concrete specs. *)
Definition fcompatible (s : fspec) (v : fval) : bool := if fspec_dec s (fspec_of v) then true else false.
Definition fis_none (v : fval) : bool := match v with FNone => true | _ => false end.
Definition fshape_of (v : fval) : fval := match v with FV t => FShape (ten_shape t) | _ => FShape [] end.
(** A tensor argument. *)
Definition tens (v : fval) : res ten :=
  match v with FV (F t) => if Nat.eqb (List.length (data t)) (prod (shape t)) then Ok (F t) else Err TypeError | FV (I l) => Ok (I l) | _ => Err TypeError end.

(** The keys of encoded_tensors that decode looks up: stages_impl.py:66, 111, 192, 380-388 (min_max only when it is no parameter), 493-496. *)
Definition reads (k : skind) : list string :=
  match k with
  | KIdentity => ["identity_values"%string] | KFlatten => ["flattened_values"%string] | KHadamard => ["hadamard_values"%string]
  | KUniform _ None _ => ["quantized_values"%string; "min_max"%string] | KUniform _ (Some _) _ => ["quantized_values"%string] | KBitpack _ _ => ["bitpacked_values"%string]
  end.
Fixpoint pick (ks : list string) (d : dict fval) : res (dict ten) :=
  match ks with [] => Ok [] | k :: r => do rest <- pick r d ;; match dget k d with None => Ok rest | Some v => do t <- tens v ;; Ok ((k, t) :: rest) end end.
Fixpoint pick_params (ks : list string) (p : dict fval) : dict (list R) :=
  match ks with [] => [] | k :: r => match dget k p with Some (FPar l) => (k, l) :: pick_params r p | _ => pick_params r p end end.

(** get_params: 49-52, 98-100, 167-173 (a tensor: the seed), 325-331 (Python values), 461-464. *)
Definition lib_params (k : skind) (w : nat -> R) : dict (leaf fval) :=
  match k with
  | KHadamard => [("seed"%string, (true, FSeed w))]
  | KUniform b mm _ => map (fun kv => (fst kv, (false, FPar (snd kv)))) (uq_params b mm)
  | _ => []
  end.
(** The parameters as M_CommonEncoders' stages take them; uniform quantization draws in encode (359-366). *)
Definition lib_prm (k : skind) (w : nat -> R) (p : dict fval) : res prm :=
  match k with
  | KHadamard => do s <- dindex "seed" p ;; match s with FSeed u => Ok (mkPrm [] u) | _ => Err TypeError end
  | KUniform _ _ _ => Ok (mkPrm (pick_params ["max_value"%string; "min_max"%string] p) w)
  | _ => Ok (mkPrm [] no_draws)
  end.
Definition lib_encode (k : skind) (w : nat -> R) (x : fval) (p : dict fval) : res (dict fval) :=
  do t <- tens x ;; do pr <- lib_prm k w p ;; do e <- s_encode (to_stage k) t pr ;; Ok (map (fun kt => (fst kt, FV (snd kt))) e).
Definition shape_arg (sh : option fval) : res (option (list nat)) :=
  match sh with None => Ok None | Some (FShape s) => Ok (Some s) | Some _ => Err TypeError end.
Definition lib_decode (k : skind) (d p : dict fval) (n : option Z) (sh : option fval) : res fval :=
  do ts <- pick (reads k) d ;; do pr <- lib_prm k no_draws p ;; do s <- shape_arg sh ;; do y <- s_decode (to_stage k) ts pr n s ;; Ok (FV y).
Definition lib_stage (k : skind) : pstage fval (nat -> R) :=
  mkPStage (s_commutes (to_stage k)) (s_needs_shape (to_stage k)) (fun w => Ok (lib_params k w, lib_params k w)) (lib_encode k) (lib_decode k).

(** core_encoder.py:535-548 [make] with as_adaptive_encoding_stage (477-488). *)
Definition ftree := aenc fval string (nat -> R).
Fixpoint make_flat (fuel : nat) (h : heap skind) (i : nat) : res ftree :=
  match fuel with
  | O => Err RuntimeError
  | S f => match nth_error h i with
           | None => Err AttributeError
           | Some (k, kids) => do cs <- mapM (fun kc => do c <- make_flat f h (snd kc) ;; Ok (fst kc, c)) kids ;; Ok (AEnc (as_adaptive (lib_stage k)) cs)
           end
  end.
(** common_encoders.py:82-85, 88-112, 115-137. *)
Definition flat_identity : res ftree := let '(h, i) := new_composer [] KIdentity in make_flat (List.length h) h i.
Definition flat_uniform (bits : nat) (min_max : option (list R)) (stochastic static : bool) : res ftree :=
  do (h, i) <- compose_uniform bits min_max stochastic static ;; make_flat (List.length h) h i.
Definition flat_hadamard (bits : nat) (static : bool) : res ftree := do (h, i) <- compose_hadamard bits static ;; make_flat (List.length h) h i.
Definition fcore (e : ftree) : @core fval string (list string -> nat -> R) := core_of fis_none FNone fshape_of e.
