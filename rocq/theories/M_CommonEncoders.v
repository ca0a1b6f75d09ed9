(** The ready-made encoders and the stages they are composed of, as values of the generic encoder tree.  Sources:
    internal/tensor_encoding/encoders/common_encoders.py:82-137, stages/stages_impl.py.  Real arithmetic (exact); the
    Hadamard stage is the one of M_Hadamard, bit packing the one of M_Bitpack, composing the one of M_Composer.
    The random numbers a stage draws (in get_params or, for uniform quantization, in encode) come with the state. *)
From Coq Require Import Reals.
From Verif Require Import Base M_Tensor M_Bitpack M_Hadamard M_Encoder M_Composer.
Open Scope R_scope.

(** Tensors: float or int32 (only bit packing makes the latter, always of rank 1). *)
Inductive ten := F (t : tensor R) | I (v : list Z).
Definition ten_shape (t : ten) : list nat := match t with F t => shape t | I v => [List.length v] end.
(** Parameters of a stage: the dictionary of get_params, and the draws. *)
Record prm := mkPrm { p_dict : dict (list R); p_draws : nat -> R }.
Definition no_draws : nat -> R := fun _ => 0.
Definition float (t : ten) : res (tensor R) := match t with F t => Ok t | I _ => Err TypeError end.
Definition ints (t : ten) : res (list Z) := match t with I v => Ok v | F _ => Err TypeError end.
Definition cstage := @stage ten prm (list nat) (nat -> R).
Definition cencoder := @encoder ten prm (list nat) (nat -> R).

(** * Real versions of the scalar operations *)
(** tf.reduce_min, tf.reduce_max of a non-empty tensor; tf.clip_by_value; tf.compat.v1.div_no_nan; tf.round. *)
Definition minR (l : list R) : R := match l with [] => 0 | a :: r => fold_left Rmin r a end.
Definition maxR (l : list R) : R := match l with [] => 0 | a :: r => fold_left Rmax r a end.
Definition clip_by_value (lo hi x : R) : R := Rmax lo (Rmin hi x).
Definition div_no_nanR (a b : R) : R := if Req_EM_T b 0 then 0 else a / b.
Definition floorR (x : R) : Z := Int_part x.
Definition round_even (x : R) : Z :=
  let f := floorR x in
  if Rlt_dec (x - IZR f) (1/2) then f else if Rlt_dec (1/2) (x - IZR f) then (f + 1)%Z else if Z.even f then f else (f + 1)%Z.
(** tf.cast to an integer type truncates towards zero. *)
Definition truncR (x : R) : Z := if Rle_dec 0 x then floorR x else (- floorR (- x))%Z.

(** * Stages *)
Inductive skind := KIdentity | KFlatten | KHadamard | KUniform (bits : nat) (min_max : option (R * R)) (stochastic : bool)
  | KBitpack (bits : nat) (static : bool).
(** compressible_tensors_keys: stages_impl.py:36-38, 82-84, 157-159, 309-311, 448-450. *)
Definition compressible (k : skind) : list string :=
  match k with
  | KIdentity => ["identity_values"%string] | KFlatten => ["flattened_values"%string] | KHadamard => ["hadamard_values"%string]
  | KUniform _ _ _ => ["quantized_values"%string] | KBitpack _ _ => []
  end.
(** stages_impl.py:261-302 and 418-441: what the constructors accept (Python arguments). *)
Definition new_uniform (bits : nat) (min_max : option (list R)) (stochastic : bool) : res skind :=
  if negb ((1 <=? bits) && (bits <=? 16))%nat then Err ValueError
  else match min_max with
       | None => Ok (KUniform bits None stochastic)
       | Some [a; b] => if Rle_dec b a then Err ValueError else Ok (KUniform bits (Some (a, b)) stochastic)
       | Some _ => Err ValueError
       end.
Definition new_bitpack (bits : nat) (static : bool) : res skind :=
  if ((1 <=? bits) && (bits <=? 16))%nat then Ok (KBitpack bits static) else Err ValueError.

(** stages_impl.py:24-64 IdentityEncodingStage. *)
Definition identity_stage : cstage :=
  mkStage true false (fun _ => (mkPrm [] no_draws, mkPrm [] no_draws))
    (fun x _ => Ok [("identity_values"%string, x)]) (fun d _ _ _ => dindex "identity_values" d).
(** 67-112 FlattenEncodingStage: reshape to [-1] and back. *)
Definition flatten_stage : cstage :=
  mkStage true true (fun _ => (mkPrm [] no_draws, mkPrm [] no_draws))
    (fun x _ => do t <- float x ;; Ok [("flattened_values"%string, F (mkT [List.length (data t)] (data t)))])
    (fun d _ _ sh => do x <- dindex "flattened_values" d ;; do t <- float x ;; do s <- need sh ;; do y <- reshape t s ;; Ok (F y)).
(** 115-233 HadamardEncodingStage: tensors as inputs and outputs of M_Hadamard. *)
Definition to_hinput (t : tensor R) : hinput :=
  match shape t with [_] => Vec (data t) | [_; d] => Mat d (chunks d (data t)) | _ => OtherRank end.
Definition of_hinput (x : hinput) : res (tensor R) :=
  match x with Vec v => Ok (mkT [List.length v] v) | Mat d rows => Ok (mkT [List.length rows; d] (List.concat rows)) | OtherRank => Err ValueError end.
Definition hadamard_stage : cstage :=
  mkStage true true (fun u => (mkPrm [] u, mkPrm [] u))
    (fun x p => do t <- float x ;; do rows <- hadamard_encode (p_draws p) (to_hinput t) ;;
                Ok [("hadamard_values"%string, F (mkT [List.length rows; match rows with r :: _ => List.length r | [] => O end] (List.concat rows)))])
    (fun d p _ sh => do x <- dindex "hadamard_values" d ;; do t <- float x ;; do s <- need sh ;;
                     match shape t with
                     | [_; pd] => do y <- hadamard_decode (p_draws p) (chunks pd (data t)) (List.last s O, List.length s) ;; do r <- of_hinput y ;; Ok (F r)
                     | _ => Err ValueError
                     end).
(** 325-331 get_params: max_value, and min_max if given. *)
Definition uq_params (bits : nat) (min_max : option (R * R)) : dict (list R) :=
  (("max_value"%string, [IZR (2 ^ Z.of_nat bits - 1)]) ::
   match min_max with Some (lo, hi) => [("min_max"%string, [lo; hi])] | None => [] end).
(** 333-373 encode. *)
Definition quantize1 (stochastic : bool) (u x : R) : R :=
  if stochastic then IZR (floorR x) + (if Rlt_dec u (x - IZR (floorR x)) then 1 else 0) else IZR (round_even x).
Definition uq_encode (stochastic : bool) (x : tensor R) (p : prm) : res (dict ten) :=
  do mv <- dindex "max_value" (p_dict p) ;;
  let given := dget "min_max" (p_dict p) in
  let lo := match given with Some mm => nth 0 mm 0 | None => minR (data x) end in
  let hi := match given with Some mm => nth 1 mm 0 | None => maxR (data x) end in
  let x1 := match given with Some _ => tmap (clip_by_value lo hi) x | None => x end in
  let scaled := map (fun v => div_no_nanR (v - lo) (hi - lo) * nth 0 mv 0) (data x1) in
  let q := map (fun iv => quantize1 stochastic (p_draws p (fst iv)) (snd iv)) (combine (seq 0 (List.length scaled)) scaled) in
  Ok (("quantized_values"%string, F (mkT (shape x) q)) :: match given with Some _ => [] | None => [("min_max"%string, F (mkT [2%nat] [lo; hi]))] end).
(** 375-398 decode. *)
Definition uq_decode (commutes : bool) (d : dict ten) (p : prm) (num_summands : option Z) : res ten :=
  do x <- dindex "quantized_values" d ;; do q <- float x ;;
  do mm <- (match dget "min_max" (p_dict p) with Some mm => Ok mm | None => do t <- dindex "min_max" d ;; do t <- float t ;; Ok (data t) end) ;;
  do mv <- dindex "max_value" (p_dict p) ;;
  let lo := nth 0 mm 0 in let hi := nth 1 mm 0 in
  let shift := match num_summands with Some n => if commutes then lo * IZR n else lo | None => lo end in
  Ok (F (tmap (fun v => v / nth 0 mv 0 * (hi - lo) + shift) q)).
Definition uniform_stage (bits : nat) (min_max : option (R * R)) (stochastic : bool) : cstage :=
  let c := match min_max with Some _ => true | None => false end in      (* 313-320 commutes_with_sum *)
  mkStage c false (fun u => (mkPrm (uq_params bits min_max) u, mkPrm (uq_params bits min_max) no_draws))
    (fun x p => do t <- float x ;; uq_encode stochastic t p)
    (fun d p n _ => uq_decode c d p n).
(** 401-502 BitpackingEncodingStage, float32 inputs. *)
Definition bitpack_stage (bits : nat) (static : bool) : cstage :=
  mkStage false true (fun _ => (mkPrm [] no_draws, mkPrm [] no_draws))
    (fun x _ => do t <- float x ;; do v <- bitpack_encode bits static (tmap truncR t) ;; Ok [("bitpacked_values"%string, I v)])
    (fun d _ _ sh => do x <- dindex "bitpacked_values" d ;; do v <- ints x ;; do s <- need sh ;; do t <- bitpack_decode bits v s ;; Ok (F (tmap IZR t))).
Definition to_stage (k : skind) : cstage :=
  match k with
  | KIdentity => identity_stage | KFlatten => flatten_stage | KHadamard => hadamard_stage
  | KUniform b mm st => uniform_stage b mm st | KBitpack b s => bitpack_stage b s
  end.

(** * Encoders *)
Definition finish (h : heap skind) (i : nat) : res cencoder := make (List.length h) (map (fun n => (to_stage (fst n), snd n)) h) i.
(** common_encoders.py:82-85. *)
Definition identity : res cencoder := let '(h, i) := new_composer [] KIdentity in finish h i.
(** 88-112; [static]: whether the number of elements is known when the graph is built. *)
Definition compose_uniform (bits : nat) (min_max : option (list R)) (stochastic static : bool) : res (heap skind * nat) :=
  do bp <- new_bitpack bits static ;;
  let '(h, i) := new_composer [] bp in
  do uq <- new_uniform bits min_max stochastic ;;
  do (h, i) <- add_parent compressible h i uq "quantized_values" ;;
  add_parent compressible h i KFlatten "flattened_values".
Definition uniform_quantization (bits : nat) (min_max : option (list R)) (stochastic static : bool) : res cencoder :=
  do (h, i) <- compose_uniform bits min_max stochastic static ;; finish h i.
(** 115-137. *)
Definition compose_hadamard (bits : nat) (static : bool) : res (heap skind * nat) :=
  do bp <- new_bitpack bits static ;;
  let '(h, i) := new_composer [] bp in
  do uq <- new_uniform bits None true ;;
  do (h, i) <- add_parent compressible h i uq "quantized_values" ;;
  do (h, i) <- add_parent compressible h i KHadamard "hadamard_values" ;;
  add_parent compressible h i KFlatten "flattened_values".
Definition hadamard_quantization (bits : nat) (static : bool) : res cencoder :=
  do (h, i) <- compose_hadamard bits static ;; finish h i.
