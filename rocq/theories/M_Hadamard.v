(** Hadamard and Kashin encoding stages in exact real arithmetic.  Sources:
    internal/tensor_encoding/utils/tf_utils.py:27-114, 226-245, stages/stages_impl.py:24-233,
    stages/research/kashin.py:28-294.  A matrix is the list of its rows; reshapes of whole batches act row by row because
    every row has even length (dim = 1 is handled separately by the code). *)
From Coq Require Import Reals.
From Verif Require Import Base.
Open Scope R_scope.

Fixpoint sumR (l : list R) : R := match l with [] => 0 | a :: r => a + sumR r end.
(** tf.norm. *)
Definition norm2 (x : list R) : R := sqrt (sumR (map (fun a => a * a) x)).
(** Elementwise operations on equally long vectors. *)
Fixpoint vmap2 (f : R -> R -> R) (x y : list R) : list R :=
  match x, y with a :: x', b :: y' => f a b :: vmap2 f x' y' | _, _ => [] end.
Definition vadd := vmap2 Rplus.
Definition vsub := vmap2 Rminus.
Definition vmul := vmap2 Rmult.
Definition vscale (k : R) (x : list R) : list R := map (fun a => a * k) x.

(** tf_utils.py:86-95 [_hadamard_step]: reshape to pairs, multiply by [[1,1],[1,-1]], transpose. *)
Fixpoint pairs (x : list R) : list (R * R) :=
  match x with a :: b :: r => (a, b) :: pairs r | _ => [] end.
Definition hadamard_step (x : list R) : list R :=
  map (fun p => fst p + snd p) (pairs x) ++ map (fun p => fst p - snd p) (pairs x).
(** tf_utils.py:97-106 [_fwht]: log2 steps. *)
Fixpoint fwht_loop (n : nat) (x : list R) : list R :=
  match n with O => x | S m => fwht_loop m (hadamard_step x) end.
(** tf_utils.py:73-79, 108-114: validation of the dimension, identity for dim = 1, normalisation. *)
Definition is_pow2 (dim : nat) : bool := (negb (dim =? 0) && (Nat.land dim (dim - 1) =? 0))%nat.
Definition fwht (x : list R) : res (list R) :=
  let dim := length x in
  if negb (is_pow2 dim) then Err ValueError
  else if (dim =? 1)%nat then Ok x
  else Ok (map (fun a => a / sqrt (INR dim)) (fwht_loop (Nat.log2_up dim) x)).

(** tf_utils.py:226-245 [random_signs]: sign(u - 0.5) with u the stateless uniform draws of the shared seed. *)
Definition signR (r : R) : R := if Rlt_dec 0 r then 1 else if Rlt_dec r 0 then -1 else 0.
Definition random_signs (n : nat) (u : nat -> R) : list R := map (fun i => signR (u i - 1/2)) (seq 0 n).

(** Inputs of the rotation stages: a vector, a matrix with [dim] columns, or something of another rank. *)
Inductive hinput := Vec (x : list R) | Mat (dim : nat) (rows : list (list R)) | OtherRank.
(** stages_impl.py:212-223 / kashin.py:265-276 [_validate_and_expand_encode_input] (the static dimension is known). *)
Definition expand (x : hinput) : res (nat * list (list R)) :=
  match x with Vec v => Ok (length v, [v]) | Mat d rows => Ok (d, rows) | OtherRank => Err ValueError end.
(** The recorded input shape: trailing dimension and rank. *)
Definition input_shape (x : hinput) : nat * nat :=
  match x with Vec v => (length v, 1%nat) | Mat d _ => (d, 2%nat) | OtherRank => (O, O) end.
(** [if shape.shape.num_elements() == 1: tf.squeeze(decoded_x, [0])]: squeeze fails unless there is exactly one row. *)
Definition collapse (shape : nat * nat) (rows : list (list R)) : res hinput :=
  if (snd shape =? 1)%nat then match rows with [v] => Ok (Vec v) | _ => Err InvalidArgument end
  else Ok (Mat (fst shape) rows).

(** tf.pad with zeros on the right. *)
Definition pad_right (n : nat) (x : list R) : list R := x ++ repeat 0 (n - length x).
(** stages_impl.py:225-231: next power of two; int(np.ceil(np.log2(0))) raises OverflowError. *)
Definition hadamard_pad_dim (dim : nat) : res nat := if (dim =? 0)%nat then Err OverflowError else Ok (2 ^ Nat.log2_up dim)%nat.

(** stages_impl.py:175-183 [HadamardEncodingStage.encode]. *)
Definition hadamard_encode (u : nat -> R) (x : hinput) : res (list (list R)) :=
  do (dim, rows) <- expand x ;;
  do pd <- hadamard_pad_dim dim ;;
  mapM (fun r => fwht (pad_right pd (vmul r (random_signs dim u)))) rows.
(** tf.slice of the leading [n] columns. *)
Definition slice (n : nat) (x : list R) : res (list R) := if (n <=? length x)%nat then Ok (firstn n x) else Err InvalidArgument.
(** stages_impl.py:185-206 [decode]. *)
Definition hadamard_decode (u : nat -> R) (enc : list (list R)) (shape : nat * nat) : res hinput :=
  do rows <- mapM (fun r => do y <- fwht r ;; do z <- slice (fst shape) y ;; Ok (vmul z (random_signs (fst shape) u))) enc ;;
  collapse shape rows.

(** kashin.py:87-143: parameters (Python values), validated. *)
Record kashin := mkKashin { k_iters : nat; k_eta : R; k_delta : R; k_last_clip : bool; k_threshold : R }.
Definition mk_kashin (iters : Z) (eta delta : R) (last_clip : bool) (threshold : R) : res kashin :=
  if (iters <=? 0)%Z then Err ValueError
  else if Rlt_dec 0 eta then if Rlt_dec eta 1 then
    if Rle_dec delta 0 then Err ValueError else Ok (mkKashin (Z.to_nat iters) eta delta last_clip threshold)
  else Err ValueError else Err ValueError.

(** kashin.py:278-283 [_get_pad_dim]. *)
Definition kashin_pad_dim (k : kashin) (dim : nat) : res nat :=
  if (dim =? 0)%nat then Err OverflowError
  else let p := (2 ^ Nat.log2_up dim)%nat in
       if Rlt_dec (k_threshold k) (INR dim / INR p) then Ok (p * 2)%nat else Ok p.
(** tf.clip_by_value(x, -level, level). *)
Definition clipR (level x : R) : R := Rmin level (Rmax (- level) x).
(** kashin.py:235-242 [_kashin_forward]. *)
Definition kashin_forward (k : kashin) (x signs : list R) (level : R) (do_clip : bool) : res (list R) :=
  do pd <- kashin_pad_dim k (length x) ;;
  do y <- fwht (pad_right pd (vmul x signs)) ;;
  Ok (if do_clip then map (clipR level) y else y).
(** kashin.py:244-253 [_kashin_backward]. *)
Definition kashin_backward (x : list R) (n : nat) (signs : option (list R)) : res (list R) :=
  do y <- fwht x ;; do z <- slice n y ;;
  Ok (match signs with Some s => vmul z s | None => z end).
(** kashin.py:255-263 [_kashin_iter]. *)
Definition kashin_iter (k : kashin) (x coeff signs : list R) (level : R) : res (list R * list R) :=
  do f <- kashin_forward k x signs level true ;;
  do b <- kashin_backward f (length x) (Some signs) ;;
  Ok (vsub x b, vadd coeff f).
(** kashin.py:196-199: num_iters - 1 clipped iterations. *)
Fixpoint kashin_loop (n : nat) (k : kashin) (x coeff signs : list R) (level : R) : res (list R * list R * R) :=
  match n with
  | O => Ok (x, coeff, level)
  | S m => do (x', c') <- kashin_iter k x coeff signs level ;; kashin_loop m k x' c' signs (level * k_eta k)
  end.
Definition div_no_nanR (a b : R) : R := if Req_EM_T b 0 then 0 else a / b.
(** kashin.py:181-215 [encode], one row. *)
Definition kashin_encode_row (k : kashin) (u : nat -> R) (dim : nat) (x : list R) : res (list R) :=
  do pd <- kashin_pad_dim k dim ;;
  let signs := random_signs dim u in
  do (rc, level) <- kashin_loop (k_iters k - 1) k x (repeat 0 pd) signs (norm2 x / sqrt (k_delta k * INR dim)) ;;
  let '(residual, coeff) := rc in
  do f <- kashin_forward k residual signs level (k_last_clip k) ;;
  let coeff := vadd coeff f in
  Ok (if k_last_clip k then vscale (div_no_nanR (norm2 x) (norm2 coeff)) coeff else coeff).
Definition kashin_encode (k : kashin) (u : nat -> R) (x : hinput) : res (list (list R)) :=
  do (dim, rows) <- expand x ;;
  do _ <- kashin_pad_dim k dim ;;
  mapM (kashin_encode_row k u dim) rows.
(** kashin.py:217-233 [decode]. *)
Definition kashin_decode (u : nat -> R) (enc : list (list R)) (shape : nat * nat) : res hinput :=
  do rows <- mapM (fun r => do z <- kashin_backward r (fst shape) None ;; Ok (vmul z (random_signs (fst shape) u))) enc ;;
  collapse shape rows.
