(** Research stages on real tensors: per-channel quantization and clipping.  Sources:
    internal/tensor_encoding/stages/research/quantization.py:168-441, stages/research/clipping.py:30-157. *)
From Coq Require Import Reals.
From Verif Require Import Base M_Tensor M_Hadamard M_Encoder M_CommonEncoders.
Open Scope R_scope.

(** quantization.py:256-257 / 373-374: dim = tf.shape(x)[-1]; reshape(x, [-1, dim]) fails for dim = 0. *)
Definition last_dim (t : tensor R) : res nat :=
  match rev (shape t) with d :: _ => if (d =? 0)%nat then Err InvalidArgument else Ok d | [] => Err InvalidArgument end.
(** Column [c] of the reshaped tensor. *)
Definition column (dim : nat) (x : list R) (c : nat) : list R := map (fun r => nth (r * dim + c) x 0) (seq 0 (List.length x / dim)).
(** 259-266 / 376-383: per-channel extremes, broadcast scaling. *)
Definition pc_min (dim : nat) (x : list R) : list R := map (fun c => minR (column dim x c)) (seq 0 dim).
Definition pc_max (dim : nat) (x : list R) : list R := map (fun c => maxR (column dim x c)) (seq 0 dim).
Definition pc_scaled (dim : nat) (lo hi : list R) (m : R) (x : list R) : list R :=
  map (fun iv => let c := (fst iv mod dim)%nat in div_no_nanR (snd iv - nth c lo 0) (nth c hi 0 - nth c lo 0) * m) (combine (seq 0 (List.length x)) x).
Definition pc_unscaled (dim : nat) (lo hi : list R) (m : R) (q : list R) : list R :=
  map (fun iv => let c := (fst iv mod dim)%nat in snd iv / m * (nth c hi 0 - nth c lo 0) + nth c lo 0) (combine (seq 0 (List.length q)) q).
Definition indexed (f : nat -> R -> R) (l : list R) : list R := map (fun iv => f (fst iv) (snd iv)) (combine (seq 0 (List.length l)) l).
(** 210-224 / 331-341: constructors; 246-251 / 363-368: get_params. *)
Definition new_per_channel (bits : nat) : res nat := if ((1 <=? bits) && (bits <=? 16))%nat then Ok bits else Err ValueError.
Definition max_param (bits : nat) : dict (list R) := [("max_value"%string, [IZR (2 ^ Z.of_nat bits - 1)])].
(** The two rows of the stacked [min_max] tensor. *)
Definition unstack2 (t : tensor R) : res (nat * list R * list R) :=
  match shape t with [_; d] => Ok (d, firstn d (data t), skipn d (data t)) | _ => Err ValueError end.

(** 253-301 [PerChannelUniformQuantizationEncodingStage]. *)
Definition per_channel_stage (bits : nat) (stochastic : bool) : cstage :=
  mkStage false true (fun u => (mkPrm (max_param bits) u, mkPrm (max_param bits) no_draws))
    (fun x p => do t <- float x ;; do dim <- last_dim t ;; do mv <- dindex "max_value" (p_dict p) ;;
       let lo := pc_min dim (data t) in let hi := pc_max dim (data t) in
       let q := indexed (fun i w => quantize1 stochastic (p_draws p i) w) (pc_scaled dim lo hi (nth 0 mv 0) (data t)) in
       Ok [("quantized_values"%string, F (mkT [(List.length (data t) / dim)%nat; dim] q)); ("min_max"%string, F (mkT [2%nat; dim] (lo ++ hi)))])
    (fun d p _ sh => do x <- dindex "quantized_values" d ;; do q <- float x ;; do mm <- dindex "min_max" d ;; do mm <- float mm ;;
       do r <- unstack2 mm ;; let '(dim, lo, hi) := r in do mv <- dindex "max_value" (p_dict p) ;; do s <- need sh ;;
       do y <- reshape (mkT (shape q) (pc_unscaled dim lo hi (nth 0 mv 0) (data q))) s ;; Ok (F y)).
(** 370-440 [PerChannelPRNGUniformQuantizationEncodingStage]; [rf seed]: tf_utils.random_floats for that seed.  The seed is
    drawn by encode (two numbers below int64.max) and sent along. *)
Definition draw_seed (u : nat -> R) : list Z := [floorR (u 0%nat * IZR (2 ^ 63 - 1)); floorR (u 1%nat * IZR (2 ^ 63 - 1))].
Definition per_channel_prng_stage (rf : list Z -> nat -> R) (bits : nat) : cstage :=
  mkStage false true (fun u => (mkPrm (max_param bits) u, mkPrm (max_param bits) no_draws))
    (fun x p => do t <- float x ;; do dim <- last_dim t ;; do mv <- dindex "max_value" (p_dict p) ;;
       let lo := pc_min dim (data t) in let hi := pc_max dim (data t) in let seed := draw_seed (p_draws p) in
       let q := indexed (fun i w => quantize1 true (rf seed i) w) (pc_scaled dim lo hi (nth 0 mv 0) (data t)) in
       Ok [("quantized_values"%string, F (mkT [(List.length (data t) / dim)%nat; dim] q)); ("seed"%string, I seed); ("min_max"%string, F (mkT [2%nat; dim] (lo ++ hi)))])
    (fun d p _ sh => do x <- dindex "quantized_values" d ;; do q <- float x ;; do sd <- dindex "seed" d ;; do seed <- ints sd ;; do mm <- dindex "min_max" d ;; do mm <- float mm ;;
       do r <- unstack2 mm ;; let '(dim, lo, hi) := r in do mv <- dindex "max_value" (p_dict p) ;; do s <- need sh ;;
       do y <- reshape (mkT (shape q) (pc_unscaled dim lo hi (nth 0 mv 0) (indexed (fun i w => w + rf seed i - 1/2) (data q)))) s ;; Ok (F y)).

(** tf.clip_by_norm (TF clip_ops.py): x * c / max(|x|, c). *)
Definition clip_by_norm (c : R) (t : tensor R) : tensor R := tmap (fun v => v * c / Rmax (norm2 (data t)) c) t.
(** clipping.py:30-86 [ClipByNormEncodingStage]: no argument is rejected. *)
Definition clip_norm_stage (c : R) : cstage :=
  mkStage true false (fun _ => (mkPrm [("norm_param"%string, [c])] no_draws, mkPrm [] no_draws))
    (fun x p => do t <- float x ;; do c <- dindex "norm_param" (p_dict p) ;; Ok [("clipped_values"%string, F (clip_by_norm (nth 0 c 0) t))])
    (fun d _ _ _ => dindex "clipped_values" d).
(** 89-157 [ClipByValueEncodingStage]. *)
Definition clip_value_stage (lo hi : R) : cstage :=
  mkStage true false (fun _ => (mkPrm [("min_param"%string, [lo]); ("max_param"%string, [hi])] no_draws, mkPrm [] no_draws))
    (fun x p => do t <- float x ;; do a <- dindex "min_param" (p_dict p) ;; do b <- dindex "max_param" (p_dict p) ;;
       Ok [("clipped_values"%string, F (tmap (clip_by_value (nth 0 a 0) (nth 0 b 0)) t))])
    (fun d _ _ _ => dindex "clipped_values" d).
