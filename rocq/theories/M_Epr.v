(** Entropy Penalized Reparameterization.  Source: common/keras/compression/algorithms/epr.py.
    Exact rationals; exp, sqrt, the real FFT, the half-precision cast and the entropy coder are operations given as
    parameters (their contracts are in S_Epr).  A serialized string is represented by a number. *)
From Coq Require Import String Ascii.
From Verif Require Import Base M_Tensor M_Num M_Compress.
Open Scope string_scope.
Open Scope list_scope.
Open Scope nat_scope.

Definition tables : Type := tensor Z * tensor Z.
Record epr_ops := mkOps {
  o_exp : Q -> Q;                                     (* tf.exp *)
  o_sqrt : nat -> Q;                                  (* tf.sqrt(tf.cast(n, float)) *)
  o_half : Q -> Q;                                    (* tf.cast(tf.cast(x, float16), float32) *)
  o_rfft : tensor Q -> tensor Q;                      (* 111-117: transpose, rfft / rfft2d, bitcast to pairs of floats *)
  o_irfft : list nat -> tensor Q -> tensor Q;         (* 62-70: bitcast, irfft / irfft2d with fft_length, transpose *)
  o_tables : tensor Q -> tables;                      (* cdf, cdf_offset of the entropy model for these scales *)
  o_encode : option tables -> tensor Z -> Z;          (* em.compress, after rounding; None: the power law model *)
  o_decode : option tables -> list nat -> Z -> res (tensor Z);   (* em.decompress to a tensor of that shape *)
  o_bits : option (tensor Q) -> tensor Q -> Q }.      (* em(..., training=True)[1] resp. em.penalty *)

(** Numpy broadcasting of [s] (whose shape is a suffix of the shape of [w]). *)
Definition broadcast (f : Q -> Q -> Q) (w s : tensor Q) : tensor Q :=
  tab (shape w) (fun idx => f (tget 0%Q w idx) (tget 0%Q s (skipn (List.length idx - rank s) idx))).
(** tf.round of the scaled weights (tfc.round_st in the forward pass, the entropy models' quantization). *)
Definition symbols (w step : tensor Q) : tensor Z := tmap round_half_even (broadcast Qdiv w step).
(** epr.py:42-51 [_transform_dense_weight]. *)
Definition transform_dense (o : epr_ops) (weight log_step : tensor Q) (quantized : bool) : tensor Q :=
  let step := tmap (o_exp o) log_step in
  let weight := if quantized then weight else tmap inject_Z (symbols weight step) in
  broadcast Qmult weight step.
(** 54-70 [_transform_conv_weight]. *)
Definition transform_conv (o : epr_ops) (kernel_rdft : tensor Q) (kernel_shape : list nat) (log_step : tensor Q) (quantized : bool) : tensor Q :=
  let step := tmap (o_exp o) log_step in
  let kernel_rdft := if quantized then kernel_rdft else tmap inject_Z (symbols kernel_rdft step) in
  let spatial := lead kernel_shape in
  o_irfft o spatial (broadcast Qmult kernel_rdft (tmap (fun s => (s * o_sqrt o (prod spatial))%Q) step)).

(** tf.shape, and tf.cast of int tensors to uint16 / int16 and back (two's complement). *)
Definition shape_vector (s : list nat) : tensor Z := mkT [List.length s] (map Z.of_nat s).
Definition uint16 (z : Z) : Z := (z mod 65536)%Z.
Definition int16 (z : Z) : Z := ((z + 32768) mod 65536 - 32768)%Z.
Definition dims (t : tensor Z) : list nat := map Z.to_nat (data t).
Definition fill (s : list nat) (q : Q) : tensor Q := tab s (fun _ => q).

(** 73-90 [get_compressible_weights]; use_bias holds iff the layer has a bias. *)
Definition epr_compressible (y : ylayer) : list (option string) :=
  match y_kind y with
  | KOther => []
  | _ => attr_or_none y "kernel" :: match find_weight y "bias" with Some _ => [attr_or_none y "bias"] | None => [] end
  end.
(** 92-149 [_init_training_weights_reparam]: the training weights and the shape of the prior. *)
Definition init_reparam (o : epr_ops) (v : cv) : res (list cv * list nat) :=
  match v with
  | VI _ => Err TypeError
  | VF t =>
    if (1 <=? rank t) && (rank t <=? 2) then Ok ([VF t; VF (fill [] (-4))], [])
    else if (3 <=? rank t) && (rank t <=? 4) then
      let r := tmap (fun x => (x / o_sqrt o (prod (lead (shape t))))%Q) (o_rfft o t) in
      let prior := skipn 2 (shape r) in
      Ok ([VF r; VI (shape_vector (shape t)); VF (fill prior (-4))], prior)
    else Err ValueError
  end.

(** ** 203-287 [EPR] *)
Definition epr_init (o : epr_ops) (v : cv) : res (list cv) :=
  do r <- init_reparam o v ;; Ok (fst r ++ [VF (fill (snd r) (5 # 2))]).
Definition epr_project (o : epr_ops) (l : list cv) : res cv :=
  match l with
  | [VF w; VF ls; VF _] => Ok (VF (transform_dense o w ls false))
  | [VF r; VI ks; VF ls; VF _] => Ok (VF (transform_conv o r (dims ks) ls false))
  | _ => Err TypeError
  end.
Definition compressed (o : epr_ops) (tb : option tables) (w ls : tensor Q) (ws : tensor Z) : list cv :=
  [VI (mkT [] [o_encode o tb (symbols w (tmap (o_exp o) ls))]); VI (tmap uint16 ws); VF (tmap (o_half o) ls)].
Definition epr_tables (o : epr_ops) (sc : tensor Q) : tables := o_tables o (tmap (o_exp o) sc).
Definition epr_compress (o : epr_ops) (l : list cv) : res (list cv) :=
  do a <- (match l with
           | [VF w; VF ls; VF sc] => Ok (w, shape_vector (shape w), ls, sc)
           | [VF w; VI ws; VF ls; VF sc] => Ok (w, ws, ls, sc)
           | _ => Err TypeError
           end) ;;
  let '(w, ws, ls, sc) := a in let tb := epr_tables o sc in
  Ok (compressed o (Some tb) w ls ws ++ [VI (tmap int16 (fst tb)); VI (tmap int16 (snd tb))]).
Definition last2 (l : list nat) : list nat := skipn (List.length l - 2) l.
Definition string_of (t : tensor Z) : res Z := match data t with [z] => Ok z | _ => Err InvalidArgument end.
Definition epr_decompress (o : epr_ops) (l : list cv) : res cv :=
  match l with
  | [VI s; VI ws; VF ls; VI cdf; VI off] =>
    do s <- string_of s ;;
    let tb := Some (cdf, off) in let d := dims ws in
    if prod (shape ws) <=? 2
    then do q <- o_decode o tb (d ++ shape ls) s ;; Ok (VF (transform_dense o (tmap inject_Z q) ls true))
    else do q <- o_decode o tb (last2 d ++ shape ls) s ;; Ok (VF (transform_conv o (tmap inject_Z q) d ls true))
  | _ => Err TypeError
  end.
Definition keep (f : list cv -> res cv) (l : list cv) : res (cv * list cv) := do v <- f l ;; Ok (v, l).
Definition epr (o : epr_ops) : calg :=
  mkAlg epr_compressible (epr_init o) (keep (epr_project o)) (epr_compress o) (epr_decompress o).
(** 275-287 [EPR.regularization_loss]. *)
Definition epr_loss (o : epr_ops) (l : list cv) : res Q :=
  match l with
  | [VF w; VF ls; VF sc] | [VF w; VI _; VF ls; VF sc] => Ok (o_bits o (Some (tmap (o_exp o) sc)) (broadcast Qdiv w (tmap (o_exp o) ls)))
  | _ => Err TypeError
  end.

(** ** 290-357 [FastEPR] *)
Definition fast_init (o : epr_ops) (v : cv) : res (list cv) := do r <- init_reparam o v ;; Ok (fst r).
Definition fast_project (o : epr_ops) (l : list cv) : res cv :=
  match l with
  | [VF w; VF ls] => Ok (VF (transform_dense o w ls false))
  | [VF r; VI ks; VF ls] => Ok (VF (transform_conv o r (dims ks) ls false))
  | _ => Err TypeError
  end.
Definition fast_compress (o : epr_ops) (l : list cv) : res (list cv) :=
  match l with
  | [VF w; VF ls] => Ok (compressed o None w ls (shape_vector (shape w)))
  | [VF w; VI ws; VF ls] => Ok (compressed o None w ls ws)
  | _ => Err TypeError
  end.
Definition fast_decompress (o : epr_ops) (l : list cv) : res cv :=
  match l with
  | [VI s; VI ws; VF ls] =>
    do s <- string_of s ;; let d := dims ws in
    if prod (shape ws) <=? 2
    then do q <- o_decode o None d s ;; Ok (VF (transform_dense o (tmap inject_Z q) ls true))
    else do q <- o_decode o None (last2 d ++ shape ls) s ;; Ok (VF (transform_conv o (tmap inject_Z q) d ls true))
  | _ => Err TypeError
  end.
Definition fast_epr (o : epr_ops) : calg :=
  mkAlg epr_compressible (fast_init o) (keep (fast_project o)) (fast_compress o) (fast_decompress o).
(** 345-357 [FastEPR.regularization_loss]. *)
Definition fast_loss (o : epr_ops) (l : list cv) : res Q :=
  match l with
  | [VF w; VF ls] | [VF w; VI _; VF ls] => Ok (o_bits o None (broadcast Qdiv w (tmap (o_exp o) ls)))
  | _ => Err TypeError
  end.

(** ** 151-182 [get_training_model]: the wrapped layers and the regularization losses added to them. *)
Definition count_params (layers : list ylayer) : nat :=
  sumN (map (fun y => sumN (map (fun w => prod (vshape (lw_value w))) (y_weights y))) layers).
Definition get_training_model (a : calg) (layers : list ylayer) (regularization_weight : Q) : res (list twrap * Q) :=
  do ws <- compress_model_train a layers ;;
  if count_params layers =? 0 then Err ZeroDivisionError
  else Ok (ws, (regularization_weight / inject_Z (Z.of_nat (count_params layers)))%Q).
(** The losses of the training model; the attribute map is taken to list every compressible weight once (see
    [attr_name_map]). *)
Definition losses (loss : list cv -> res Q) (weight : Q) (ws : list twrap) : res (list Q) :=
  mapM (fun ts => do b <- loss ts ;; Ok (weight * b)%Q) (List.concat (map (fun w => map snd (tw_training w)) ws)).

(** ** optimize.py:124-137: the attribute map of the training wrapper.  [placeholders]: the names of the compressible
    weights and the identities of the tensors standing for them; [attrs]: the attributes of the nested layer in the
    order of [dir]: [None] if reading one raises AttributeError, else the identity of the value (if it is a tensor).
    [name] keeps its last value when an attribute cannot be read; before the loop it is the last compressible name. *)
Definition name_by_tensor (placeholders : list (string * nat)) (v : option nat) : option string :=
  match v with
  | None => None
  | Some i => match find (fun p => Nat.eqb (snd p) i) placeholders with Some p => Some (fst p) | None => None end
  end.
Fixpoint attr_loop (placeholders : list (string * nat)) (name : option (option string)) (attrs : list (string * option (option nat)))
    : res (list (string * string)) :=
  match attrs with
  | [] => Ok []
  | (a, v) :: r =>
    let name' := match v with Some v => Some (name_by_tensor placeholders v) | None => name end in
    match name' with
    | None => Err NameError
    | Some n => do m <- attr_loop placeholders name' r ;;
                Ok (match n with Some n => if String.eqb n "" then m else (a, n) :: m | None => m end)
    end
  end.
Definition attr_name_map (placeholders : list (string * nat)) (attrs : list (string * option (option nat))) : res (list (string * string)) :=
  attr_loop placeholders (match rev placeholders with p :: _ => Some (Some (fst p)) | [] => None end) attrs.
