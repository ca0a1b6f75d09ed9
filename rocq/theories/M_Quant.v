(** Fake quantization and quantizers.  Sources: quantization/keras/quant_ops.py, quantization/keras/quantizers.py,
    quantization/keras/default_8bit/default_8bit_quantizers.py.  Exact rational arithmetic instead of float32. *)
From Verif Require Import Base M_Num M_Tensor M_Stages.
Open Scope Q_scope.

(** std::round: nearest integer, halves away from zero (used by the TensorFlow kernel's Nudge). *)
Definition std_round (x : Q) : Z := if Qle_bool 0 x then Qfloor (x + (1#2)) else (- Qfloor (- x + (1#2)))%Z.

(** tf.quantization.fake_quant_with_min_max_vars for one value (TensorFlow kernel fake_quant_ops_functor.h: Nudge and
    FakeQuantWithMinMaxVarsFunctor), as called from quant_ops.py:332-341. *)
Definition fq_min (narrow : bool) : Q := if narrow then 1 else 0.
Definition fq_max (bits : nat) : Q := inject_Z (2 ^ Z.of_nat bits - 1).
Definition fq_scale (bits : nat) (narrow : bool) (lo hi : Q) : Q := (hi - lo) / (fq_max bits - fq_min narrow).
Definition fq_zero_point (bits : nat) (narrow : bool) (lo hi : Q) : Q :=
  let z := fq_min narrow - lo / fq_scale bits narrow lo hi in
  if qltb z (fq_min narrow) then fq_min narrow else if qltb (fq_max bits) z then fq_max bits else inject_Z (std_round z).
Definition fq_nmin bits narrow lo hi : Q := (fq_min narrow - fq_zero_point bits narrow lo hi) * fq_scale bits narrow lo hi.
Definition fq_nmax bits narrow lo hi : Q := (fq_max bits - fq_zero_point bits narrow lo hi) * fq_scale bits narrow lo hi.
Definition fake_quant (bits : nat) (narrow : bool) (lo hi x : Q) : Q :=
  if (Qeq_bool lo 0 && Qeq_bool hi 0)%bool then 0
  else
    let s := fq_scale bits narrow lo hi in
    let nmin := fq_nmin bits narrow lo hi in
    let quant_zero := inject_Z (Qfloor (- nmin / s + (1#2))) in
    let clamped := qmax (qmin x (fq_nmax bits narrow lo hi)) nmin in
    inject_Z (Qfloor ((clamped - nmin) / s - quant_zero + (1#2))) * s.

(** The min/max variables of a quantizer: scalars, or one per channel (they are always created with the same shape). *)
Inductive ranges := Scalar (lo hi : Q) | PerAxis (l : list (Q * Q)).
Definition rmap (f : Q -> Q -> Q * Q) (r : ranges) : ranges :=
  match r with Scalar a b => let '(c, d) := f a b in Scalar c d | PerAxis l => PerAxis (map (fun p => f (fst p) (snd p)) l) end.
(** variable.assign(value) / assign_sub(value): shapes must agree; [f old new]. *)
Fixpoint zip_ranges (f : Q * Q -> Q * Q -> Q * Q) (a b : list (Q * Q)) : list (Q * Q) :=
  match a, b with x :: a', y :: b' => f x y :: zip_ranges f a' b' | _, _ => [] end.
Definition assign_with (f : Q * Q -> Q * Q -> Q * Q) (var value : ranges) : res ranges :=
  match var, value with
  | Scalar a b, Scalar c d => let '(x, y) := f (a, b) (c, d) in Ok (Scalar x y)
  | PerAxis l, PerAxis m => if Nat.eqb (length l) (length m) then Ok (PerAxis (zip_ranges f l m)) else Err InvalidArgument
  | _, _ => Err InvalidArgument
  end.

(** Last dimension (number of channels). *)
Definition channels (t : tensor Q) : nat := last (shape t) 0%nat.
Definition channel_values (t : tensor Q) (c : nat) : list Q :=
  map snd (filter (fun iv => Nat.eqb (fst iv mod channels t) c) (combine (seq 0 (length (data t))) (data t))).
(** quant_ops.py:157-180, 253-276: batch_min, batch_max.  [reduce_dims] is only bound for rank 2 and 4. *)
Definition batch_ranges (per_channel : bool) (x : tensor Q) : res ranges :=
  if per_channel then
    match rank x with
    | 0%nat => Ok (Scalar (hd 0 (data x)) (hd 0 (data x)))
    | 1%nat => Ok (PerAxis (map (fun v => (v, v)) (data x)))
    | 2%nat | 4%nat => Ok (PerAxis (map (fun c => (reduce_min (channel_values x c), reduce_max (channel_values x c))) (seq 0 (channels x))))
    | _ => Err NameError
    end
  else Ok (Scalar (reduce_min (data x)) (reduce_max (data x))).

(** quant_ops.py:183-188: min_max_ratio. *)
Definition min_max_ratio (bits : nat) (narrow : bool) : Q :=
  if narrow then -1 else - (inject_Z (2 ^ Z.of_nat bits - 2) / inject_Z (2 ^ Z.of_nat bits)).
(** quant_ops.py:182-197. *)
Definition widen (symmetric : bool) (bits : nat) (narrow : bool) (bmin bmax : Q) : Q * Q :=
  if symmetric then
    let r := min_max_ratio bits narrow in (qmin bmin (bmax / r), qmax bmax (bmin * r))
  else (qmin bmin 0, qmax bmax 0).
(** quant_ops.py:74-90: AllValues adjusts batch_min first and uses the adjusted value for batch_max. *)
Definition widen_all (symmetric : bool) (bits : nat) (narrow : bool) (bmin bmax : Q) : Q * Q :=
  if symmetric then
    let r := min_max_ratio bits narrow in
    let bmin' := qmin bmin (bmax / r) in (bmin', qmax bmax (bmin' * r))
  else (bmin, bmax).

(** quant_ops.py:312-341 [_FakeQuantWithMinMaxVars]; the kernel accepts 2 to 16 bits and needs one range per channel. *)
Definition FakeQuantWithMinMaxVars (bits : nat) (narrow per_channel : bool) (w : ranges) (x : tensor Q) : res (tensor Q) :=
  match per_channel, w with
  | true, PerAxis l =>
      if negb ((2 <=? bits) && (bits <=? 16))%nat then Err InvalidArgument
      else if (negb (Nat.eqb (length l) (channels x)) || Nat.eqb (rank x) 0)%bool then Err InvalidArgument
      else Ok (mkT (shape x) (map (fun iv => let r := nth (fst iv mod channels x) l (0, 0) in
                                             fake_quant bits narrow (fst r) (snd r) (snd iv))
                                  (combine (seq 0 (length (data x))) (data x))))
  | false, Scalar lo hi =>
      if negb ((2 <=? bits) && (bits <=? 16))%nat then Err InvalidArgument
      else Ok (tmap (fake_quant bits narrow lo hi) x)
  | _, _ => Err AssertionError
  end.

(** quant_ops.py:26-45 [FixedQuantize]: fake_quant_with_min_max_args with its default num_bits=8; requires min < max. *)
Definition FixedQuantize (init_min init_max : Q) (narrow : bool) (x : tensor Q) : res (tensor Q) :=
  if qltb init_min init_max then Ok (tmap (fake_quant 8 narrow init_min init_max) x) else Err InvalidArgument.

(** quant_ops.py:117-210 [LastValueQuantize]: output and new value of the variables. *)
Definition LastValueQuantize (bits : nat) (per_channel symmetric narrow training : bool) (w : ranges) (x : tensor Q) : res (tensor Q * ranges) :=
  if negb training then do y <- FakeQuantWithMinMaxVars bits narrow per_channel w x ;; Ok (y, w)
  else
    do b <- batch_ranges per_channel x ;;
    do w' <- assign_with (fun _ new => new) w (rmap (widen symmetric bits narrow) b) ;;
    do y <- FakeQuantWithMinMaxVars bits narrow per_channel w' x ;; Ok (y, w').
(** tf.__internal__.train.assign_moving_average(var, value, decay, zero_debias=False). *)
Definition ema1 (decay : Q) (v x : Q) : Q := v - (v - x) * (1 - decay).
(** quant_ops.py:213-309 [MovingAvgQuantize]. *)
Definition MovingAvgQuantize (decay : Q) (bits : nat) (per_channel symmetric narrow training : bool) (w : ranges) (x : tensor Q) : res (tensor Q * ranges) :=
  if negb training then do y <- FakeQuantWithMinMaxVars bits narrow per_channel w x ;; Ok (y, w)
  else
    do b <- batch_ranges per_channel x ;;
    do w' <- assign_with (fun v n => (ema1 decay (fst v) (fst n), ema1 decay (snd v) (snd n))) w (rmap (widen symmetric bits narrow) b) ;;
    do y <- FakeQuantWithMinMaxVars bits narrow per_channel w' x ;; Ok (y, w').
(** quant_ops.py:48-114 [AllValuesQuantize]. *)
Definition AllValuesQuantize (bits : nat) (symmetric narrow training : bool) (w : ranges) (x : tensor Q) : res (tensor Q * ranges) :=
  if negb training then do y <- FakeQuantWithMinMaxVars bits narrow false w x ;; Ok (y, w)
  else
    do b <- batch_ranges false x ;;
    do w' <- assign_with (fun v n => (qmin (qmin (fst v) (fst n)) 0, qmax (qmax (snd v) (snd n)) 0)) w (rmap (widen_all symmetric bits narrow) b) ;;
    do y <- FakeQuantWithMinMaxVars bits narrow false w' x ;; Ok (y, w').

(** quantizers.py:151-171, 224-244, 296-316, 374-393, 439-447 and default_8bit_quantizers.py:23-63: the constructors.
    The two default_8bit classes subclass LastValueQuantizer. *)
Inductive lv_class := CLastValue | CConvWeights | CConvTransposeWeights.
Inductive quantizer :=
| LastValueQuantizer (cls : lv_class) (bits : nat) (per_axis symmetric narrow : bool)
| MovingAverageQuantizer (bits : nat) (per_axis symmetric narrow : bool)
| AllValuesQuantizer (bits : nat) (per_axis symmetric narrow : bool)
| FixedQuantizer (bits : nat) (init_min init_max : Q) (narrow : bool)
| NoQuantizer.
Definition Default8BitConvWeightsQuantizer := LastValueQuantizer CConvWeights 8 true true true.
Definition Default8BitConvTransposeWeightsQuantizer := LastValueQuantizer CConvTransposeWeights 8 false true true.

(** quantizers.py:131-148 [_add_range_weights], 173, 246, 318-327; default_8bit_quantizers.py:32-46.  [shape] is None for
    activations. *)
Definition add_range_weights (per_axis : bool) (shp : option (list nat)) : res ranges :=
  match per_axis, shp with
  | true, Some [] => Err IndexError
  | true, Some s => Ok (PerAxis (repeat (-6, 6) (last s 0%nat)))
  | _, _ => Ok (Scalar (-6) 6)
  end.
Definition build (q : quantizer) (shp : option (list nat)) : res (option ranges) :=
  match q with
  | LastValueQuantizer CConvWeights _ _ _ _ =>
      match shp with None => Err TypeError | Some _ => do r <- add_range_weights true shp ;; Ok (Some r) end
  | LastValueQuantizer _ _ per_axis _ _ => do r <- add_range_weights per_axis shp ;; Ok (Some r)
  | MovingAverageQuantizer _ _ _ _ => do r <- add_range_weights false None ;; Ok (Some r)
  | AllValuesQuantizer _ _ _ _ => Ok (Some (Scalar 0 0))
  | FixedQuantizer _ _ _ _ | NoQuantizer => Ok None
  end.

(** The [__call__] methods: quantizers.py:176-203, 249-277, 330-356, 398-419, 452-467; default_8bit_quantizers.py:58-63. *)
Definition lift (r : res (tensor Q * ranges)) : res (tensor Q * option ranges) := do (y, w) <- r ;; Ok (y, Some w).
Definition need_w (w : option ranges) : res ranges := match w with Some r => Ok r | None => Err TypeError end.
Definition call (q : quantizer) (training : bool) (w : option ranges) (x : tensor Q) : res (tensor Q * option ranges) :=
  match q with
  | LastValueQuantizer CConvTransposeWeights b pa sy na =>
      if negb (Nat.eqb (rank x) 4) then Err InvalidArgument
      else do w0 <- need_w w ;;
           do (y, w') <- LastValueQuantize b pa sy na training w0 (transpose 0 [0; 1; 3; 2]%nat x) ;;
           Ok (transpose 0 [0; 1; 3; 2]%nat y, Some w')
  | LastValueQuantizer _ b pa sy na => do w0 <- need_w w ;; lift (LastValueQuantize b pa sy na training w0 x)
  | MovingAverageQuantizer b pa sy na => do w0 <- need_w w ;; lift (MovingAvgQuantize (999#1000) b pa sy na training w0 x)
  | AllValuesQuantizer b _ sy na => do w0 <- need_w w ;; lift (AllValuesQuantize b sy na training w0 x)
  | FixedQuantizer _ lo hi na => do y <- FixedQuantize lo hi na x ;; Ok (y, w)
  | NoQuantizer => Ok (x, w)
  end.

(** A history of calls. *)
Fixpoint run (q : quantizer) (w : option ranges) (calls : list (bool * tensor Q)) : res (option ranges) :=
  match calls with
  | [] => Ok w
  | (tr, x) :: r => do (_, w') <- call q tr w x ;; run q w' r
  end.

(** get_config and __eq__: quantizers.py:205-221, 279-293, 358-371, 421-436, 469-476.  isinstance: the subclasses of
    LastValueQuantizer are instances of it. *)
Definition quantizer_eq (a b : quantizer) : bool :=
  match a, b with
  | LastValueQuantizer _ n p s r, LastValueQuantizer _ n' p' s' r'
  | MovingAverageQuantizer n p s r, MovingAverageQuantizer n' p' s' r'
  | AllValuesQuantizer n p s r, AllValuesQuantizer n' p' s' r' =>
      (Nat.eqb n n' && Bool.eqb p p' && Bool.eqb s s' && Bool.eqb r r')%bool
  | FixedQuantizer n lo hi r, FixedQuantizer n' lo' hi' r' =>
      (Nat.eqb n n' && Qeq_bool lo lo' && Qeq_bool hi hi' && Bool.eqb r r')%bool
  | NoQuantizer, NoQuantizer => true
  | _, _ => false
  end.
(** A serialized configuration: class and keyword arguments. *)
Inductive qclass := KLastValue (c : lv_class) | KMovingAverage | KAllValues | KFixed | KNo.
Inductive qconfig := CfgRange (bits : nat) (per_axis symmetric narrow : bool) | CfgFixed (bits : nat) (lo hi : Q) (narrow : bool) | CfgEmpty.
Definition class_of (q : quantizer) : qclass :=
  match q with
  | LastValueQuantizer c _ _ _ _ => KLastValue c | MovingAverageQuantizer _ _ _ _ => KMovingAverage
  | AllValuesQuantizer _ _ _ _ => KAllValues | FixedQuantizer _ _ _ _ => KFixed | NoQuantizer => KNo end.
Definition get_config (q : quantizer) : qconfig :=
  match q with
  | LastValueQuantizer _ b p s n | MovingAverageQuantizer b p s n | AllValuesQuantizer b p s n => CfgRange b p s n
  | FixedQuantizer b lo hi n => CfgFixed b lo hi n
  | NoQuantizer => CfgEmpty end.
(** quantizers.py:115-125 [from_config]: cls( **config ); default_8bit_quantizers.py:26, 52: __init__ takes no arguments. *)
Definition from_config (c : qclass) (cfg : qconfig) : res quantizer :=
  match c, cfg with
  | KLastValue CLastValue, CfgRange b p s n => Ok (LastValueQuantizer CLastValue b p s n)
  | KLastValue CConvWeights, CfgEmpty => Ok Default8BitConvWeightsQuantizer
  | KLastValue CConvTransposeWeights, CfgEmpty => Ok Default8BitConvTransposeWeightsQuantizer
  | KMovingAverage, CfgRange b p s n => Ok (MovingAverageQuantizer b p s n)
  | KAllValues, CfgRange b p s n => Ok (AllValuesQuantizer b p s n)
  | KFixed, CfgFixed b lo hi n => Ok (FixedQuantizer b lo hi n)
  | KNo, CfgEmpty => Ok NoQuantizer
  | _, _ => Err TypeError
  end.

(** default_8bit_quantize_registry.py:288-303, 508-527 [Default8BitQuantizeConfig] and its subclasses. *)
Inductive cfg_class := CfgDense | CfgRNN | CfgConv | CfgConvTranspose.
Record qat_config := mkQC { qc_class : cfg_class; qc_weight_attrs : list nat; qc_activation_attrs : list nat; qc_quantize_output : bool }.
Definition weight_quantizer (c : qat_config) : quantizer :=
  match qc_class c with
  | CfgConv => Default8BitConvWeightsQuantizer
  | CfgConvTranspose => Default8BitConvTransposeWeightsQuantizer
  | _ => LastValueQuantizer CLastValue 8 false true true
  end.
Definition activation_quantizer (c : qat_config) : quantizer := MovingAverageQuantizer 8 false false false.
(** 363-372 [__eq__] (attribute names are identified with numbers): note the self/self comparison. *)
Definition list_eqb := list_eq_dec Nat.eq_dec.
Definition qat_config_eq (a b : qat_config) : bool :=
  ((if list_eqb (qc_weight_attrs a) (qc_weight_attrs b) then true else false) &&
   (if list_eqb (qc_activation_attrs a) (qc_activation_attrs a) then true else false) &&
   quantizer_eq (weight_quantizer a) (weight_quantizer b) && quantizer_eq (activation_quantizer a) (activation_quantizer b) &&
   Bool.eqb (qc_quantize_output a) (qc_quantize_output b))%bool.
(** 341-361 [get_config], [from_config]. *)
Definition qat_get_config (a : qat_config) : list nat * list nat * bool := (qc_weight_attrs a, qc_activation_attrs a, qc_quantize_output a).
Definition qat_from_config (cls : cfg_class) (c : list nat * list nat * bool) : qat_config :=
  let '(w, a, o) := c in mkQC cls w a o.
