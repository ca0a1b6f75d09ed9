(** Properties C33-C40 and C75: fake quantization and quantizers.  Statements only. *)
From Verif Require Import Base M_Num M_Tensor M_Quant S_Quant L_Quant L_Quantizers L_Quantizers2 L_Quantizers3 L_Quantizers4.
Open Scope Q_scope.

(** ** C33 *)
Theorem C33_fake_quant : forall bits narrow lo hi, (2 <= bits)%nat -> lo <= 0 <= hi -> lo < hi ->
  exists step nlo nhi, step == (hi - lo) / inject_Z (levels bits narrow - 1) /\ 0 < step /\
  nlo <= 0 <= nhi /\ nhi - nlo == step * inject_Z (levels bits narrow - 1) /\ Qabs (nlo - lo) <= (1#2) * step /\ Qabs (nhi - hi) <= (1#2) * step /\
  let fq := fake_quant bits narrow lo hi in
  (forall x, exists i, (0 <= i < levels bits narrow)%Z /\ fq x == nlo + inject_Z i * step) /\
  fq 0 == 0 /\
  (forall x y, x <= y -> fq x <= fq y) /\
  (forall x, nlo <= x <= nhi -> Qabs (fq x - x) <= (1#2) * step) /\
  (forall x, x <= nlo -> fq x == nlo) /\ (forall x, nhi <= x -> fq x == nhi) /\
  (forall x, fq (fq x) == fq x).
Proof. exact fq_main. Qed.
Print Assumptions C33_fake_quant.
Theorem C33_zero_range : forall bits narrow x lo hi, lo == 0 -> hi == 0 -> fake_quant bits narrow lo hi x = 0.
Proof. exact fq_zero_range. Qed.
Print Assumptions C33_zero_range.
(** A fixed range that does not contain zero is moved until it touches zero: FixedQuantizer(1, 3) quantizes to [0, 2], not to [1, 3]. *)
Theorem C33_fixed_range : forall init_min init_max narrow x y, FixedQuantize init_min init_max narrow x = Ok y ->
  exists lo hi, lo <= 0 <= hi /\ hi - lo == init_max - init_min /\ lo < hi /\
    (init_min <= 0 <= init_max -> lo == init_min /\ hi == init_max) /\ (0 < init_min -> lo == 0) /\ (init_max < 0 -> hi == 0) /\
    shape y = shape x /\ Forall2 (fun v u => u == fake_quant 8 narrow lo hi v) (data x) (data y).
Proof. exact fixed_one_sided. Qed.
Print Assumptions C33_fixed_range.
Example C33_fixed_ex : match FixedQuantize 1 3 false (mkT [3]%nat [1; 2; 3]) with Ok y => map Qred (data y) = [256#255; 2; 2] | Err _ => False end.
Proof. reflexivity. Qed.
Example C33_ex : map (fun x => Qred (fake_quant 2 false (-1) 2 x)) [(-5); (-1); (-2#5); 0; (3#5); (14#10); 7] = [(-1); (-1); 0; 0; 1; 1; 2] /\
  Qred (fake_quant 2 false (-1#10) (29#10) (29#10)) = 3.
Proof. split; reflexivity. Qed.

(** ** C34 *)
Theorem C34_zero_in_range : forall q shp w0 calls w, build q shp = Ok w0 -> run q w0 calls = Ok w ->
  match w with Some r => forall lo hi, In (lo, hi) (range_list r) -> lo <= 0 <= hi | None => True end.
Proof. exact ranges_contain_zero. Qed.
Print Assumptions C34_zero_in_range.
Theorem C34_last_value_symmetric : forall c bits per_axis narrow w x y v',
  call (LastValueQuantizer c bits per_axis true narrow) true w x = Ok (y, Some v') ->
  forall lo hi, In (lo, hi) (range_list v') -> hi == min_max_ratio bits narrow * lo.
Proof. exact last_value_symmetric. Qed.
Print Assumptions C34_last_value_symmetric.
Theorem C34_all_values_symmetric : forall bits per_axis narrow shp w0 calls v,
  build (AllValuesQuantizer bits per_axis true narrow) shp = Ok w0 -> run (AllValuesQuantizer bits per_axis true narrow) w0 calls = Ok (Some v) ->
  forall lo hi, In (lo, hi) (range_list v) -> hi == min_max_ratio bits narrow * lo.
Proof. exact all_values_symmetric. Qed.
Print Assumptions C34_all_values_symmetric.
Theorem C34_moving_average_symmetric : forall bits per_axis shp w0 calls v,
  build (MovingAverageQuantizer bits per_axis true true) shp = Ok w0 -> run (MovingAverageQuantizer bits per_axis true true) w0 calls = Ok (Some v) ->
  forall lo hi, In (lo, hi) (range_list v) -> hi == - lo.
Proof. exact moving_average_symmetric. Qed.
Print Assumptions C34_moving_average_symmetric.
Definition t2 : tensor Q := mkT [2; 2]%nat [1; (-2); 3; (1#2)].
Definition t2b : tensor Q := mkT [2; 2]%nat [5; 6; 7; 8].
Example C34_ex : exists w0 w, build (MovingAverageQuantizer 8 false false false) None = Ok w0 /\
  run (MovingAverageQuantizer 8 false false false) w0 [(true, t2); (false, t2b); (true, t2b)] = Ok (Some w) /\
  map (fun p => (Qred (fst p), Qred (snd p))) (range_list w) = [((-1497501#250000), (5999003#1000000))].
Proof. do 2 eexists. split; [reflexivity|]. split; reflexivity. Qed.

(** ** C35 *)
Theorem C35_all_values : forall bits per_axis narrow shp w0 calls w,
  build (AllValuesQuantizer bits per_axis false narrow) shp = Ok w0 -> Forall (fun c => batch (snd c)) calls ->
  run (AllValuesQuantizer bits per_axis false narrow) w0 calls = Ok w ->
  exists lo hi, w = Some (Scalar lo hi) /\ is_min0 (List.concat (map data (training_batches calls))) lo /\ is_max0 (List.concat (map data (training_batches calls))) hi.
Proof. exact all_values_exact. Qed.
Print Assumptions C35_all_values.
Theorem C35_last_value_forgets : forall c bits per_axis symmetric narrow w w2 x y v y2 v2,
  call (LastValueQuantizer c bits per_axis symmetric narrow) true w x = Ok (y, v) ->
  call (LastValueQuantizer c bits per_axis symmetric narrow) true w2 x = Ok (y2, v2) -> y2 = y /\ v2 = v.
Proof. exact last_value_forgets. Qed.
Print Assumptions C35_last_value_forgets.
Theorem C35_last_value_range : forall bits narrow w x y v, batch x ->
  call (LastValueQuantizer CLastValue bits false false narrow) true w x = Ok (y, v) ->
  exists lo hi, v = Some (Scalar lo hi) /\ is_min0 (data x) lo /\ is_max0 (data x) hi.
Proof. exact last_value_range. Qed.
Print Assumptions C35_last_value_range.
Theorem C35_moving_average : forall bits narrow shp w0 calls w,
  build (MovingAverageQuantizer bits false false narrow) shp = Ok w0 -> Forall (fun c => batch (snd c)) calls ->
  run (MovingAverageQuantizer bits false false narrow) w0 calls = Ok w ->
  exists lo hi los his, w = Some (Scalar lo hi) /\
    Forall2 (fun x m => is_min0 (data x) m) (training_batches calls) los /\ lo == exp_average (999#1000) (-6) los /\
    Forall2 (fun x m => is_max0 (data x) m) (training_batches calls) his /\ hi == exp_average (999#1000) 6 his.
Proof. exact moving_average_exact. Qed.
Print Assumptions C35_moving_average.
Theorem C35_exp_average_hull : forall d a b xs, 0 <= d <= 1 -> forall v, a <= v <= b -> (forall x, In x xs -> a <= x <= b) -> a <= exp_average d v xs <= b.
Proof. exact exp_average_hull. Qed.
Print Assumptions C35_exp_average_hull.
Example C35_ex : run (AllValuesQuantizer 8 false false false) (Some (Scalar 0 0)) [(true, t2); (true, t2b)] = Ok (Some (Scalar (-2) 8)) /\
  run (LastValueQuantizer CLastValue 8 false false true) (Some (Scalar (-6) 6)) [(true, t2); (true, t2b)] = Ok (Some (Scalar 0 8)) /\ batch t2.
Proof. split; [reflexivity|]. split; [reflexivity|]. split; [reflexivity|discriminate]. Qed.

(** ** C36 *)
Theorem C36_inference_keeps_state : forall q w x y w', call q false w x = Ok (y, w') -> w' = w.
Proof. exact inference_keeps_state. Qed.
Print Assumptions C36_inference_keeps_state.
(** The output of a training call is the inference output under the range it has just stored. *)
Theorem C36_training_output : forall q w x y w', call q true w x = Ok (y, w') -> call q false w' x = Ok (y, w').
Proof. exact training_output_uses_new_state. Qed.
Print Assumptions C36_training_output.
Example C36_ex : exists y, call (AllValuesQuantizer 8 false false false) false (Some (Scalar (-2) 8)) t2 = Ok (y, Some (Scalar (-2) 8)).
Proof. eexists. reflexivity. Qed.

(** ** C37 *)
Theorem C37_independent : forall c bits symmetric narrow training ch w1 w2 x1 x2 y1 y2 v1 v2, per_axis_weights c = true -> batch x1 -> batch x2 ->
  call (LastValueQuantizer c bits true symmetric narrow) training w1 x1 = Ok (y1, v1) ->
  call (LastValueQuantizer c bits true symmetric narrow) training w2 x2 = Ok (y2, v2) ->
  agree_on_channel ch x1 x2 -> (ch < channels x1)%nat ->
  (training = false -> forall l1 l2, w1 = Some (PerAxis l1) -> w2 = Some (PerAxis l2) -> nth_error l1 ch = nth_error l2 ch) ->
  agree_on_channel ch y1 y2 /\ exists l1 l2, v1 = Some (PerAxis l1) /\ v2 = Some (PerAxis l2) /\ nth_error l1 ch = nth_error l2 ch.
Proof. exact per_axis_independent. Qed.
Print Assumptions C37_independent.
Theorem C37_training : forall c bits narrow w x y v, per_axis_weights c = true -> batch x ->
  call (LastValueQuantizer c bits true false narrow) true w x = Ok (y, v) ->
  shape y = shape x /\ exists l, v = Some (PerAxis l) /\ length l = last (shape x) 0%nat /\
  (forall ch lo hi, nth_error l ch = Some (lo, hi) ->
     lo <= 0 <= hi /\ (forall idx, valid (shape x) idx -> last idx 0%nat = ch -> lo <= tget 0 x idx <= hi) /\
     (lo == 0 \/ exists idx, valid (shape x) idx /\ last idx 0%nat = ch /\ tget 0 x idx == lo) /\
     (hi == 0 \/ exists idx, valid (shape x) idx /\ last idx 0%nat = ch /\ tget 0 x idx == hi)) /\
  (forall idx, valid (shape x) idx -> exists lo hi, nth_error l (last idx 0%nat) = Some (lo, hi) /\ tget 0 y idx = fake_quant bits narrow lo hi (tget 0 x idx)).
Proof. exact per_axis_training. Qed.
Print Assumptions C37_training.
Theorem C37_ranks : forall bits symmetric narrow shp l x, (2 <= bits <= 16)%nat -> shape x = shp -> shp <> [] -> length l = last shp 0%nat -> wf x ->
  ((length shp = 1 \/ length shp = 2 \/ length shp = 4)%nat -> exists y l', call (LastValueQuantizer CLastValue bits true symmetric narrow) true (Some (PerAxis l)) x = Ok (y, Some (PerAxis l'))) /\
  (~ (length shp = 1 \/ length shp = 2 \/ length shp = 4)%nat -> call (LastValueQuantizer CLastValue bits true symmetric narrow) true (Some (PerAxis l)) x = Err NameError).
Proof. exact per_axis_ranks. Qed.
Print Assumptions C37_ranks.
Example C37_ex : exists y, call (LastValueQuantizer CLastValue 8 true false true) true (Some (PerAxis [((-6), 6); ((-6), 6)])) t2 = Ok (y, Some (PerAxis [(0, 3); ((-2), (1#2))])) /\
  agree_on_channel 1 t2 (mkT [2; 2]%nat [9; (-2); 8; (1#2)]).
Proof.
  eexists. split; [reflexivity|]. split; [reflexivity|]. intros idx V L. apply L_Tensor.valid_cons_inv in V as (i & r & -> & I & V). apply L_Tensor.valid_cons_inv in V as (j & s & -> & J & V).
  apply L_Tensor.valid_nil_iff in V. subst s. cbn in L. subst j. destruct i as [|[|]]; [reflexivity|reflexivity|lia].
Qed.

(** ** C38 *)
Theorem C38_levels_partial : forall q shp w0 calls w training x y w', tracks_range q -> channelwise q = false ->
  build q shp = Ok w0 -> run q w0 calls = Ok w -> call q training w x = Ok (y, w') ->
  exists L, (length L <= 2 ^ bits_of q)%nat /\ forall v, In v (data y) -> exists u, In u L /\ v == u.
Proof. exact levels_bound. Qed.
Print Assumptions C38_levels_partial.
Theorem C38_levels_per_channel_partial : forall c b symmetric narrow shp w0 calls w training x y w' ch, per_axis_weights c = true -> batch x ->
  let q := LastValueQuantizer c b true symmetric narrow in build q shp = Ok w0 -> run q w0 calls = Ok w -> call q training w x = Ok (y, w') ->
  exists L, (length L <= 2 ^ b)%nat /\ forall idx, valid (shape y) idx -> last idx 0%nat = ch -> exists u, In u L /\ tget 0 y idx == u.
Proof. exact levels_bound_channel. Qed.
Print Assumptions C38_levels_per_channel_partial.
(** FixedQuantizer(num_bits=4) ignores num_bits: the 17 inputs 0..16 are all representable. *)
Theorem C38_fixed_quantizer_refuted : exists x y, call (FixedQuantizer 4 0 255 false) true None x = Ok (y, None) /\
  length (data y) = 17%nat /\ (length (data y) > 2 ^ bits_of (FixedQuantizer 4 0 255 false))%nat /\ ForallOrdPairs (fun a b => ~ a == b) (data y).
Proof.
  exists (mkT [17]%nat (map (fun i => inject_Z (Z.of_nat i)) (seq 0 17))).
  eexists. split; [reflexivity|]. split; [reflexivity|]. split; [cbv; lia|]. vm_compute.
  repeat (constructor; [repeat (constructor; [intros H; discriminate H|]); constructor|]). constructor.
Qed.
Print Assumptions C38_fixed_quantizer_refuted.

(** ** C39 *)
(** MovingAverageQuantizer(per_axis=True) builds but can never be called. *)
Theorem C39_moving_average_per_axis_refuted : forall bits symmetric narrow shp training x, (2 <= bits <= 16)%nat -> (rank x = 2 \/ rank x = 4)%nat ->
  exists w0, build (MovingAverageQuantizer bits true symmetric narrow) shp = Ok w0 /\
    call (MovingAverageQuantizer bits true symmetric narrow) training w0 x = Err (if training then InvalidArgument else AssertionError).
Proof. exact moving_average_per_axis_unusable. Qed.
Print Assumptions C39_moving_average_per_axis_refuted.
Theorem C39_usable_partial : forall q shp calls, well_used q shp -> Forall (fun c => shape (snd c) = shp) calls ->
  exists w0 w, build q (Some shp) = Ok w0 /\ run q w0 calls = Ok w.
Proof. exact usable. Qed.
Print Assumptions C39_usable_partial.
Example C39_ex : well_used (LastValueQuantizer CLastValue 4 true true true) [2; 2]%nat /\ well_used Default8BitConvTransposeWeightsQuantizer [3; 3; 2; 5]%nat.
Proof. repeat split; cbn; auto; lia. Qed.

(** ** C40 *)
Theorem C40_round_trip_partial : forall q, base_class q -> from_config (class_of q) (get_config q) = Ok q.
Proof. exact base_round_trip. Qed.
Print Assumptions C40_round_trip_partial.
Theorem C40_equality_partial : forall a b, base_class a -> base_class b ->
  (quantizer_eq a b = true <-> class_of a = class_of b /\ config_equiv (get_config a) (get_config b)).
Proof. exact quantizer_eq_iff. Qed.
Print Assumptions C40_equality_partial.
(** The argument-less default_8bit quantizers cannot be rebuilt from their own get_config(). *)
Theorem C40_default_8bit_round_trip_refuted : forall q, q = Default8BitConvWeightsQuantizer \/ q = Default8BitConvTransposeWeightsQuantizer ->
  from_config (class_of q) (get_config q) = Err TypeError.
Proof. exact default8bit_no_round_trip. Qed.
Print Assumptions C40_default_8bit_round_trip_refuted.
Theorem C40_config_round_trip_partial : forall c, qat_from_config (qc_class c) (qat_get_config c) = c.
Proof. exact qat_round_trip. Qed.
Print Assumptions C40_config_round_trip_partial.
(** Exactly what Default8BitQuantizeConfig.__eq__ compares: the activation attributes play no role. *)
Theorem C40_config_equality_partial : forall a b, qat_config_eq a b = true <->
  qc_weight_attrs a = qc_weight_attrs b /\ qc_quantize_output a = qc_quantize_output b /\ (qc_class a = CfgConv <-> qc_class b = CfgConv).
Proof. exact qat_eq_iff. Qed.
Print Assumptions C40_config_equality_partial.
Theorem C40_config_equality_refuted : exists a b c, qat_config_eq a b = true /\ qc_activation_attrs a <> qc_activation_attrs b /\
  qat_config_eq a c = true /\ weight_quantizer a <> weight_quantizer c.
Proof. exists (mkQC CfgDense [0%nat] [1%nat] false), (mkQC CfgDense [0%nat] [] false), (mkQC CfgConvTranspose [0%nat] [1%nat] false). repeat split; discriminate. Qed.
Print Assumptions C40_config_equality_refuted.

(** ** C75 *)
(** Swapping the last two axes before and after quantizing makes no difference when the range is global. *)
Theorem C75_conv_transpose : forall training lo hi x y w, batch x ->
  call Default8BitConvTransposeWeightsQuantizer training (Some (Scalar lo hi)) x = Ok (y, w) ->
  exists lo1 hi1 lo2 hi2 y2, w = Some (Scalar lo1 hi1) /\ call (LastValueQuantizer CLastValue 8 false true true) training (Some (Scalar lo hi)) x = Ok (y2, Some (Scalar lo2 hi2)) /\
    lo1 == lo2 /\ hi1 == hi2 /\ shape y = shape x /\ shape y2 = shape x /\ forall idx, valid (shape x) idx -> tget 0 y idx == tget 0 y2 idx.
Proof. exact conv_transpose_plain. Qed.
Print Assumptions C75_conv_transpose.
Example C75_ex : exists y w, batch (mkT [1; 1; 2; 2]%nat [1; 2; 3; (-4)]) /\ call Default8BitConvTransposeWeightsQuantizer true (Some (Scalar (-6) 6)) (mkT [1; 1; 2; 2]%nat [1; 2; 3; (-4)]) = Ok (y, Some w).
Proof. do 2 eexists. split; [split; [reflexivity|discriminate]|]. reflexivity. Qed.
