(** Properties C01-C04, C70 of pruning schedules. Statements only. *)
From Verif Require Import Base M_Schedule L_Schedule L_Schedule2.
From Coq Require Import Reals Qreals.
Open Scope Z_scope.

(** C01 *)
Theorem C01_constant_fires_exactly : forall t b e f s step,
  mk_constant t b e f = Ok s ->
  should_prune s step = true <->
  (exists k, 0 <= k /\ step = b + k * f) /\ (e = -1 \/ step <= e).
Proof. exact constant_fires. Qed.
Print Assumptions C01_constant_fires_exactly.
Theorem C01_polynomial_fires_exactly : forall i fi b e p f s step,
  mk_polynomial i fi b e p f = Ok s ->
  should_prune s step = true <->
  (exists k, 0 <= k /\ step = b + k * f) /\ step <= e.
Proof. exact polynomial_fires. Qed.
Print Assumptions C01_polynomial_fires_exactly.
Example C01_ex : exists s, mk_constant (1#2) 100 1000 50 = Ok s /\
  should_prune s 150 = true /\ should_prune s 151 = false /\ should_prune s 1050 = false.
Proof. eexists; repeat split. Qed.

(** C02 *)
Theorem C02_constant_accepts_iff : forall t b e f,
  (exists s, mk_constant t b e f = Ok s) <->
  (0 <= t)%Q /\ (t < 1)%Q /\ 0 <= b /\ 0 < f /\ (e = -1 \/ (0 <= e /\ b <= e)).
Proof. exact mk_constant_spec. Qed.
Print Assumptions C02_constant_accepts_iff.
Theorem C02_polynomial_accepts_iff : forall i fi b e p f,
  (exists s, mk_polynomial i fi b e p f = Ok s) <->
  (0 <= i)%Q /\ (i < 1)%Q /\ (0 <= fi)%Q /\ (fi < 1)%Q /\ 0 <= b /\ 0 < f /\ b <= e.
Proof. exact mk_polynomial_spec. Qed.
Print Assumptions C02_polynomial_accepts_iff.
Theorem C02_rejections_are_ValueError : forall t b e f i fi p x,
  (mk_constant t b e f = Err x -> x = ValueError) /\
  (mk_polynomial i fi b e p f = Err x -> x = ValueError).
Proof. intros. split. exact (mk_constant_err t b e f x). exact (mk_polynomial_err i fi b e p f x). Qed.
Print Assumptions C02_rejections_are_ValueError.
Example C02_ex : mk_constant (1#2) 0 (-1) 100 = Ok (ConstantSparsity (1#2) 0 (-1) 100)
  /\ mk_constant 1 0 (-1) 100 = Err ValueError /\ mk_polynomial 0 (1#2) 0 (-1) 3 100 = Err ValueError.
Proof. repeat split. Qed.

(** C03 *)
Theorem C03_polynomial_decay : forall i fi b e pw f s,
  mk_polynomial i fi b e pw f = Ok s -> b < e -> (0 < pw)%Q ->
  exists v : Z -> R,
    (forall t, target_sparsity s t = Fin (v t)) /\
    (forall t, t <= b -> v t = Q2R i) /\
    (forall t, e <= t -> v t = Q2R fi) /\
    (forall t, b <= t < e ->
       v t = (Q2R fi + (Q2R i - Q2R fi) *
              Rpower (1 - (IZR (t - b) / IZR (e - b))) (Q2R pw))%R) /\
    (forall t, Rmin (Q2R i) (Q2R fi) <= v t <= Rmax (Q2R i) (Q2R fi))%R /\
    (forall t, 0 <= v t < 1)%R /\
    (forall t1 t2, t1 <= t2 -> (i <= fi)%Q -> (v t1 <= v t2)%R) /\
    (forall t1 t2, t1 <= t2 -> (fi <= i)%Q -> (v t2 <= v t1)%R).
Proof. exact poly_spec. Qed.
Print Assumptions C03_polynomial_decay.
Theorem C03_constant_value : forall t b e f s step,
  mk_constant t b e f = Ok s -> target_sparsity s step = Fin (Q2R t).
Proof. exact constant_value. Qed.
Print Assumptions C03_constant_value.
Example C03_ex : mk_polynomial (1#10) (8#10) 0 1000 3 100 = Ok (PolynomialDecay (1#10) (8#10) 0 1000 3 100)
  /\ 0 < 1000 /\ (0 < 3)%Q.
Proof. repeat split. Qed.

(** C04: false as stated.  An accepted schedule with begin_step = end_step yields NaN on the only step on which it
    prunes; for positive powers this is the only way to get a non-number. *)
Theorem C04_refuted : exists i fi b e pw f s t,
  mk_polynomial i fi b e pw f = Ok s /\ should_prune s t = true /\ target_sparsity s t = NaN.
Proof. exists (1#2), (9#10), 10, 10, 3%Q, 1. eexists. exists 10. repeat split. Qed.
Print Assumptions C04_refuted.
Theorem C04_number_iff_nonempty_interval : forall i fi b e pw f s,
  mk_polynomial i fi b e pw f = Ok s -> (0 < pw)%Q ->
  (exists t, should_prune s t = true /\ forall v, target_sparsity s t <> Fin v) <-> b = e.
Proof. exact poly_fires_nan_iff. Qed.
Print Assumptions C04_number_iff_nonempty_interval.
(** The whole schedule with begin_step = end_step, ... *)
Theorem C04_empty_interval : forall i fi b pw f s, mk_polynomial i fi b b pw f = Ok s -> (0 < pw)%Q ->
  (forall t, t < b -> target_sparsity s t = Fin (Q2R i)) /\ target_sparsity s b = NaN /\ (forall t, b < t -> target_sparsity s t = Fin (Q2R fi)).
Proof. exact empty_interval. Qed.
Print Assumptions C04_empty_interval.
(** ... and with powers that are not positive, which are accepted as well: power 0 stays at the initial sparsity for ever
    and a negative power has no finite value from end_step on. *)
Theorem C04_power_zero : forall i fi b e pw f s, mk_polynomial i fi b e pw f = Ok s -> b < e -> (pw == 0)%Q -> forall t, target_sparsity s t = Fin (Q2R i).
Proof. exact zero_power. Qed.
Print Assumptions C04_power_zero.
Theorem C04_negative_power_refuted : forall i fi b e pw f s, mk_polynomial i fi b e pw f = Ok s -> b < e -> (pw < 0)%Q -> forall t, e <= t ->
  ((i == fi)%Q -> target_sparsity s t = NaN) /\ ((fi < i)%Q -> target_sparsity s t = PInf) /\ ((i < fi)%Q -> target_sparsity s t = NInf).
Proof. exact negative_power. Qed.
Print Assumptions C04_negative_power_refuted.
Example C04_ex2 : is_ok (mk_polynomial (1#10) (8#10) 5 5 3 100) = true /\ is_ok (mk_polynomial (1#10) (8#10) 5 50 0 100) = true /\ is_ok (mk_polynomial (1#10) (8#10) 5 50 (-1 # 1) 100) = true.
Proof. repeat split. Qed.
Example C04_ex : exists s, mk_polynomial (1#10) (8#10) 5 1000 3 100 = Ok s /\ 5 <> 1000 /\ should_prune s 105 = true.
Proof. eexists; repeat split. discriminate. Qed.

(** C70: schedules survive get_config/from_config. *)
Theorem C70_constant_roundtrip : forall t b e f s,
  mk_constant t b e f = Ok s -> schedule_from_config (schedule_get_config s) = Ok s.
Proof. exact schedule_roundtrip_constant. Qed.
Print Assumptions C70_constant_roundtrip.
Theorem C70_polynomial_roundtrip : forall i fi b e pw f s,
  mk_polynomial i fi b e pw f = Ok s -> schedule_from_config (schedule_get_config s) = Ok s.
Proof. exact schedule_roundtrip_polynomial. Qed.
Print Assumptions C70_polynomial_roundtrip.
Example C70_ex : schedule_from_config (schedule_get_config (PolynomialDecay (1#10) (8#10) 0 1000 3 100))
  = Ok (PolynomialDecay (1#10) (8#10) 0 1000 3 100).
Proof. reflexivity. Qed.
