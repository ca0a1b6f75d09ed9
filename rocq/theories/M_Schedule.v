(** Pruning schedules.  Source: sparsity/keras/pruning_schedule.py *)
From Verif Require Import Base.
From Coq Require Import Reals Qreals.
Open Scope Z_scope.

(** pruning_schedule.py:40-64 [PruningSchedule._should_prune_in_step].
    [tf.math.floormod] is Python's [%]; for frequency > 0 it is [Z.modulo]. *)
Definition should_prune_in_step (step begin_step end_step frequency : Z) : bool :=
  let is_in_pruning_range :=
    (begin_step <=? step) && ((step <=? end_step) || (end_step <? 0)) in
  let is_pruning_turn := ((step - begin_step) mod frequency =? 0) in
  is_in_pruning_range && is_pruning_turn.

(** pruning_schedule.py:66-95 [PruningSchedule._validate_step]. *)
Definition validate_step (begin_step end_step frequency : Z) (allow_negative_1 : bool) : res unit :=
  if begin_step <? 0 then Err ValueError
  else if negb allow_negative_1 && (end_step =? -1) then Err ValueError
  else do _ <- (if negb (end_step =? -1) then
                  if end_step <? 0 then Err ValueError
                  else if end_step <? begin_step then Err ValueError
                  else Ok tt
                else Ok tt) ;;
       if frequency <=? 0 then Err ValueError else Ok tt.

(** pruning_schedule.py:97-99 [PruningSchedule._validate_sparsity]. *)
Definition validate_sparsity (s : Q) : res unit :=
  if Qle_bool 0 s && negb (Qle_bool 1 s) then Ok tt else Err ValueError.

(** A schedule object; the fields are the attributes assigned in [__init__].
    pruning_schedule.py:134-177 and 180-259.  [pd_power] is a Python number (a rational). *)
Inductive schedule : Type :=
| ConstantSparsity (target : Q) (begin_step end_step frequency : Z)
| PolynomialDecay (initial final : Q) (begin_step end_step : Z) (power : Q) (frequency : Z).

(** pruning_schedule.py:137-161 [ConstantSparsity.__init__]. *)
Definition mk_constant (target : Q) (b e f : Z) : res schedule :=
  do _ <- validate_step b e f true ;;
  do _ <- validate_sparsity target ;;
  Ok (ConstantSparsity target b e f).

(** pruning_schedule.py:183-220 [PolynomialDecay.__init__]. *)
Definition mk_polynomial (initial final : Q) (b e : Z) (power : Q) (f : Z) : res schedule :=
  do _ <- validate_step b e f false ;;
  do _ <- validate_sparsity initial ;;
  do _ <- validate_sparsity final ;;
  Ok (PolynomialDecay initial final b e power f).

(** First component of [__call__]: pruning_schedule.py:164-165 and 244-245. *)
Definition should_prune (s : schedule) (step : Z) : bool :=
  match s with
  | ConstantSparsity _ b e f => should_prune_in_step step b e f
  | PolynomialDecay _ _ b e _ f => should_prune_in_step step b e f
  end.

(** IEEE-style values: finite numbers, infinities and NaN (rounding is not modelled). *)
Inductive ext (A : Type) : Type := Fin (a : A) | PInf | NInf | NaN.
Arguments Fin {A} a. Arguments PInf {A}. Arguments NInf {A}. Arguments NaN {A}.

(** pruning_schedule.py:235-237: float division [cast(step-begin)/(end-begin)]; IEEE division by zero. *)
Definition ext_div (a b : Z) : ext Q :=
  if b =? 0 then (if a =? 0 then NaN else if 0 <? a then PInf else NInf)
  else Fin (inject_Z a / inject_Z b)%Q.

(** pruning_schedule.py:231-237: [minimum(1.0, maximum(0.0, x))]; tf.maximum/minimum propagate NaN. *)
Definition Qmaxb (a b : Q) : Q := if Qle_bool a b then b else a.
Definition Qminb (a b : Q) : Q := if Qle_bool a b then a else b.
Definition clip01 (x : ext Q) : ext Q :=
  match x with
  | Fin q => Fin (Qminb 1 (Qmaxb 0 q))
  | PInf => Fin 1%Q
  | NInf => Fin 0%Q
  | NaN => NaN
  end.

(** [tf.math.pow(base, power)] for a base in [0,1]: IEEE pow at base 0 (pow(0,0)=1, pow(0,neg)=inf). *)
Definition pow01 (base power : Q) : ext R :=
  if Qeq_bool base 0 then
    if Qeq_bool power 0 then Fin 1%R
    else if Qle_bool 0 power then Fin 0%R
    else PInf
  else Fin (Rpower (Q2R base) (Q2R power)).

(** float multiply-add [c * x + d] with finite [c], [d]. *)
Definition ext_axpb (c : Q) (x : ext R) (d : Q) : ext R :=
  match x with
  | Fin r => Fin (Q2R c * r + Q2R d)%R
  | NaN => NaN
  | PInf => if Qeq_bool c 0 then NaN else if Qle_bool 0 c then PInf else NInf
  | NInf => if Qeq_bool c 0 then NaN else if Qle_bool 0 c then NInf else PInf
  end.

(** pruning_schedule.py:231-237: the progress [p]. *)
Definition poly_progress (b e step : Z) : ext Q := clip01 (ext_div (step - b) (e - b)).

(** Second component of [__call__] (the target sparsity): pruning_schedule.py:166 and 229-242. *)
Definition target_sparsity (s : schedule) (step : Z) : ext R :=
  match s with
  | ConstantSparsity t _ _ _ => Fin (Q2R t)
  | PolynomialDecay ini fin b e power _ =>
      match poly_progress b e step with
      | Fin p => ext_axpb (ini - fin) (pow01 (1 - p) power) fin
      | _ => NaN
      end
  end.

(** [get_config]: pruning_schedule.py:168-177, 248-259: class name plus constructor arguments;
    [deserialize_keras_object] looks the class up and calls [cls( **config)] (121-131). *)
Inductive sched_config : Type :=
| CfgConstant (target : Q) (b e f : Z)
| CfgPolynomial (ini fin : Q) (power : Q) (b e f : Z).
Definition schedule_get_config (s : schedule) : sched_config :=
  match s with
  | ConstantSparsity t b e f => CfgConstant t b e f
  | PolynomialDecay i fi b e p f => CfgPolynomial i fi p b e f
  end.
Definition schedule_from_config (c : sched_config) : res schedule :=
  match c with
  | CfgConstant t b e f => mk_constant t b e f
  | CfgPolynomial i fi p b e f => mk_polynomial i fi b e p f
  end.
