(** Model of keras/metrics.py: usage gauges. *)
From Coq Require Import String.
From Verif Require Import Base.
Open Scope string_scope.
Open Scope list_scope.

(** keras/metrics.py:25-43: the five gauges of the class, by their monitoring path. *)
Inductive gauge := PruneForBenchmark | PruneLowMagnitude | PruneWrapper | QuantizeApply | QuantizeWrapper.
(** keras/metrics.py:51-63 get_usage_gauge; [MonitorBoolGauge(name)] (48-49) raises what it raises. *)
Definition get_usage_gauge (name : string) : res gauge :=
  if String.eqb name "prune_for_benchmark_usage" then Ok PruneForBenchmark
  else if String.eqb name "prune_low_magnitude_usage" then Ok PruneLowMagnitude
  else if String.eqb name "prune_low_magnitude_wrapper_usage" then Ok PruneWrapper
  else if String.eqb name "quantize_apply_usage" then Ok QuantizeApply
  else if String.eqb name "quantize_wrapper_usage" then Ok QuantizeWrapper
  else Err ValueError.

(** The cells: [None] = never set.  Setting a cell is assumed not to raise. *)
Definition cells := gauge -> string -> option bool.
Definition gauge_eqb (a b : gauge) : bool :=
  match a, b with
  | PruneForBenchmark, PruneForBenchmark | PruneLowMagnitude, PruneLowMagnitude | PruneWrapper, PruneWrapper
  | QuantizeApply, QuantizeApply | QuantizeWrapper, QuantizeWrapper => true
  | _, _ => false
  end.
Definition set_cell (c : cells) (g : gauge) (label : string) (v : bool) : cells :=
  fun g' l' => if (gauge_eqb g' g && String.eqb l' label)%bool then Some v else c g' l'.
(** keras/metrics.py:82-90 set: [label] defaults to None, written "None" here, [value] to True. *)
Definition gauge_set (c : cells) (g : gauge) (label : string) (value : bool) : cells := set_cell c g label value.

(** How a Python call ends: a value, an instance of Exception, or another BaseException (KeyboardInterrupt, SystemExit). *)
Inductive outcome (A E : Type) := Returned (a : A) | RaisedException (e : E) | RaisedBase (e : E).
Arguments Returned {A E}. Arguments RaisedException {A E}. Arguments RaisedBase {A E}.

(** A Python function: it may read and change the rest of the world [W] and the cells (it may itself call monitored functions). *)
Definition pyfun (X A E W : Type) := X -> W * cells -> outcome A E * (W * cells).
(** keras/metrics.py:65-80 __call__: the decorated function. *)
Definition monitored {X A E W} (g : gauge) (f : pyfun X A E W) : pyfun X A E W :=
  fun x st =>
    let '(o, (w, c)) := f x st in
    match o with
    | Returned _ => (o, (w, set_cell c g "success" true))
    | RaisedException _ => (o, (w, set_cell c g "failure" true))
    | RaisedBase _ => (o, (w, c))
    end.
