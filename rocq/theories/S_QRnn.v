(** Specification vocabulary for quantizing RNN layers. *)
From Coq Require Import String.
From Verif Require Import Base M_Num M_Tensor M_Quant M_QWrapper M_QRnn S_QWrapper.
Open Scope string_scope.
Open Scope list_scope.
Open Scope nat_scope.

(** The [i]-th cell of a layer. *)
Inductive cell_at : rnn -> nat -> nat -> Prop :=
| ca_one c : cell_at (OneCell c) 0 c
| ca_stack cs i c : nth_error cs i = Some c -> cell_at (Stacked cs) i c.
(** [declared_for attrs l c a]: the config lists attribute [a] for (a position of) cell [c]. *)
Definition declared_for (attrs : list (list string)) (l : rnn) (c : nat) (a : string) : Prop :=
  exists i as_, cell_at l i c /\ nth_error attrs i = Some as_ /\ In a as_.
(** The config has exactly one list of attributes for every cell. *)
Definition one_list_per_cell (attrs : list (list string)) (l : rnn) : Prop :=
  l <> NoCell /\ forall i, (exists c, cell_at l i c) <-> i < List.length attrs.
(** What a cell's attributes hold. *)
Definition holds_weight (h : rheap) (c : nat) (a : string) (v : aval) : Prop := get_weight h c a = Ok v.
Definition holds_act (h : rheap) (c : nat) (a : string) (v : actv) : Prop := get_act h c a = Ok v.
(** The values of the variables after a history. *)
Fixpoint final_store (st : store) (evs : list rqevent) : store :=
  match evs with [] => st | RUpdate st' :: r => final_store st' r | RForward _ :: r => final_store st r end.
(** A layer on which the config can work: every declared weight attribute holds a 2-dimensional variable, every declared
    activation attribute an activation that quantize-aware training supports. *)
Definition suits (c : rqcfg) (st : store) (h : rheap) (l : rnn) : Prop :=
  (forall d a, declared_for (rq_weight_attrs c) l d a -> exists v, holds_weight h d a (AVar v) /\ List.length (shape (st v)) = 2) /\
  (forall d a, declared_for (rq_activation_attrs c) l d a -> exists n f, holds_act h d a (Raw n f) /\ declared n <> None).
(** Updates keep shapes. *)
Definition keeps_shapes (st : store) (evs : list rqevent) : Prop := forall st', In (RUpdate st') evs -> forall v, shape (st' v) = shape (st v).
(** What the config promises: weights are quantized over the whole tensor, symmetrically and in the narrow range, from the
    last range seen; activations over the whole tensor, asymmetrically and in the full range, from a moving average. *)
Definition rnn_weight_quantizer (bits : nat) : quantizer := LastValueQuantizer CLastValue bits (* per_axis *) false (* symmetric *) true (* narrow_range *) true.
Definition rnn_activation_quantizer (bits : nat) : quantizer := MovingAverageQuantizer bits (* per_axis *) false (* symmetric *) false (* narrow_range *) false.
