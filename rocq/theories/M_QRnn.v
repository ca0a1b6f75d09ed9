(** Quantizing RNN layers: Default8BitQuantizeConfigRNN (quantization/keras/default_8bit/default_8bit_quantize_registry.py:378-447)
    and DefaultNBitQuantizeConfigRNN (quantization/keras/experimental/default_n_bit/default_n_bit_quantize_registry.py:418-483), which
    have the same code, and the part of quantize_wrapper.py that puts their weights and activations on the cells.
    Simplification: what a cell computes from its attributes is not modelled. *)
From Coq Require Import String.
From Verif Require Import Base M_Num M_Tensor M_Quant M_QWrapper.
Open Scope string_scope.
Open Scope list_scope.
Open Scope nat_scope.

(** An activation attribute: the user's activation (name and function) or the wrapper's [k]-th QuantizeAwareActivation. *)
Inductive actv := Raw (name : string) (f : tensor Q -> tensor Q) | Aware (k : nat).
(** Cells are objects, named by numbers; a cell has attributes with weights and attributes with activations. *)
Record rcell := mkRC { rc_weights : list (string * aval); rc_acts : list (string * actv) }.
Definition rheap := nat -> rcell.
(** [layer.cell]: one cell, StackedRNNCells, or no such attribute (Bidirectional). *)
Inductive rnn := OneCell (c : nat) | Stacked (cs : list nat) | NoCell.
(** default_8bit_quantize_registry.py:62-70 [_get_rnn_cells]. *)
Definition rnn_cells (l : rnn) : res (list nat) := match l with OneCell c => Ok [c] | Stacked cs => Ok cs | NoCell => Err AttributeError end.
(** The config (290-299; n-bit 325-337). *)
Record rqcfg := mkRQ { rq_weight_attrs : list (list string); rq_activation_attrs : list (list string); rq_weight_bits : nat; rq_act_bits : nat }.
Definition rq_weight_quantizer (c : rqcfg) : quantizer := LastValueQuantizer CLastValue (rq_weight_bits c) false true true.
Definition rq_activation_quantizer (c : rqcfg) : quantizer := MovingAverageQuantizer (rq_act_bits c) false false false.

Fixpoint sassoc {A} (k : string) (l : list (string * A)) : option A := match l with [] => None | (j, v) :: r => if String.eqb k j then Some v else sassoc k r end.
Fixpoint sput {A} (k : string) (v : A) (l : list (string * A)) : list (string * A) :=
  match l with [] => [(k, v)] | (j, x) :: r => if String.eqb k j then (j, v) :: r else (j, x) :: sput k v r end.
(** getattr and setattr on a cell. *)
Definition get_weight (h : rheap) (c : nat) (a : string) : res aval := match sassoc a (rc_weights (h c)) with Some v => Ok v | None => Err AttributeError end.
Definition get_act (h : rheap) (c : nat) (a : string) : res actv := match sassoc a (rc_acts (h c)) with Some v => Ok v | None => Err AttributeError end.
Definition put_weight (h : rheap) (c : nat) (a : string) (t : tensor Q) : rheap :=
  fun d => if Nat.eqb d c then mkRC (sput a (ATensor t) (rc_weights (h d))) (rc_acts (h d)) else h d.
Definition put_act (h : rheap) (c : nat) (a : string) (x : actv) : rheap :=
  fun d => if Nat.eqb d c then mkRC (rc_weights (h d)) (sput a x (rc_acts (h d))) else h d.

(** [for attrs_cell, rnn_cell in zip(attrs, cells): for attr in attrs_cell]: the (cell, attribute) pairs in loop order. *)
Definition loop (attrs : list (list string)) (cells : list nat) : list (nat * string) :=
  flat_map (fun p => map (fun a => (snd p, a)) (fst p)) (combine attrs cells).
(** 381-389 [get_weights_and_quantizers]. *)
Definition get_weights_and_quantizers (c : rqcfg) (h : rheap) (l : rnn) : res (list (aval * quantizer)) :=
  do cells <- rnn_cells l ;; mapM (fun p => do w <- get_weight h (fst p) (snd p) ;; Ok (w, rq_weight_quantizer c)) (loop (rq_weight_attrs c) cells).
(** 391-399 [get_activations_and_quantizers]. *)
Definition get_activations_and_quantizers (c : rqcfg) (h : rheap) (l : rnn) : res (list (actv * quantizer)) :=
  do cells <- rnn_cells l ;; mapM (fun p => do w <- get_act h (fst p) (snd p) ;; Ok (w, rq_activation_quantizer c)) (loop (rq_activation_attrs c) cells).
(** 408-431 [set_quantize_weights]: returns the heap also when it raises, with everything that was set before. *)
Fixpoint set_loop (st : store) (h : rheap) (ps : list (nat * string)) (ws : list (tensor Q)) : rheap * res unit :=
  match ps with
  | [] => (h, Ok tt)
  | (c, a) :: ps' =>
      match get_weight h c a, ws with
      | Ok cur, w :: ws' => if negb (shape_eqb (shape (value st cur)) (shape w)) then (h, Err ValueError) else set_loop st (put_weight h c a w) ps' ws'
      | Ok _, [] => (h, Err IndexError)
      | Err e, _ => (h, Err e)
      end
  end.
Definition set_quantize_weights (c : rqcfg) (st : store) (h : rheap) (l : rnn) (ws : list (tensor Q)) : rheap * res unit :=
  if negb (Nat.eqb (List.length (List.concat (rq_weight_attrs c))) (List.length ws)) then (h, Err ValueError)
  else match rnn_cells l with Err e => (h, Err e) | Ok cells => set_loop st h (loop (rq_weight_attrs c) cells) ws end.
(** 433-447 [set_quantize_activations]. *)
Fixpoint set_act_loop (h : rheap) (ps : list (nat * string)) (xs : list actv) : rheap * res unit :=
  match ps, xs with
  | [], _ => (h, Ok tt)
  | (c, a) :: ps', x :: xs' => set_act_loop (put_act h c a x) ps' xs'
  | _ :: _, [] => (h, Err IndexError)
  end.
Definition set_quantize_activations (c : rqcfg) (h : rheap) (l : rnn) (xs : list actv) : rheap * res unit :=
  if negb (Nat.eqb (List.length (List.concat (rq_activation_attrs c))) (List.length xs)) then (h, Err ValueError)
  else match rnn_cells l with Err e => (h, Err e) | Ok cells => set_act_loop h (loop (rq_activation_attrs c) cells) xs end.

(** ** The wrapper (quantize_wrapper.py) *)
Record rqwrapper := mkRQW { rw_cfg : rqcfg; rw_layer : rnn; rw_heap : rheap; rw_vars : list (nat * quantizer * option ranges); rw_acts : list qact }.
(** 103-135 [build] on a built layer; get_output_quantizers is empty (quantize_output=False). *)
Definition build_rq (c : rqcfg) (st : store) (h : rheap) (l : rnn) : res rqwrapper :=
  do ws <- get_weights_and_quantizers c h l ;;
  do vars <- mapM (fun wq => match fst wq with
                             | AVar v => do r <- build (snd wq) (Some (shape (st v))) ;; Ok (v, snd wq, r)
                             | ATensor _ => Err AttributeError
                             end) ws ;;
  do acs <- get_activations_and_quantizers c h l ;;
  do acts <- mapM (fun aq => match fst aq with
                             | Raw n f => QuantizeAwareActivation n f (snd aq)
                             | Aware _ => Err ValueError
                             end) acs ;;
  Ok (mkRQW c l h vars acts).
(** 148-178 [call] up to the wrapped layer's own call. *)
Definition call_rq (st : store) (w : rqwrapper) (training : bool) : res rqwrapper :=
  do qs <- mapM (quantize_weight st training) (rw_vars w) ;;
  let '(h1, r1) := set_quantize_weights (rw_cfg w) st (rw_heap w) (rw_layer w) (map fst qs) in
  do _ <- r1 ;;
  let '(h2, r2) := set_quantize_activations (rw_cfg w) h1 (rw_layer w) (map Aware (seq 0 (List.length (rw_acts w)))) in
  do _ <- r2 ;;
  Ok (mkRQW (rw_cfg w) (rw_layer w) h2 (map snd qs) (rw_acts w)).
(** A history: forward passes in either mode and changes of the variables. *)
Inductive rqevent := RForward (training : bool) | RUpdate (st : store).
Fixpoint run_rq (st : store) (w : rqwrapper) (evs : list rqevent) : res (store * rqwrapper) :=
  match evs with
  | [] => Ok (st, w)
  | RForward tr :: r => do w' <- call_rq st w tr ;; run_rq st w' r
  | RUpdate st' :: r => run_rq st' w r
  end.
