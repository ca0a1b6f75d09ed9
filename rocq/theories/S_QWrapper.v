(** Specification vocabulary for the quantization wrapper. *)
From Coq Require Import String.
From Verif Require Import Base M_Tensor M_Quant M_QWrapper.
Open Scope string_scope.

(** What the documentation of quantization-aware activations says: (quantize the input, quantize the output), or
    unsupported. *)
Definition declared (name : string) : option (bool * bool) :=
  if string_dec name "softmax" then Some (true, false)
  else if string_dec name "sigmoid" then Some (true, false)
  else if string_dec name "tanh" then Some (true, false)
  else if string_dec name "linear" then Some (false, true)
  else if string_dec name "relu" then Some (false, true)
  else if string_dec name "swish" then Some (false, true)
  else if string_dec name "gelu" then Some (true, true)
  else if string_dec name "NoOpActivation" then Some (false, false)
  else None.
(** One quantization point: quantize (and update its own range) or pass through. *)
Definition point (on : bool) (q : quantizer) (training : bool) (r : option ranges) (x : tensor Q) : res (tensor Q * option ranges) :=
  if on then call q training r x else Ok (x, r).
(** The behaviour of an activation with the two points switched on or off, over a history of calls: the two ranges
    evolve independently. *)
Fixpoint declared_run (pre post : bool) (f : tensor Q -> tensor Q) (q : quantizer) (r1 r2 : option ranges) (calls : list (bool * tensor Q)) : res (list (tensor Q)) :=
  match calls with
  | [] => Ok []
  | (tr, x) :: rest =>
      do (x1, r1') <- point pre q tr r1 x ;;
      do (y, r2') <- point post q tr r2 (f x1) ;;
      do ys <- declared_run pre post f q r1' r2' rest ;;
      Ok (y :: ys)
  end.
(** The store after a history: only [Update] events count. *)
Fixpoint last_store (st : store) (evs : list event) : store :=
  match evs with [] => st | Update st' :: r => last_store st' r | _ :: r => last_store st r end.
Definition has_forward (evs : list event) : Prop := exists tr x, In (Forward tr x) evs.
(** The variables behind the quantized attributes of a layer. *)
Definition quantized_vars (c : qat_config) (l : layer) (vs : list nat) : Prop :=
  Forall2 (fun a v => getattr l a = Ok (AVar v)) (qc_weight_attrs c) vs.
(** A freshly created layer whose quantized weights are distinct trainable variables. *)
Definition fresh (c : qat_config) (l : layer) (vs : list nat) : Prop :=
  quantized_vars c l vs /\ NoDup (qc_weight_attrs c) /\ NoDup (l_tracked l) /\ NoDup vs /\ incl vs (l_tracked l).
(** Updates keep the shapes of the variables. *)
Definition same_shapes (vs : list nat) (st st' : store) : Prop := forall v, In v vs -> shape (st' v) = shape (st v).
(** The layer has an activation exactly as the config expects, and it is a supported one. *)
Definition supported_activation (c : qat_config) (l : layer) : Prop :=
  qc_activation_attrs c = [] \/ exists n f, l_act l = Some (n, f) /\ declared n <> None.
