(** QuantizeWrapper, QuantizeWrapperV2, QuantizeAwareActivation.  Sources: quantization/keras/quantize_wrapper.py,
    quantization/keras/quantize_aware_activation.py, quantization/keras/default_8bit/default_8bit_quantize_registry.py.
    Simplifications: attribute names and variables are numbers; a wrapped layer's [call] is an arbitrary function of the
    values of its attributes and of the input, followed by its (optional) activation attribute; single-output layers only;
    no RNN cells. *)
From Coq Require Import String.
From Verif Require Import Base M_Num M_Tensor M_Quant.
Open Scope string_scope.

(** * quantize_aware_activation.py *)
(** 84-93: _PRE_QUANT_ACTIVATIONS, _POST_QUANT_ACTIVATIONS, _NO_QUANTIZE_ACTIVATIONS. *)
Definition PRE_QUANT : list string := ["softmax"; "sigmoid"; "tanh"; "gelu"].
Definition POST_QUANT : list string := ["linear"; "relu"; "swish"; "gelu"].
Definition NO_QUANT : list string := ["NoOpActivation"].
Definition in_set (s : string) (l : list string) : bool := if in_dec string_dec s l then true else false.
(** 102-143: an activation with its quantizer and the ranges of the two possible quantization points. *)
Record qact := mkAct { a_name : string; a_fun : tensor Q -> tensor Q; a_quantizer : quantizer; a_pre : option ranges; a_post : option ranges }.
Definition QuantizeAwareActivation (name : string) (f : tensor Q -> tensor Q) (q : quantizer) : res qact :=
  if negb (in_set name PRE_QUANT || in_set name POST_QUANT || in_set name NO_QUANT)%bool then Err ValueError
  else
    do pre <- (if in_set name PRE_QUANT then build q None else Ok None) ;;
    do post <- (if in_set name POST_QUANT then build q None else Ok None) ;;
    Ok (mkAct name f q pre post).
(** 156-184 [__call__] with self.training = training. *)
Definition act_call (a : qact) (training : bool) (x : tensor Q) : res (tensor Q * qact) :=
  do (x1, pre) <- (if in_set (a_name a) PRE_QUANT then call (a_quantizer a) training (a_pre a) x else Ok (x, a_pre a)) ;;
  let x2 := a_fun a x1 in
  do (x3, post) <- (if in_set (a_name a) POST_QUANT then call (a_quantizer a) training (a_post a) x2 else Ok (x2, a_post a)) ;;
  Ok (x3, mkAct (a_name a) (a_fun a) (a_quantizer a) pre post).
Fixpoint act_run (a : qact) (calls : list (bool * tensor Q)) : res (list (tensor Q) * qact) :=
  match calls with
  | [] => Ok ([], a)
  | (tr, x) :: r => do (y, a') <- act_call a tr x ;; do (ys, a'') <- act_run a' r ;; Ok (y :: ys, a'')
  end.
(** default_8bit_quantize_registry.py:484-504 [Default8BitActivationQuantizeConfig.get_output_quantizers]; the name is None
    when the activation object has no __name__. *)
Definition activation_layer_output_quantizers (quantize_output : bool) (name : option string) : res (list quantizer) :=
  if negb quantize_output then Ok []
  else match name with
       | None => Err ValueError
       | Some n => if in_set n ["relu"; "swish"; "gelu"; "relu6"] then Ok [MovingAverageQuantizer 8 false false false]
                   else if in_set n ["linear"; "softmax"; "sigmoid"; "tanh"] then Ok []
                   else Err ValueError
       end.

(** * The wrapped layer *)
Inductive aval := AVar (v : nat) | ATensor (t : tensor Q).
Definition store := nat -> tensor Q.
Record layer := mkLayer {
  l_attrs : list (nat * aval);             (* attributes holding weights *)
  l_tracked : list nat;                    (* Keras' _trainable_weights *)
  l_trainable : bool;
  l_act : option (string * (tensor Q -> tensor Q));
  l_fwd : list (nat * tensor Q) -> tensor Q -> tensor Q }.
Fixpoint alookup {A} (k : nat) (l : list (nat * A)) : option A := match l with [] => None | (k', v) :: r => if Nat.eqb k k' then Some v else alookup k r end.
Fixpoint update {A} (k : nat) (v : A) (l : list (nat * A)) : list (nat * A) :=
  match l with [] => [] | (k', v') :: r => if Nat.eqb k k' then (k, v) :: r else (k', v') :: update k v r end.
Definition value (st : store) (a : aval) : tensor Q := match a with AVar v => st v | ATensor t => t end.
Definition values (st : store) (l : layer) : list (nat * tensor Q) := map (fun p => (fst p, value st (snd p))) (l_attrs l).
(** Keras Layer.__setattr__ with a tensor: the old attribute is deleted, which stops tracking the variable it held. *)
Definition setattr_tensor (l : layer) (a : nat) (t : tensor Q) : layer :=
  mkLayer (update a (ATensor t) (l_attrs l))
    (match alookup a (l_attrs l) with Some (AVar v) => filter (fun u => negb (Nat.eqb u v)) (l_tracked l) | _ => l_tracked l end)
    (l_trainable l) (l_act l) (l_fwd l).
(** Keras Layer.trainable_weights. *)
Definition layer_trainable_weights (l : layer) : list nat := if l_trainable l then l_tracked l else [].

(** * default_8bit_quantize_registry.py:301-335 *)
Definition getattr (l : layer) (a : nat) : res aval := match alookup a (l_attrs l) with Some v => Ok v | None => Err AttributeError end.
Definition shape_eqb (a b : list nat) : bool := if list_eq_dec Nat.eq_dec a b then true else false.
Fixpoint set_weights (st : store) (l : layer) (attrs : list nat) (ws : list (tensor Q)) : res layer :=
  match attrs, ws with
  | a :: attrs', w :: ws' =>
      do cur <- getattr l a ;;
      if negb (shape_eqb (shape (value st cur)) (shape w)) then Err ValueError
      else set_weights st (setattr_tensor l a w) attrs' ws'
  | _, _ => Ok l
  end.
Definition set_quantize_weights (c : qat_config) (st : store) (l : layer) (ws : list (tensor Q)) : res layer :=
  if negb (Nat.eqb (List.length (qc_weight_attrs c)) (List.length ws)) then Err ValueError else set_weights st l (qc_weight_attrs c) ws.

(** * quantize_wrapper.py *)
Inductive wclass := V1 | V2.
Record wrapper := mkW {
  w_class : wclass; w_cfg : qat_config; w_layer : layer;
  w_vars : list (nat * quantizer * option ranges);   (* _weight_vars *)
  w_own : list nat;                                  (* the wrapper's _trainable_weights *)
  w_acts : list qact;                                (* _quantize_activations *)
  w_out : option (quantizer * option ranges) }.
(** 103-135 [build] and 254-256 (V2).  Only Variables can be quantized; 'activation' is the only activation attribute. *)
Definition build_weight (st : store) (l : layer) (q : quantizer) (a : nat) : res (nat * quantizer * option ranges) :=
  do v <- getattr l a ;;
  match v with
  | AVar i => do r <- build q (Some (shape (st i))) ;; Ok (i, q, r)
  | ATensor _ => Err ValueError
  end.
Definition build_acts (c : qat_config) (l : layer) : res (list qact) :=
  match qc_activation_attrs c with
  | [] => Ok []
  | _ :: _ => match l_act l with None => Err AttributeError
              | Some (n, f) => do a <- QuantizeAwareActivation n f (activation_quantizer c) ;; Ok [a] end
  end.
Definition build_wrapper (cls : wclass) (c : qat_config) (st : store) (l : layer) : res wrapper :=
  let own0 := match cls with V1 => [] | V2 => layer_trainable_weights l end in
  do vars <- mapM (build_weight st l (weight_quantizer c)) (qc_weight_attrs c) ;;
  do acts <- build_acts c l ;;
  do out <- (if qc_quantize_output c then do r <- build (activation_quantizer c) None ;; Ok (Some (activation_quantizer c, r)) else Ok None) ;;
  Ok (mkW cls c l vars (own0 ++ map (fun p => fst (fst p)) vars) acts out).
(** 148-195 [call]. *)
Definition quantize_weight (st : store) (training : bool) (p : nat * quantizer * option ranges) : res (tensor Q * (nat * quantizer * option ranges)) :=
  let '(v, q, r) := p in do (y, r') <- call q training r (st v) ;; Ok (y, (v, q, r')).
Fixpoint run_acts (acts : list qact) (training : bool) (x : tensor Q) : res (tensor Q * list qact) :=
  match acts with
  | [] => Ok (x, [])
  | a :: r => do (y, a') <- act_call a training x ;; do (z, r') <- run_acts r training y ;; Ok (z, a' :: r')
  end.
(** The layer's own activation, used when the config does not replace it. *)
Definition own_activation (c : qat_config) (l : layer) (x : tensor Q) : tensor Q :=
  match qc_activation_attrs c, l_act l with [], Some (_, f) => f x | _, _ => x end.
Definition call_wrapper (st : store) (w : wrapper) (training : bool) (x : tensor Q) : res (tensor Q * wrapper * store) :=
  do qs <- mapM (quantize_weight st training) (w_vars w) ;;
  do l' <- set_quantize_weights (w_cfg w) st (w_layer w) (map fst qs) ;;
  let h := own_activation (w_cfg w) l' (l_fwd l' (values st l') x) in
  do (h', acts') <- run_acts (w_acts w) training h ;;
  do (o, out') <- (match w_out w with None => Ok (h', None) | Some (q, r) => do (o, r') <- call q training r h' ;; Ok (o, Some (q, r')) end) ;;
  Ok (o, mkW (w_class w) (w_cfg w) l' (map snd qs) (w_own w) acts' out', st).
(** 233-234 and 258-262 [trainable_weights]; Keras' _dedup_weights keeps the first occurrence. *)
Fixpoint dedup (seen l : list nat) : list nat :=
  match l with [] => [] | a :: r => if in_dec Nat.eq_dec a seen then dedup seen r else a :: dedup (a :: seen) r end.
Definition trainable_weights (w : wrapper) : list nat :=
  match w_class w with
  | V1 => (layer_trainable_weights (w_layer w) ++ w_own w)%list
  | V2 => dedup [] (w_own w ++ layer_trainable_weights (w_layer w))
  end.
(** 224-230: setting [trainable] on the wrapper sets it on the layer. *)
Definition set_trainable (w : wrapper) (b : bool) : wrapper :=
  let l := w_layer w in
  mkW (w_class w) (w_cfg w) (mkLayer (l_attrs l) (l_tracked l) b (l_act l) (l_fwd l)) (w_vars w) (w_own w) (w_acts w) (w_out w).

(** Histories: forward passes in either mode, weight updates by an optimizer or the user, and (un)freezing. *)
Inductive event := Forward (training : bool) (x : tensor Q) | Update (st : store) | SetTrainable (b : bool).
Fixpoint run_wrapper (st : store) (w : wrapper) (evs : list event) : res (store * wrapper) :=
  match evs with
  | [] => Ok (st, w)
  | Forward tr x :: r => do (ow, st') <- call_wrapper st w tr x ;; run_wrapper st' (snd ow) r
  | Update st' :: r => run_wrapper st' w r
  | SetTrainable b :: r => run_wrapper st (set_trainable w b) r
  end.
