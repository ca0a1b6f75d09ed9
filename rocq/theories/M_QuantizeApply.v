(** quantize_annotate_model, quantize_apply, fix_input_output_range, remove_input_range.
    Source: quantization/keras/quantize.py (and quantize_config.py).
    Simplifications: an annotated layer is a layer with its annotation - the QuantizeAnnotate wrapper's own name is not
    represented, connections name the wrapped layers; Keras' clone_model applies the clone function to every layer except
    InputLayers, keeps the connections and keeps the weights of the layers the function returns. *)
From Coq Require Import String.
From Verif Require Import Base M_Tensor M_Quant M_Transform M_Layout8.
Open Scope string_scope.
Open Scope nat_scope.

(** ** 145-230 quantize_annotate_model *)
(** What clone_function sees: already annotated, a Lambda layer, a nested model, anything else. *)
Inductive klayer := KAnnotated (l : layerc) (c : option qcfg) | KLambda (l : layerc) | KModel (l : layerc) | KLayer (l : layerc).
(** 205-226 [_add_quant_wrapper]. *)
Definition add_quant_wrapper (k : klayer) : res klayer :=
  match k with
  | KAnnotated l c => Ok (KAnnotated l c)
  | KLambda l => Ok (KLambda l)
  | KModel _ => Err ValueError
  | KLayer l => Ok (KAnnotated l None)
  end.
Definition k_layer (k : klayer) : layerc := match k with KAnnotated l _ | KLambda l | KModel l | KLayer l => l end.
(** The argument: None, not a model, a model that is neither Sequential nor functional, or such a model. *)
Inductive target := TNone | TNotModel | TSubclassed | TModel (kind : mkind) (layers : list klayer).
Definition is_input (k : klayer) : bool := String.eqb (lc_class (k_layer k)) "InputLayer".
Definition quantize_annotate_model (t : target) : res (list klayer) :=
  match t with
  | TNone | TNotModel | TSubclassed => Err ValueError
  | TModel _ ls => mapM (fun k => if is_input k then Ok k else add_quant_wrapper k) ls
  end.

(** ** 289-501 quantize_apply *)
(** A built model: layers with annotation ([Some c]: annotated, [c] the custom config if any), outputs, weights. *)
Record amodel := mkAM { am_kind : mkind; am_layers : list (layerc * option (option qcfg)); am_outputs : list conn; am_weights : list (string * wts); am_built : bool }.
Definition annotated_names (m : amodel) : list string := map (fun p => lc_name (fst p)) (filter (fun p => match snd p with Some _ => true | None => false end) (am_layers m)).
(** 373-403 [_extract_original_model]: the layer_quantize_map. *)
Definition layer_quantize_map (m : amodel) : list (string * meta) :=
  flat_map (fun p => match snd p with Some c => [(lc_name (fst p), mkMeta (Some c) false)] | None => [] end) (am_layers m).
(** node.inbound_layers of a layer: all connections; in a Sequential model the previous layer. *)
Definition inbound_of (m : amodel) (l : layerc) : list string :=
  match am_kind m with
  | Functional => inbound_layer_names l
  | Sequential => match map fst (am_layers m) with
                  | [] => []
                  | a :: _ => if String.eqb (lc_name a) (lc_name l) then [] else previous l (map fst (am_layers m)) end
  end.
(** 383-390: exactly one inbound node, exactly one inbound layer, and that one is not annotated. *)
Definition requires_output_quantize (m : amodel) : list string :=
  flat_map (fun p => match snd p with
                     | None => []
                     | Some _ => if (match am_kind m with Functional => Nat.eqb (List.length (lc_inbound (fst p))) 1 | Sequential => true end)
                                 then match inbound_of m (fst p) with
                                      | [n] => if inb n (annotated_names m) then [] else [n]
                                      | _ => [] end
                                 else [] end) (am_layers m).
(** 473-479: input layers one of whose consumers is in the map. *)
Definition input_layers (m : amodel) : list string :=
  map lc_name (filter (fun l => (String.eqb (lc_class l) "InputLayer" &&
     existsb (fun p => inb (lc_name l) (inbound_of m (fst p)) && inb (lc_name (fst p)) (annotated_names m)) (am_layers m)))%bool (map fst (am_layers m))).
Definition full_map (m : amodel) : list (string * meta) := (map (fun n => (n, meta_empty)) (input_layers m) ++ layer_quantize_map m)%list.

(** The layers of the result. *)
Inductive used := Use (c : qcfg) | OutputOnly (c : qcfg).
Inductive qlayer := Unwrapped (l : layerc) | Wrapped (name : string) (l : layerc) (c : used) | Quant (l : layerc) (quantizer_removed : bool).
(** default_8bit_quantize_registry.py:205-275: supports / get_quantize_config.  No RNN cell has an entry, so no RNN layer is
    supported. *)
Definition supports (l : layerc) : bool := is_supported_class (lc_class l).
Definition registry_config (l : layerc) : qcfg := RegistryCfg (lc_class l) false.
(** 405-455 [_quantize].  [already]: the layer is a QuantizeWrapper; [outbound]: number of its outbound nodes. *)
Definition quantize (prefix : string) (already : string -> bool) (outbound : string -> nat) (md : list (string * meta)) (req : list string) (l : layerc) : res qlayer :=
  let n := lc_name l in
  if String.eqb (lc_class l) "QuantizeLayer" then
    if 1 <? outbound n then Ok (Quant l false)
    else match assoc n md with
         | None => Ok (Quant l false)
         | Some m => match m_cfg m with Some _ => Err TypeError | None => Ok (Quant l (m_noquant m)) end
         end
  else
    let inmap := match assoc n md with Some _ => true | None => false end in
    if ((negb inmap && negb (inb n req)) || already n)%bool then Ok (Unwrapped l)
    else if inb n req then
      if supports l then Ok (Wrapped (prefix ++ n) l (OutputOnly (registry_config l))) else Ok (Unwrapped l)
    else
      match (match assoc n md with Some m => meta_config m | None => None end) with
      | Some c => Ok (Wrapped (prefix ++ n) l (Use c))
      | None => if supports l then Ok (Wrapped (prefix ++ n) l (Use (registry_config l))) else Err RuntimeError
      end.
(** clone_model with [quantize] (500-501): InputLayers are kept. *)
Definition quantize_all prefix already (st : state) (req : list string) : res (list qlayer) :=
  mapM (fun l => if String.eqb (lc_class l) "InputLayer" then Ok (Unwrapped l)
                 else quantize prefix already (fun n => List.length (consuming_layers st n)) (s_meta st) req l) (s_layers st).
(** 337-371: argument checks; 457-501.  [n] bounds the iterations of the transformer: None if they do not suffice. *)
Definition initial_state (m : amodel) : state :=
  init_state (map fst (am_layers m)) (am_outputs m) (am_weights m) (full_map m) (map fst (full_map m)).
Definition layout (sch : scheme) (gen : string -> nat -> string) (is_keras : string -> bool) (ueq : bool) (n : nat) (m : amodel) : outcome :=
  let ts := layout_transforms sch gen is_keras in
  iterate (default_meq sch ueq) (am_kind m) ts n (start ts (initial_state m)).
Definition quantize_apply (sch : scheme) gen is_keras ueq (n : nat) (prefix : string) (already : string -> bool) (m : amodel) : option (res (list qlayer * state)) :=
  match annotated_names m with
  | [] => Some (Err ValueError)
  | _ =>
    if negb (am_built m) then Some (Err ValueError)
    else match layout sch gen is_keras ueq n m with
         | Running _ => None
         | Failed e => Some (Err e)
         | Done st => Some (do ls <- quantize_all prefix already st (requires_output_quantize m) ;; Ok (ls, st))
         end
  end.

(** ** What a config quantizes: quantize_config.py:205-241 (OutputOnlyConfig), default_8bit_quantize_configs.py,
    default_8bit_quantize_registry.py:78-189, 301-339. *)
(** Weight attributes whose values are quantized, for the library's own configs ([None]: the user's config decides). *)
Definition registry_weight_attrs (cls : string) : list string :=
  if inb cls ["Dense"; "Conv2D"; "Conv2DTranspose"] then ["kernel"] else if inb cls ["DepthwiseConv2D"] then ["depthwise_kernel"] else [].
Definition quantized_weights (u : used) : option (list string) :=
  match u with
  | OutputOnly _ => Some []
  | Use (UserCfg _ _) => None
  | Use NoOpCfg | Use (OutputCfg _) => Some []
  | Use (RegistryCfg cls _) => Some (registry_weight_attrs cls)
  end.
(** Does the config attach a quantizer to the layer's output / to its activation attribute? *)
Definition registry_quantizes_output (cls : string) : bool :=
  inb cls ["ReLU"; "LeakyReLU"; "Concatenate"; "UpSampling2D"; "AveragePooling1D"; "AveragePooling2D"; "GlobalAveragePooling1D";
           "GlobalAveragePooling2D"; "GlobalAveragePooling3D"; "Add"].
Definition quantizes_output (u : used) : option bool :=
  match u with
  | Use (UserCfg _ false) | OutputOnly (UserCfg _ false) => None
  | Use (UserCfg _ true) | OutputOnly (UserCfg _ true) => Some false
  | Use NoOpCfg | OutputOnly NoOpCfg => Some false
  | Use (OutputCfg d) | OutputOnly (OutputCfg d) => Some (negb d)
  | Use (RegistryCfg cls d) | OutputOnly (RegistryCfg cls d) => Some (negb d && registry_quantizes_output cls)%bool
  end.

(** ** 563-724 fix_input_output_range / remove_input_range *)
(** Entries of a serialized layer that matter: class name, name, first inbound layer name (if the inbound nodes have the
    shape of 530-551), quantizer, quantize_config (absent, or a config possibly wrapped in FixedQuantizeConfig). *)
Inductive rcfg := RBase (id : nat) | RFixed (num_bits : Z) (lo hi : Q) (narrow : bool) (inner : rcfg).
Inductive rquantizer := RQOther (id : nat) | RQFixed (num_bits : Z) (lo hi : Q) (narrow : bool) | RQNone.
Record rlayer := mkR { r_class : string; r_name : string; r_input : option string; r_quantizer : option rquantizer; r_config : option rcfg }.
Inductive rmodel := RFunctional (layers : list rlayer) (inputs outputs : list string) | RSequential (layers : list rlayer).
Definition set_quantizer (q : rquantizer) (l : rlayer) : rlayer := mkR (r_class l) (r_name l) (r_input l) (Some q) (r_config l).
Definition wrap_config (f : rcfg -> rcfg) (l : rlayer) : rlayer :=
  mkR (r_class l) (r_name l) (r_input l) (r_quantizer l) (match r_config l with Some c => Some (f c) | None => None end).
(** 617-626, 703-712: layers fed by an input layer. *)
Definition fix_inputs (q : rquantizer) (inputs : list string) (l : rlayer) : rlayer :=
  match r_input l with Some n => if inb n inputs then set_quantizer q l else l | None => l end.
(** 628-642. *)
Definition fix_outputs (f : rcfg -> rcfg) (outputs : list string) (l : rlayer) : rlayer :=
  if inb (r_name l) outputs then wrap_config f l else l.
Fixpoint set_nth {A} (i : nat) (f : A -> A) (l : list A) : list A :=
  match l, i with [], _ => [] | a :: r, O => f a :: r | a :: r, S j => a :: set_nth j f r end.
Definition set_last {A} (f : A -> A) (l : list A) : list A := set_nth (List.length l - 1) f l.
(** 645-648: config['layers'][1]. *)
Definition check_sequential (ls : list rlayer) : res unit :=
  match ls with
  | [] => Err ValueError
  | [_] => Err IndexError
  | _ :: b :: _ => if String.eqb (r_class b) "QuantizeLayer" then Ok tt else Err ValueError
  end.
(** 644, 661, 714, 722: Model.from_config.  Only QuantizeLayer's constructor accepts a 'quantizer' argument. *)
Definition from_config_layers (ls : list rlayer) : res (list rlayer) :=
  mapM (fun l => match r_quantizer l with
                 | Some _ => if String.eqb (r_class l) "QuantizeLayer" then Ok l else Err TypeError
                 | None => Ok l end) ls.
Definition fix_input_output_range (num_bits : Z) (imin imax omin omax : Q) (narrow : bool) (m : rmodel) : res rmodel :=
  let q := RQFixed num_bits imin imax narrow in
  let f := RFixed num_bits omin omax narrow in
  match m with
  | RFunctional ls ins outs => do ls' <- from_config_layers (map (fix_outputs f outs) (map (fix_inputs q ins) ls)) ;; Ok (RFunctional ls' ins outs)
  | RSequential ls => do _ <- check_sequential ls ;; do ls' <- from_config_layers (set_last (wrap_config f) (set_nth 1 (set_quantizer q) ls)) ;; Ok (RSequential ls')
  end.
Definition remove_input_range (m : rmodel) : res rmodel :=
  match m with
  | RFunctional ls ins outs => do ls' <- from_config_layers (map (fix_inputs RQNone ins) ls) ;; Ok (RFunctional ls' ins outs)
  | RSequential ls => do _ <- check_sequential ls ;; do ls' <- from_config_layers (set_nth 1 (set_quantizer RQNone) ls) ;; Ok (RSequential ls')
  end.
