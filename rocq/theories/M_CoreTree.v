(** core_encoder.Encoder on the nested dictionaries it really exchanges (M_Encoder has the same functions on typed trees), so
    that GatherEncoder and SimpleEncoder (M_Gather) can be run on actual encoder trees.
    Sources: internal/tensor_encoding/core/core_encoder.py:25-463, 530-616; core/encoding_stage.py:578-810.
    [V]: Python values and tensors; [is_none]: Python's None; [W0]: what one stage draws at random in one call.  Keys that are
    members of EncoderKeys are written as the strings they become in joined paths; their order is the same.  Name scopes are
    left out.  Eager execution: py_utils.static_or_dynamic_shape returns the static shape, a Python value ([shape_of]). *)
From Verif Require Import Base M_Encoder M_Dicts M_Gather.

(** core_encoder.py:25-35 [EncoderKeys]. *)
Definition CHILDREN := "EncoderKeys.CHILDREN".
Definition PARAMS := "EncoderKeys.PARAMS".
Definition SHAPE := "EncoderKeys.SHAPE".
Definition STATE := "EncoderKeys.STATE".
Definition TENSORS := "EncoderKeys.TENSORS".

(** A new dictionary built by a loop over the items of a dictionary. *)
Section Loop.
Context {A B : Type} (f : string -> A -> res B) (g : string -> A -> B).
Fixpoint kmapM (d : dict A) : res (dict B) := match d with [] => Ok [] | (k, a) :: r => do b <- f k a ;; do r' <- kmapM r ;; Ok ((k, b) :: r') end.
Fixpoint kmap (d : dict A) : dict B := match d with [] => [] | (k, a) :: r => (k, g k a) :: kmap r end.
End Loop.

Section Core.
Context {V M W0 : Type} (is_none : V -> bool) (none : V) (shape_of : V -> V).

(** AdaptiveEncodingStageInterface (encoding_stage.py:270-500); the dictionaries that reach the methods have been converted
    to tensors by the decorators of 500-725. *)
Record astage := mkAStage {
  a_commutes : bool;                                                        (* commutes_with_sum *)
  a_needs_shape : bool;                                                     (* decode_needs_input_shape *)
  a_modes : dict M;                                                         (* state_update_aggregation_modes *)
  a_initial : dict (leaf V);                                                (* initial_state *)
  a_update : dict V -> dict V -> res (dict V);                              (* update_state *)
  a_params : W0 -> dict V -> res (dict (leaf V) * dict (leaf V));           (* get_params *)
  a_encode : W0 -> V -> dict V -> res (dict V * dict V);                    (* encode: encoded tensors, state updates *)
  a_decode : dict V -> dict V -> option Z -> option V -> res V              (* decode: tensors, params, num_summands, shape *)
}.
(** EncodingStageInterface. *)
Record pstage := mkPStage {
  p_commutes : bool; p_needs_shape : bool; p_params : W0 -> res (dict (leaf V) * dict (leaf V));
  p_encode : W0 -> V -> dict V -> res (dict V); p_decode : dict V -> dict V -> option Z -> option V -> res V }.
(** encoding_stage.py:726-810 [as_adaptive_encoding_stage], [NoneStateAdaptiveEncodingStage]. *)
Definition as_adaptive (s : pstage) : astage :=
  mkAStage (p_commutes s) (p_needs_shape s) [] [] (fun _ _ => Ok []) (fun w _ => p_params s w)
    (fun w x p => do e <- p_encode s w x p ;; Ok (e, [])) (p_decode s).

(** core_encoder.py:58-75 [Encoder.__init__]. *)
Inductive aenc := AEnc (s : astage) (kids : dict aenc).

(** Dictionaries of leaves and of tensors as nested dictionaries. *)
Definition leaves (d : dict (leaf V)) : dval V := DDict (kmap (fun _ l => of_leaf l) d).
Definition tensor_dict (d : dict V) : dval V := DDict (kmap (fun _ x => DTf x) d).
(** tf.nest.map_structure(tf.convert_to_tensor, d) for a dictionary of leaves; None cannot be converted. *)
Definition convert_leaf (v : dval V) : res V :=
  match v with DTf x => Ok x | DPy x => if is_none x then Err ValueError else Ok x | DDict _ => Err TypeError end.
Definition convert (v : dval V) : res (dict V) := match v with DDict d => kmapM (fun _ w => convert_leaf w) d | _ => Err AttributeError end.
(** encoding_stage.py:713-714. *)
Definition convert_shape (v : dval V) : res (option V) :=
  match v with DTf x => Ok (Some x) | DPy x => Ok (if is_none x then None else Some x) | DDict _ => Err TypeError end.
(** [v[CHILDREN][k]]. *)
Definition child (k : string) (v : dval V) : res (dval V) := do c <- dict_item CHILDREN v ;; dict_item k c.

(** core_encoder.py:122-138 [state_update_aggregation_modes]. *)
Fixpoint c_modes (e : aenc) : dval M :=
  match e with AEnc s kids => DDict [(CHILDREN, DDict (kmap (fun _ c => c_modes c) kids)); (TENSORS, DDict (kmap (fun _ m => DPy m) (a_modes s)))] end.
(** core_encoder.py:155-166 [_initial_state_impl]. *)
Fixpoint c_initial (e : aenc) : dval V :=
  match e with AEnc s kids => DDict [(STATE, leaves (a_initial s)); (CHILDREN, DDict (kmap (fun _ c => c_initial c) kids))] end.
(** core_encoder.py:190-205 [_update_state_impl]; 541-552 conversion. *)
Fixpoint c_update (e : aenc) (st u : dval V) : res (dval V) :=
  match e with AEnc s kids =>
    do cs <- kmapM (fun k c => do sk <- child k st ;; do uk <- child k u ;; c_update c sk uk) kids ;;
    do s0 <- dict_item STATE st ;; do u0 <- dict_item TENSORS u ;; do s1 <- convert s0 ;; do u1 <- convert u0 ;;
    do r <- a_update s s1 u1 ;; Ok (DDict [(CHILDREN, DDict cs); (STATE, tensor_dict r)]) end.
(** core_encoder.py:229-243 [_get_params_impl]; every stage of the tree draws on its own. *)
Fixpoint c_params (e : aenc) (w : list string -> W0) (st : dval V) : res (dval V * dval V) :=
  match e with AEnc s kids =>
    do s0 <- dict_item STATE st ;; do s1 <- convert s0 ;; do (ep, dp) <- a_params s (w []) s1 ;;
    do cs <- kmapM (fun k c => do sk <- child k st ;; c_params c (fun p => w (k :: p)) sk) kids ;;
    Ok (DDict [(PARAMS, leaves ep); (CHILDREN, DDict (kmap (fun _ r => fst r) cs))], DDict [(PARAMS, leaves dp); (CHILDREN, DDict (kmap (fun _ r => snd r) cs))]) end.
(** core_encoder.py:280-300 [_encode_impl]; the keys of the children are distinct, so every child reads what the stage wrote. *)
Fixpoint c_encode (e : aenc) (w : list string -> W0) (x : V) (p : dval V) : res (dval V * dval V * dval V) :=
  match e with AEnc s kids =>
    do p0 <- dict_item PARAMS p ;; do p1 <- convert p0 ;; do (enc, upd) <- a_encode s (w []) x p1 ;;
    do cs <- kmapM (fun k c => do y <- dindex k enc ;; do pk <- child k p ;; c_encode c (fun q => w (k :: q)) y pk) kids ;;
    Ok (DDict (fold_left (fun d kr => dset (fst kr) (fst (fst (snd kr))) d) cs (kmap (fun _ y => DTf y) enc)),
        DDict [(TENSORS, tensor_dict upd); (CHILDREN, DDict (kmap (fun _ r => snd (fst r)) cs))],
        DDict [(SHAPE, if a_needs_shape s then DPy (shape_of x) else DPy none); (CHILDREN, DDict (kmap (fun _ r => snd r) cs))]) end.
(** stage.decode(tensors, decode_params[PARAMS], num_summands, shape[SHAPE]) with the conversions of 709-717. *)
Definition stage_decode (s : astage) (d : dict (dval V)) (p : dval V) (n : option Z) (sh : dval V) : res (dval V) :=
  do p0 <- dict_item PARAMS p ;; do s0 <- dict_item SHAPE sh ;;
  do d1 <- convert (DDict d) ;; do p1 <- convert p0 ;; do s1 <- convert_shape s0 ;;
  do y <- a_decode s d1 p1 n s1 ;; Ok (DTf y).
(** core_encoder.py:362-404 [_decode_before_sum_impl]. *)
Fixpoint c_before (force : bool) (e : aenc) (v p sh : dval V) : res (dval V) :=
  match e with AEnc s kids =>
    let force := (force || negb (a_commutes s))%bool in
    let subs := kmap (fun _ c => c_before force c) kids in
    match v with
    | DDict d =>
        do d' <- kmapM (fun k w => match dget k subs with Some f => do pk <- child k p ;; do shk <- child k sh ;; f w pk shk | None => Ok w end) d ;;
        if force then stage_decode s d' p None sh else Ok (DDict d')
    | _ => Err AttributeError
    end end.
(** core_encoder.py:443-463 [_decode_after_sum_impl]. *)
Fixpoint c_after (e : aenc) (v p : dval V) (n : Z) (sh : dval V) : res (dval V) :=
  match e with AEnc s kids =>
    let subs := kmap (fun _ c => c_after c) kids in
    if negb (a_commutes s) then match v with DTf _ => Ok v | _ => Err AssertionError end
    else match v with
    | DDict d =>
        do d' <- kmapM (fun k w => match dget k subs with Some f => do pk <- child k p ;; do shk <- child k sh ;; f w pk n shk | None => Ok w end) d ;;
        stage_decode s d' p (Some n) sh
    | _ => Err AttributeError
    end end.
Definition the_tensor (v : dval V) : res V := match v with DTf y => Ok y | _ => Err TypeError end.

(** core_encoder.py:110-120 [_commuting_structure_impl]. *)
Fixpoint c_commuting (previous : bool) (e : aenc) : tree bool :=
  match e with AEnc s kids => let current := (previous && a_commutes s)%bool in Node current (kmap (fun _ c => c_commuting current c) kids) end.
(** core_encoder.py:589-616 [_split_value_by_commuting_structure] (before, after). *)
Fixpoint c_split (key : string) (v : dval V) (c : tree bool) : res (dval V * dval V) :=
  match v with
  | DDict d =>
      let subs := kmap (fun _ w => match w with DDict dd => kmap (fun _ w' => c_split key w') dd | _ => [] end) d in
      do x <- dindex key d ;;
      let empty := match x with DDict dd => DDict (kmap (fun _ _ => DPy none) dd) | _ => DPy none end in
      do ch <- dindex CHILDREN d ;;
      match ch with
      | DDict _ =>
          do fs <- dindex CHILDREN subs ;;
          do ks <- kmapM (fun k f => do ck <- dindex k (tkids c) ;; f ck) fs ;;
          let b := DDict (kmap (fun _ r => fst r) ks) in let a := DDict (kmap (fun _ r => snd r) ks) in
          Ok (DDict [(key, if troot c then empty else x); (CHILDREN, b)], DDict [(key, if troot c then x else empty); (CHILDREN, a)])
      | _ => Err AttributeError
      end
  | _ => Err TypeError
  end.

(** The methods as GatherEncoder and SimpleEncoder call them (302-327, 329-360, 406-441). *)
Definition core_of (e : aenc) : @core V M (list string -> W0) :=
  mkCore (c_modes e) (c_initial e) (fun w st => c_params e w st)
    (fun p => c_split PARAMS p (c_commuting true e)) (fun s => c_split SHAPE s (c_commuting true e))
    (fun w x p => c_encode e w x p)
    (fun v p sh => do r <- c_before true e v p sh ;; the_tensor r)
    (fun v p sh => c_before false e v p sh)
    (fun v p n sh => do r <- c_after e v p n sh ;; the_tensor r)
    (fun st u => c_update e st u).
End Core.
Arguments astage : clear implicits. Arguments pstage : clear implicits. Arguments aenc : clear implicits.
