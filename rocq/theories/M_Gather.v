(** GatherEncoder and SimpleEncoder: the flat, user-facing view of an encoder tree.
    Sources: internal/tensor_encoding/core/gather_encoder.py:88-551, core/simple_encoder.py:47-213, utils/py_utils.py:83-190.
    The underlying Encoder is given by its methods on nested dictionaries ([core]);
    [W] stands for whatever a call draws at random.  [compatible s v] is TensorSpec.is_compatible_with, [spec v] is
    TensorSpec.from_tensor.  Eager execution: name scopes and tf.function signatures are left out. *)
From Coq Require Import Ascii.
From Verif Require Import Base M_Encoder M_Dicts.

(** A Python string as its code points. *)
Definition codes (s : string) : key := map nat_of_ascii (list_ascii_of_string s).

(** ** tf.nest on nested dictionaries (sorted keys, see M_Dicts) *)
(** The structure with its leaves mapped; the flag tells TensorFlow values. *)
Fixpoint structure {V X} (f : bool -> V -> X) (v : dval V) : struct X :=
  match v with
  | DPy x => Leaf (f false x)
  | DTf x => Leaf (f true x)
  | DDict d => Tree ((fix go d := match d with [] => [] | (k, c) :: r => (codes k, structure f c) :: go r end) d)
  end.
Section Nest.
Context {V : Type}.
(** A leaf: whether it is a TensorFlow value, and the value. *)
Definition leaf : Type := (bool * V)%type.
Definition to_struct (v : dval V) : struct leaf := structure (fun b x => (b, x)) v.
(** tf.nest.flatten. *)
Definition nflatten (v : dval V) : list leaf := map snd (flatten_with_path (to_struct v)).
(** tf.nest.map_structure(lambda _: None, v). *)
Fixpoint blank (v : dval V) : dval unit :=
  match v with
  | DPy _ | DTf _ => DPy tt
  | DDict d => DDict ((fix go d := match d with [] => [] | (k, c) :: r => (k, blank c) :: go r end) d)
  end.
(** tf.nest.map_structure(tf.convert_to_tensor, v). *)
Fixpoint tensors (v : dval V) : dval V :=
  match v with
  | DPy x | DTf x => DTf x
  | DDict d => DDict ((fix go d := match d with [] => [] | (k, c) :: r => (k, tensors c) :: go r end) d)
  end.
Definition of_leaf (l : leaf) : dval V := if fst l then DTf (snd l) else DPy (snd l).
(** Every leaf of the structure replaced by what is found for its path. *)
Fixpoint fill (s : dval unit) (look : list key -> option leaf) : res (dval V) :=
  match s with
  | DDict d => do d' <- (fix go d := match d with
                         | [] => Ok []
                         | (k, c) :: r => do c' <- fill c (fun p => look (codes k :: p)) ;; do r' <- go r ;; Ok ((k, c') :: r')
                         end) d ;; Ok (DDict d')
  | _ => match look [] with Some l => Ok (of_leaf l) | None => Err ValueError end
  end.
Definition path_eqb (p q : list key) : bool := if list_eq_dec (list_eq_dec Nat.eq_dec) p q then true else false.
Fixpoint plookup (p : list key) (r : list (list key * leaf)) : option leaf :=
  match r with [] => None | (q, l) :: r' => if path_eqb p q then Some l else plookup p r' end.
(** tf.nest.pack_sequence_as. *)
Definition pack (s : dval unit) (l : list leaf) : res (dval V) :=
  do r <- pack_sequence_as (structure (fun _ _ => tt) s) l ;; fill s (fun p => plookup p r).
End Nest.
Arguments leaf V : clear implicits.

Section Gather.
Context {V Sp M W : Type} (spec : V -> Sp) (compatible : Sp -> V -> bool).

(** The methods of core_encoder.Encoder; the two splits are split_params_by_commuting_structure and
    split_shapes_by_commuting_structure with the encoder's commuting structure. *)
Record core := mkCore {
  k_modes : dval M;                                                            (* state_update_aggregation_modes *)
  k_initial : dval V;                                                          (* initial_state *)
  k_params : W -> dval V -> res (dval V * dval V);                             (* get_params *)
  k_split_params : dval V -> res (dval V * dval V);
  k_split_shapes : dval V -> res (dval V * dval V);
  k_encode : W -> V -> dval V -> res (dval V * dval V * dval V);               (* encoded, state updates, input shapes *)
  k_decode : dval V -> dval V -> dval V -> res V;                              (* decode *)
  k_before : dval V -> dval V -> dval V -> res (dval V);                       (* decode_before_sum *)
  k_after : dval V -> dval V -> Z -> dval V -> res V;                          (* decode_after_sum *)
  k_update : dval V -> dval V -> res (dval V)                                  (* update_state *)
}.

(** py_utils.py:170-190 [assert_compatible] on tuples and on dictionaries. *)
Definition check_list (ss : list Sp) (vs : list V) : res unit :=
  if (Nat.eqb (List.length ss) (List.length vs) && forallb (fun p => compatible (fst p) (snd p)) (combine ss vs))%bool then Ok tt else Err ValueError.
Definition check_dict (ss : list (key * Sp)) (d : list (key * V)) : res unit :=
  if path_eqb (map fst (ksort ss)) (map fst (ksort d)) then check_list (map snd (ksort ss)) (map snd (ksort d)) else Err ValueError.
(** collections.OrderedDict(pairs). *)
Fixpoint kset {X} (k : key) (v : X) (d : list (key * X)) : list (key * X) :=
  match d with [] => [(k, v)] | (k', w) :: r => if list_eq_dec Nat.eq_dec k k' then (k', v) :: r else (k', w) :: kset k v r end.
Definition odict {X} (l : list (key * X)) : list (key * X) := fold_left (fun d kv => kset (fst kv) (snd kv) d) l [].

Definition tf (v : V) : leaf V := (true, v).
Definition values (v : dval V) : list V := map snd (nflatten v).
(** OrderedDict(flatten_with_joined_string_paths(v)). *)
Definition joined (v : dval V) : list (key * leaf V) := odict (flatten_with_joined_string_paths (to_struct v)).
Definition joined_values (v : dval V) : list (key * V) := map (fun kl => (fst kl, snd (snd kl))) (joined v).
(** Flat TensorFlow values and recorded Python values put together again (gather_encoder.py:264-267, 298-305, 333-336). *)
Definition rebuild (s : dval unit) (py : dval V) (flat : list V) : res (dval V) :=
  do t <- pack s (map tf flat) ;; merge_dicts t py.
Definition dict_item (k : string) (v : dval V) : res (dval V) :=
  match v with DDict d => dindex k d | _ => Err TypeError end.

(** A part-decoded value as the user sees it: a tensor or a flat dictionary (gather_encoder.py:311-316). *)
Inductive part := PT (v : V) | PD (d : list (key * V)).
Definition to_part (v : dval V) : part := match v with DDict _ => PD (joined_values v) | DTf x | DPy x => PT x end.
Inductive part_spec := PTs (s : Sp) | PDs (d : list (key * Sp)).
Definition spec_of_part (p : part) : part_spec := match p with PT v => PTs (spec v) | PD d => PDs (map (fun kv => (fst kv, spec (snd kv))) d) end.
Definition check_part (s : part_spec) (p : part) : res unit :=
  match s, p with PTs s, PT v => check_list [s] [v] | PDs s, PD d => check_dict s d | _, _ => Err ValueError end.
Definition part_values (p : part) : list V := match p with PT v => [v] | PD d => nest_flatten_flat d end.

(** ** gather_encoder.py:120-363 [GatherEncoder.from_encoder] *)
(** What the closures remember from the first calls: structures, Python values, specs. *)
Record slot := mkSlot { sl_struct : dval unit; sl_py : dval V; sl_spec : list Sp }.
Record gather := mkGather {
  g_core : core; g_tspec : Sp; g_zeros : V; g_modes : list M;
  g_state : dval unit; g_state_spec : list Sp;
  g_ep : slot; g_bp : slot; g_ap : slot;
  g_enc : dval unit; g_enc_py : dval V; g_enc_spec : list (key * Sp); g_upd : dval unit;
  g_part : dval unit; g_part_spec : part_spec }.

(** 213-232: the nested parameters of [get_params_fn]. *)
Definition nested_params (c : core) (zeros : V) (w : W) (st : dval V) : res (dval V * dval V * dval V) :=
  do (ep, dp) <- k_params c w st ;;
  do (bp, ap) <- k_split_params c dp ;;
  do (es, sh) <- k_encode c w zeros ep ;;
  do (_, sha) <- k_split_shapes c sh ;;
  Ok (ep, bp, DDict [("params", ap); ("shapes", sha)]).
(** 234-250. *)
Definition slot_of (v : dval V) : res slot :=
  do (py, t) <- split_dict_py_tf v ;; Ok (mkSlot (blank t) py (map spec (values t))).
Definition tf_values (v : dval V) : res (list V) := do (_, t) <- split_dict_py_tf v ;; Ok (values t).
(** 268-280: the nested encoded structure and the state-update tensors of [encode_fn]. *)
Definition nested_encode (c : core) (w : W) (x : V) (ep : dval V) : res (dval V * dval V) :=
  do (es, sh) <- k_encode c w x ep ;;
  let '(enc, upd) := es in
  do (shb, _) <- k_split_shapes c sh ;;
  Ok (DDict [("tensors", enc); ("shapes", shb)], upd).
(** 306-310. *)
Definition nested_before (c : core) (es bp : dval V) : res (dval V) :=
  do enc <- dict_item "tensors" es ;; do sh <- dict_item "shapes" es ;; k_before c enc bp sh.
(** 337-341. *)
Definition nested_after (c : core) (p ap : dval V) (n : Z) : res V :=
  do a <- dict_item "params" ap ;; do sh <- dict_item "shapes" ap ;; k_after c p a n sh.

(** The methods (375-551); the fields never change after construction (185-191: a slot is written once). *)
Definition g_initial_state (g : gather) : list V := values (tensors (k_initial (g_core g))).
Definition g_get_params (g : gather) (w : W) (fs : list V) : res (list V * list V * list V) :=
  do _ <- check_list (g_state_spec g) fs ;;
  do st <- pack (g_state g) (map tf fs) ;;
  do (eb, ap) <- nested_params (g_core g) (g_zeros g) w st ;;
  let '(ep, bp) := eb in
  do e <- tf_values ep ;; do b <- tf_values bp ;; do a <- tf_values ap ;; Ok (e, b, a).
Definition use (s : slot) (ps : list V) : res (dval V) :=
  do _ <- check_list (sl_spec s) ps ;; rebuild (sl_struct s) (sl_py s) ps.
Definition g_encode (g : gather) (w : W) (x : V) (ps : list V) : res (list (key * V) * list V) :=
  if compatible (g_tspec g) x then
    do ep <- use (g_ep g) ps ;;
    do (es, upd) <- nested_encode (g_core g) w x ep ;;
    do (_, t) <- split_dict_py_tf es ;;
    Ok (joined_values t, values upd)
  else Err ValueError.
Definition g_decode_before_sum (g : gather) (d : list (key * V)) (ps : list V) : res part :=
  do _ <- check_dict (g_enc_spec g) d ;;
  do _ <- check_list (sl_spec (g_bp g)) ps ;;
  do es <- rebuild (g_enc g) (g_enc_py g) (nest_flatten_flat d) ;;
  do bp <- rebuild (sl_struct (g_bp g)) (sl_py (g_bp g)) ps ;;
  do r <- nested_before (g_core g) es bp ;; Ok (to_part r).
Definition g_decode_after_sum (g : gather) (p : part) (ps : list V) (n : Z) : res V :=
  do _ <- check_part (g_part_spec g) p ;;
  do _ <- check_list (sl_spec (g_ap g)) ps ;;
  do q <- pack (g_part g) (map tf (part_values p)) ;;
  do ap <- rebuild (sl_struct (g_ap g)) (sl_py (g_ap g)) ps ;;
  nested_after (g_core g) q ap n.
Definition g_update_state (g : gather) (fs us : list V) : res (list V) :=
  do _ <- check_list (g_state_spec g) fs ;;
  do st <- pack (g_state g) (map tf fs) ;;
  do u <- pack (g_upd g) (map tf us) ;;
  do st' <- k_update (g_core g) st u ;; Ok (values st').

Definition from_encoder (c : core) (tspec : Sp) (zeros : V) (w : W) : res gather :=
  let st := tensors (k_initial c) in
  do (eb, ap) <- nested_params c zeros w st ;;
  let '(ep, bp) := eb in
  do se <- slot_of ep ;; do sb <- slot_of bp ;; do sa <- slot_of ap ;;
  do pe <- tf_values ep ;; do pb <- tf_values bp ;; do pa <- tf_values ap ;;
  (* 283: encode_fn(tf.zeros(...), encode_params) *)
  do ep' <- use se pe ;;
  do (es, upd) <- nested_encode c w zeros ep' ;;
  do (es_py, es_tf) <- split_dict_py_tf es ;;
  let enc := joined_values es_tf in
  (* 318: decode_before_sum_fn(encoded_structure, decode_before_sum_params) *)
  do es' <- rebuild (blank es_tf) es_py (nest_flatten_flat enc) ;;
  do bp' <- use sb pb ;;
  do pd <- nested_before c es' bp' ;;
  let g := mkGather c tspec zeros (map snd (nflatten (k_modes c))) (blank st) (map spec (values st)) se sb sa
             (blank es_tf) es_py (map (fun kv => (fst kv, spec (snd kv))) enc) (blank upd) (blank pd) (spec_of_part (to_part pd)) in
  (* 343-345, 357-358 *)
  do y <- g_decode_after_sum g (to_part pd) pa 1 ;;
  if compatible tspec y then
    do st' <- g_update_state g (values st) (values upd) ;;
    if Nat.eqb (List.length st') (List.length (values st)) then Ok g else Err ValueError
  else Err AssertionError.

(** ** simple_encoder.py:47-213 [SimpleEncoder] *)
Record simple := mkSimple { m_core : core; m_tspec : Sp; m_state : dval unit; m_full : dval unit; m_py : list (key * leaf V) }.
(** 106-119 [encode_fn], nested. *)
Definition full_structure (c : core) (w : W) (x : V) (st : dval V) : res (dval V * dval V) :=
  do (ep, dp) <- k_params c w st ;;
  do (es, sh) <- k_encode c w x ep ;;
  let '(enc, upd) := es in
  do st' <- k_update c st upd ;;
  Ok (DDict [("encoded_tensors", enc); ("params", dp); ("shapes", sh)], st').
(** 121-127: the flat dictionary, split into Python and TensorFlow values. *)
Definition py_items (l : list (key * leaf V)) := filter (fun kl => negb (fst (snd kl))) l.
Definition tf_items (l : list (key * leaf V)) := filter (fun kl => fst (snd kl)) l.
Definition m_encode (m : simple) (w : W) (x : V) (fs : list V) : res (list (key * V) * list V) :=
  if compatible (m_tspec m) x then
    do st <- pack (m_state m) (map tf fs) ;;
    do (full, st') <- full_structure (m_core m) w x st ;;
    Ok (map (fun kl => (fst kl, snd (snd kl))) (tf_items (joined full)), values st')
  else Err ValueError.
(** 89-96 [initial_state_fn]; 166-195: [encode] without a state starts from it. *)
Definition m_initial_state (m : simple) : list V := values (tensors (k_initial (m_core m))).
(** 140-147 [decode_fn]; the tensors must have exactly the recorded keys (tf.function's signature). *)
Definition m_decode (m : simple) (d : list (key * V)) : res V :=
  do full <- pack (m_full m) (nest_flatten_flat (map (fun kv => (fst kv, tf (snd kv))) d ++ m_py m)) ;;
  do enc <- dict_item "encoded_tensors" full ;; do p <- dict_item "params" full ;; do sh <- dict_item "shapes" full ;;
  k_decode (m_core m) enc p sh.
(** 84-150: the structures are recorded while tracing with some input [x] of the given spec. *)
Definition make_simple (c : core) (tspec : Sp) (x : V) (w : W) : res simple :=
  let st := tensors (k_initial c) in
  do (full, _) <- full_structure c w x st ;;
  Ok (mkSimple c tspec (blank st) (blank full) (py_items (joined full))).
End Gather.
