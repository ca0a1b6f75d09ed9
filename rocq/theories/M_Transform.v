(** ModelTransformer: find-and-replace on the config of a Keras model.
    Source: quantization/keras/graph_transformations/model_transformer.py and transforms.py.
    Simplifications: config values are represented by their str(); an inbound node is the list of its connections
    (dict-valued nodes by their values, 74-81); layers have unique names, so removing "the dict equal to this layer"
    (270-271) is removing the layer of that name; Keras' construction of the final model from the config (619-629) is the
    environment; float equality of weights is equality of rationals. *)
From Coq Require Import String Ascii.
From Verif Require Import Base M_Tensor.
Open Scope string_scope.
Open Scope nat_scope.

(** ** Layers, metadata, nodes *)
(** One connection [layer_name, node_index, tensor_index, kwargs]; a keyword argument that is a tensor of another layer is
    a list starting with that layer's name (99-102). *)
Record conn := mkConn { c_name : string; c_node : nat; c_tensor : nat; c_kwargs : list (string * option string) }.
(** A serialized layer: class_name, config['name'], the other config entries, inbound_nodes. *)
Record layerc := mkLc { lc_class : string; lc_name : string; lc_cfg : list (string * string); lc_inbound : list (list conn) }.
(** QuantizeConfigs that can be attached to a layer: one supplied by the user (any object, by identity), NoOpQuantizeConfig,
    Default8BitOutputQuantizeConfig and the registry's config for a layer class.  [disabled]: its output quantizers have
    been switched off (default_8bit_transforms.py:644-650). *)
Inductive qcfg := UserCfg (id : nat) (disabled : bool) | NoOpCfg | OutputCfg (disabled : bool) | RegistryCfg (cls : string) (disabled : bool).
(** A layer's metadata dict: the entry 'quantize_config' (absent, None or a config) and whether {'quantizer': None} is there. *)
Record meta := mkMeta { m_cfg : option (option qcfg); m_noquant : bool }.
Definition meta_empty : meta := mkMeta None false.
(** Truth value of the dict. *)
Definition meta_truthy (m : meta) : bool := (match m_cfg m with Some _ => true | None => m_noquant m end)%bool.
Definition wts := list (string * tensor Q).
(** transforms.py:64-107 [LayerNode]: layer, weights (OrderedDict), input_layers, metadata, names_and_weights. *)
Inductive node := Node (layer : layerc) (weights : wts) (nw : option wts) (md : meta) (inputs : list node).
Definition n_layer (n : node) : layerc := match n with Node l _ _ _ _ => l end.
Definition n_weights (n : node) : wts := match n with Node _ w _ _ _ => w end.
Definition n_nw (n : node) : option wts := match n with Node _ _ w _ _ => w end.
Definition n_meta (n : node) : meta := match n with Node _ _ _ m _ => m end.
Definition n_inputs (n : node) : list node := match n with Node _ _ _ _ i => i end.
Definition n_name (n : node) : string := lc_name (n_layer n).
(** transforms.py:26-56 [LayerPattern]. *)
Inductive pat := Pat (p_class : string) (p_cfg : list (string * string)) (p_inputs : list pat).

(** Equality of nodes, transforms.py:114-145; [meq] is the equality of metadata dicts (it depends on the __eq__ of the
    config objects).  names_and_weights are not compared. *)
Definition opt_str_eqb (a b : option string) : bool := match a, b with Some x, Some y => String.eqb x y | None, None => true | _, _ => false end.
Fixpoint all2 {A} (f : A -> A -> bool) (a b : list A) : bool :=
  match a, b with [], [] => true | x :: a', y :: b' => (f x y && all2 f a' b')%bool | _, _ => false end.
Definition conn_eqb (a b : conn) : bool :=
  (String.eqb (c_name a) (c_name b) && Nat.eqb (c_node a) (c_node b) && Nat.eqb (c_tensor a) (c_tensor b) &&
   all2 (fun p q => String.eqb (fst p) (fst q) && opt_str_eqb (snd p) (snd q)) (c_kwargs a) (c_kwargs b))%bool.
Definition layer_eqb (a b : layerc) : bool :=
  (String.eqb (lc_class a) (lc_class b) && String.eqb (lc_name a) (lc_name b) &&
   all2 (fun p q => String.eqb (fst p) (fst q) && String.eqb (snd p) (snd q)) (lc_cfg a) (lc_cfg b) &&
   all2 (all2 conn_eqb) (lc_inbound a) (lc_inbound b))%bool.
Definition tensor_eqb (a b : tensor Q) : bool :=
  ((if list_eq_dec Nat.eq_dec (shape a) (shape b) then true else false) && all2 Qeq_bool (data a) (data b))%bool.
Definition wts_eqb (a b : wts) : bool := all2 (fun p q => String.eqb (fst p) (fst q) && tensor_eqb (snd p) (snd q))%bool a b.
Fixpoint node_eqb (meq : meta -> meta -> bool) (a b : node) : bool :=
  match a, b with
  | Node la wa _ ma ia, Node lb wb _ mb ib =>
      (layer_eqb la lb && wts_eqb wa wb && meq ma mb &&
       (fix go (x y : list node) : bool :=
          match x, y with [], [] => true | u :: x', v :: y' => (node_eqb meq u v && go x' y')%bool | _, _ => false end) ia ib)%bool
  end.

(** ** State of a transformation *)
Fixpoint assoc {A} (k : string) (l : list (string * A)) : option A :=
  match l with [] => None | (s, a) :: r => if String.eqb s k then Some a else assoc k r end.
Definition inb (s : string) (l : list string) : bool := existsb (String.eqb s) l.
Definition put {A} (k : string) (v : A) (l : list (string * A)) : list (string * A) := (k, v) :: l.
Definition pop {A} (ks : list string) (l : list (string * A)) : list (string * A) := filter (fun p => negb (inb (fst p) ks)) l.
Inductive mkind := Functional | Sequential.
(** self._config (layers, output_layers), _layer_weights_map, _layer_names_and_weights_map, _layer_metadata_map (newest
    entry first) and candidate_layers (None and the empty set are treated alike by the code: []). *)
Record state := mkS { s_layers : list layerc; s_outputs : list conn; s_w : list (string * wts); s_nw : list (string * wts);
  s_meta : list (string * meta); s_cand : list string }.
Definition names (st : state) : list string := map lc_name (s_layers st).

(** 84-104 [_get_inbound_layer_names]. *)
Definition conn_names (c : conn) : list string := c_name c :: flat_map (fun kv => match snd kv with Some n => [n] | None => [] end) (c_kwargs c).
Definition inbound_layer_names (l : layerc) : list string := flat_map (flat_map conn_names) (lc_inbound l).
(** 106-130. *)
Definition consuming_layers (st : state) (n : string) : list layerc := filter (fun l => inb n (inbound_layer_names l)) (s_layers st).
Definition output_consumers (st : state) (n : string) : list conn := filter (fun c => String.eqb (c_name c) n) (s_outputs st).
Definition get_layers (st : state) (ns : list string) : list layerc := filter (fun l => inb (lc_name l) ns) (s_layers st).
(** 132-139. *)
Definition get_weights (st : state) (n : string) : wts := match assoc n (s_w st) with Some w => w | None => [] end.
Definition get_nw (st : state) (n : string) : option wts := assoc n (s_nw st).
Definition get_meta (st : state) (n : string) : meta := match assoc n (s_meta st) with Some m => m | None => meta_empty end.

(** 141-142 [_match_pattern]: re.match('^' + pattern + '$', target).  Modelled for the patterns the library uses: names
    separated by '|', each possibly ending in ".*".  '^' belongs to the first and '$' to the last alternative only, and
    re.match anchors at the start only: every alternative but the last accepts any target that begins with it. *)
Fixpoint split_bar (s : string) : string * list string :=
  match s with
  | EmptyString => ("", [])
  | String c r => let '(h, t) := split_bar r in
                  if Ascii.eqb c "|" then ("", h :: t) else (String c h, t)
  end.
Definition alternatives (p : string) : list string := let '(h, t) := split_bar p in h :: t.
Definition prefixb (p s : string) : bool := String.prefix p s.
(** "abc.*" => Some "abc". *)
Fixpoint strip_any (p : string) : option string :=
  match p with
  | EmptyString => None
  | String a (String b EmptyString) => if (Ascii.eqb a "." && Ascii.eqb b "*")%bool then Some "" else None
  | String a r => match strip_any r with Some q => Some (String a q) | None => None end
  end.
Definition match_alternative (is_last : bool) (p target : string) : bool :=
  match strip_any p with
  | Some q => prefixb q target
  | None => if is_last then String.eqb p target else prefixb p target
  end.
Fixpoint match_alternatives (ps : list string) (target : string) : bool :=
  match ps with
  | [] => false
  | [p] => match_alternative true p target
  | p :: r => (match_alternative false p target || match_alternatives r target)%bool
  end.
Definition match_pattern (target pattern : string) : bool := match_alternatives (alternatives pattern) target.

(** 144-163 [_match_layer]; layer_config.get(key) is the string "None" when the key is missing. *)
Definition config_get (l : layerc) (k : string) : string :=
  if String.eqb k "name" then lc_name l else match assoc k (lc_cfg l) with Some v => v | None => "None" end.
Definition candidate (st : state) (n : string) : bool := match s_cand st with [] => true | c => inb n c end.
Definition match_layer (st : state) (l : layerc) (cls : string) (cfg : list (string * string)) : bool :=
  (candidate st (lc_name l) && match_pattern (lc_class l) cls &&
   forallb (fun kv => match_pattern (config_get l (fst kv)) (snd kv) || String.eqb (config_get l (fst kv)) (snd kv)) cfg)%bool.
(** 165-204 [_is_match_supported]. *)
Definition is_match_supported (st : state) (l : layerc) (is_head : bool) : bool :=
  if (1 <? List.length (lc_inbound l)) then false
  else if (1 <? List.length (consuming_layers st (lc_name l)) + List.length (output_consumers st (lc_name l))) then is_head
  else true.
(** 206-218 [_get_input_layer_names]. *)
Fixpoint previous (l : layerc) (ls : list layerc) : list string :=
  match ls with
  | a :: ((b :: _) as r) => if String.eqb (lc_name b) (lc_name l) then [lc_name a] else previous l r
  | _ => []
  end.
Definition input_layer_names (k : mkind) (st : state) (l : layerc) : res (list string) :=
  match k with
  | Functional => match lc_inbound l with [] => Err IndexError | cs :: _ => Ok (map c_name cs) end
  | Sequential => Ok (match s_layers st with
                      | [] => []
                      | a :: _ => if String.eqb (lc_name a) (lc_name l) then [] else previous l (s_layers st) end)
  end.
Definition mk_node (st : state) (l : layerc) (inputs : list node) : node :=
  Node l (get_weights st (lc_name l)) (get_nw st (lc_name l)) (get_meta st (lc_name l)) inputs.
(** 220-265 [_match_layer_with_inputs]. *)
Fixpoint match_with_inputs (k : mkind) (st : state) (l : layerc) (p : pat) (is_head : bool) {struct p} : res (option node) :=
  match p with
  | Pat cls cfg ps =>
      if negb (match_layer st l cls cfg) then Ok None
      else if (match k with Functional => negb (is_match_supported st l is_head) | Sequential => false end) then Ok None
      else match ps with
      | [] => Ok (Some (mk_node st l []))
      | _ =>
          do inames <- input_layer_names k st l ;;
          let ils := get_layers st inames in
          if negb (Nat.eqb (List.length ils) (List.length ps)) then Ok None
          else
            do ns <- (fix go (ls : list layerc) (qs : list pat) {struct qs} : res (option (list node)) :=
                        match ls, qs with
                        | l' :: ls', q :: qs' =>
                            do m <- match_with_inputs k st l' q false ;;
                            match m with
                            | None => Ok None
                            | Some n => do r <- go ls' qs' ;; Ok (match r with Some ns => Some (n :: ns) | None => None end)
                            end
                        | _, _ => Ok (Some [])
                        end) ils ps ;;
            Ok (match ns with Some ns => Some (mk_node st l ns) | None => None end)
      end
  end.
(** 267-276 [_find_pattern]. *)
Fixpoint find_pattern_in (k : mkind) (st : state) (p : pat) (matched : list string) (ls : list layerc) : res (option node) :=
  match ls with
  | [] => Ok None
  | l :: r =>
      if inb (lc_name l) matched then find_pattern_in k st p matched r
      else do m <- match_with_inputs k st l p true ;;
           match m with Some n => Ok (Some n) | None => find_pattern_in k st p matched r end
  end.
Definition find_pattern (k : mkind) (st : state) (p : pat) (matched : list string) : res (option node) :=
  find_pattern_in k st p matched (s_layers st).

(** 278-293 [_get_leaf_layers], 295-299 [_get_layer_names]. *)
Fixpoint leaf_layers (n : node) : list layerc :=
  match n with Node l _ _ _ [] => [l] | Node _ _ _ _ ins => flat_map leaf_layers ins end.
Fixpoint layer_names (n : node) : list string :=
  match n with Node l _ _ _ ins => lc_name l :: flat_map layer_names ins end.

(** ** Replacement *)
(** 328-347: connections (and keyword arguments) to the matched head are redirected to the replacement's head. *)
Definition rename_conn (old new : string) (c : conn) : conn :=
  mkConn (if String.eqb (c_name c) old then new else c_name c) (c_node c) (c_tensor c)
    (map (fun kv => (fst kv, match snd kv with Some n => Some (if String.eqb n old then new else n) | None => None end)) (c_kwargs c)).
Definition rename_layer (old new : string) (l : layerc) : layerc :=
  if inb old (inbound_layer_names l)
  then mkLc (lc_class l) (lc_name l) (lc_cfg l) (map (map (rename_conn old new)) (lc_inbound l)) else l.
(** 349-351: output_layers entries are compared and renamed by their first component. *)
Definition rename_output (old new : string) (c : conn) : conn :=
  if String.eqb (c_name c) old then mkConn new (c_node c) (c_tensor c) (c_kwargs c) else c.
Definition set_inbound (l : layerc) (i : list (list conn)) : layerc := mkLc (lc_class l) (lc_name l) (lc_cfg l) i.
(** 353-374 [_assign_inbounds_for_replacement]. *)
Fixpoint assign_inbounds (n : node) : node :=
  match n with
  | Node l w nw m [] => Node l w nw m []
  | Node l w nw m ins =>
      Node (set_inbound l [map (fun i => mkConn (n_name i) 0 0 []) ins]) w nw m (map assign_inbounds ins)
  end.
(** 376-399: the i-th leaf of the replacement takes over the inbound nodes of the i-th leaf of the match. *)
Fixpoint set_leaves (n : node) (ibs : list (list (list conn))) : node * list (list (list conn)) :=
  match n with
  | Node l w nw m [] => match ibs with [] => (n, []) | i :: r => (Node (set_inbound l i) w nw m [], r) end
  | Node l w nw m ins =>
      let '(ins', r) := (fix go (ns : list node) (ibs : list (list (list conn))) : list node * list (list (list conn)) :=
                           match ns with
                           | [] => ([], ibs)
                           | a :: ns' => let '(a', r) := set_leaves a ibs in let '(ns'', r') := go ns' r in (a' :: ns'', r')
                           end) ins ibs in
      (Node l w nw m ins', r)
  end.
(** The nodes of a replacement: head first (408-421) for functional models, inputs first (441-450) for Sequential ones. *)
Fixpoint preorder (n : node) : list node := match n with Node _ _ _ _ ins => n :: flat_map preorder ins end.
Fixpoint postorder (n : node) : list node := match n with Node _ _ _ _ ins => (flat_map postorder ins ++ [n])%list end.
(** 410-418, 457-466: the maps and the candidate set. *)
Definition register (st : state) (n : node) : state :=
  mkS (s_layers st) (s_outputs st)
    (match n_weights n with [] => s_w st | w => put (n_name n) w (s_w st) end)
    (match n_nw n with None => s_nw st | Some w => put (n_name n) w (s_nw st) end)
    (if meta_truthy (n_meta n) then put (n_name n) (n_meta n) (s_meta st) else s_meta st)
    (match s_cand st with [] => [] | c => n_name n :: c end).
Definition set_layers (st : state) (ls : list layerc) (outs : list conn) : state :=
  mkS ls outs (s_w st) (s_nw st) (s_meta st) (s_cand st).
(** 301-312 [_remove_layers]. *)
Definition remove_layers (st : state) (ns : list string) : state :=
  mkS (filter (fun l => negb (inb (lc_name l) ns)) (s_layers st)) (s_outputs st) (pop ns (s_w st)) (pop ns (s_nw st)) (pop ns (s_meta st)) (s_cand st).
(** 314-421 [_replace_functional]. *)
Definition replace_functional (st : state) (m r : node) : res state :=
  let mn := n_name m in let rn := n_name r in
  let st1 := set_layers st (map (rename_layer mn rn) (s_layers st)) (map (rename_output mn rn) (s_outputs st)) in
  let r1 := assign_inbounds r in
  let ibs := map lc_inbound (leaf_layers m) in
  if negb (Nat.eqb (List.length ibs) (List.length (leaf_layers r1))) then Err RuntimeError
  else
    let r2 := fst (set_leaves r1 ibs) in
    let st2 := remove_layers st1 (layer_names m) in
    let ns := preorder r2 in
    Ok (fold_left register ns (set_layers st2 (s_layers st2 ++ map n_layer ns) (s_outputs st2))).
(** 423-471 [_replace_sequential]. *)
Fixpoint index_first (ns : list string) (ls : list layerc) : nat :=
  match ls with [] => 0 | l :: r => if inb (lc_name l) ns then 0 else S (index_first ns r) end.
Definition replace_sequential (st : state) (m r : node) : res state :=
  let removed := layer_names m in
  let i := index_first removed (s_layers st) in
  let st2 := remove_layers st removed in
  let ns := postorder r in
  Ok (fold_left register ns (set_layers st2 (firstn i (s_layers st2) ++ map n_layer ns ++ skipn i (s_layers st2)) (s_outputs st2))).
Definition replace (k : mkind) (st : state) (m r : node) : res state :=
  match k with Functional => replace_functional st m r | Sequential => replace_sequential st m r end.

(** ** The main loop, 557-617 *)
(** A transform: its class name (the key of _transform_matched_layers_map), pattern and replacement.  The number given to
    the replacement is the count of earlier matches: a replacement may invent a different layer name every time. *)
Record transform := mkTr { t_name : string; t_pattern : pat; t_repl : nat -> node -> res node }.
(** Loop state: model state, (transform, head name) pairs matched so far, transforms left in this pass, match_found. *)
Record loop_state := mkLoop { ls_state : state; ls_matched : list (string * string); ls_todo : list transform; ls_found : bool }.
Definition matched_names (t : transform) (m : list (string * string)) : list string :=
  map snd (filter (fun p => String.eqb (fst p) (t_name t)) m).
Inductive outcome := Running (s : loop_state) | Done (s : state) | Failed (e : exn).
Definition step (meq : meta -> meta -> bool) (k : mkind) (ts : list transform) (s : loop_state) : outcome :=
  match ls_todo s with
  | [] => if ls_found s then Running (mkLoop (ls_state s) (ls_matched s) ts false) else Done (ls_state s)
  | t :: rest =>
      match find_pattern k (ls_state s) (t_pattern t) (matched_names t (ls_matched s)) with
      | Err e => Failed e
      | Ok None => Running (mkLoop (ls_state s) (ls_matched s) rest (ls_found s))
      | Ok (Some m) =>
          let matched := (t_name t, n_name m) :: ls_matched s in
          match t_repl t (List.length (ls_matched s)) m with
          | Err e => Failed e
          | Ok r =>
              if node_eqb meq m r then Running (mkLoop (ls_state s) matched (t :: rest) (ls_found s))
              else match replace k (ls_state s) m r with
                   | Err e => Failed e
                   | Ok st' => Running (mkLoop st' matched (t :: rest) true)
                   end
          end
      end
  end.
(** [n] iterations of the two while-loops. *)
Fixpoint iterate (meq : meta -> meta -> bool) (k : mkind) (ts : list transform) (n : nat) (s : loop_state) : outcome :=
  match n with
  | O => Running s
  | S n' => match step meq k ts s with Running s' => iterate meq k ts n' s' | o => o end
  end.
Definition start (ts : list transform) (st : state) : loop_state := mkLoop st [] ts false.

(** ** Weights: 484-516, 557-563, 631-638 *)
Fixpoint nodupb (l : list string) : bool := match l with [] => true | a :: r => (negb (inb a r) && nodupb r)%bool end.
(** The initial maps for a model whose layers have the given weights (names as _weight_name shortens them): the dict is
    None - stored, and read back as None - when two weights of a layer share a name. *)
Definition init_w (ws : list (string * wts)) : list (string * wts) :=
  map (fun p => (fst p, if nodupb (map fst (snd p)) then snd p else [])) ws.
Definition init_state (ls : list layerc) (outs : list conn) (ws : list (string * wts)) (md : list (string * meta)) (cand : list string) : state :=
  mkS ls outs (init_w ws) ws md cand.
(** 501-516, 631-638: weights of a layer of the new model; [fresh] are the names and initial values of the weights Keras
    has just created for it. *)
Definition final_weights (st : state) (n : string) (fresh : wts) : res wts :=
  match get_weights st n with
  | [] => match get_nw st n with
          | None => Ok fresh
          | Some w => if Nat.eqb (List.length w) (List.length fresh) then Ok (map (fun p => (fst (fst p), snd (snd p))) (combine fresh w)) else Err ValueError
          end
  | w => Ok (map (fun p => match assoc (fst p) w with Some v => (fst p, v) | None => p end) fresh)
  end.
