(** Encoder trees.  Source: internal/tensor_encoding/core/core_encoder.py:38-616, core/gather_encoder.py:370-372.
    [T]: tensors; [P]: the parameter dictionary of one stage; [Sh]: shapes; [St]: the state of one stage (including the
    randomness that get_params draws); [tshape] is py_utils.static_or_dynamic_shape.  Not modelled here: name scopes and the
    state-update tensors, which are covered separately. *)
From Verif Require Import Base.
From Coq Require Export String.
Open Scope string_scope.
Open Scope list_scope.

(** A Python dict with string keys: association list in insertion order. *)
Definition dict (A : Type) := list (string * A).
Fixpoint dget {A} (k : string) (d : dict A) : option A :=
  match d with [] => None | (k', v) :: r => if String.eqb k k' then Some v else dget k r end.
(** [d[k]]. *)
Definition dindex {A} (k : string) (d : dict A) : res A := match dget k d with Some v => Ok v | None => Err KeyError end.
(** [d[k] = v]: existing keys keep their position. *)
Fixpoint dset {A} (k : string) (v : A) (d : dict A) : dict A :=
  match d with [] => [(k, v)] | (k', w) :: r => if String.eqb k k' then (k', v) :: r else (k', w) :: dset k v r end.
Definition dkeys {A} (d : dict A) : list string := map fst d.

Section Encoder.
Context {T P Sh St : Type} (tshape : T -> Sh).

(** One (adaptive) encoding stage, encoding_stage.py: the methods used by [Encoder]. *)
Record stage := mkStage {
  s_commutes : bool;                                                       (* commutes_with_sum *)
  s_needs_shape : bool;                                                    (* decode_needs_input_shape *)
  s_params : St -> P * P;                                                  (* get_params *)
  s_encode : T -> P -> res (dict T);                                       (* encode *)
  s_decode : dict T -> P -> option Z -> option Sh -> res T                 (* decode *)
}.

(** core_encoder.py:58-75 [Encoder.__init__]. *)
Inductive encoder := Enc (s : stage) (children : dict encoder).
(** Encoded values: nested dictionaries with tensors at the leaves. *)
Inductive evalue := ET (t : T) | ED (d : dict evalue).
(** Trees of parameters / shapes / states: a value per stage and a tree per child. *)
Inductive tree (A : Type) := Node (a : A) (children : dict (tree A)).
Arguments Node {A} a children.
Definition troot {A} (t : tree A) : A := match t with Node a _ => a end.
Definition tkids {A} (t : tree A) : dict (tree A) := match t with Node _ c => c end.

(** core_encoder.py:78-92 [fully_commutes_with_sum]. *)
Fixpoint fully_commutes (e : encoder) : bool :=
  match e with Enc s cs =>
    ((fix go cs := match cs with [] => true | (_, c) :: r => (fully_commutes c && go r)%bool end) cs && s_commutes s)%bool end.

(** core_encoder.py:110-120 [_commuting_structure_impl]. *)
Fixpoint commuting_structure_impl (previous : bool) (e : encoder) : tree bool :=
  match e with Enc s cs =>
    let current := (previous && s_commutes s)%bool in
    Node current ((fix go cs := match cs with [] => [] | (k, c) :: r => (k, commuting_structure_impl current c) :: go r end) cs) end.
(** core_encoder.py:94-108. *)
Definition commuting_structure (e : encoder) : tree bool := commuting_structure_impl true e.

(** gather_encoder.py:370-372: sum(tf.nest.flatten(commuting_structure)), a Python integer used as a truth value. *)
Fixpoint count_flags (t : tree bool) : nat :=
  match t with Node b cs =>
    ((if b then 1 else 0) + (fix go cs := match cs with [] => 0 | (_, c) :: r => count_flags c + go r end) cs)%nat end.
Definition gather_fully_commutes (e : encoder) : nat := count_flags (commuting_structure e).

(** core_encoder.py:229-243 [_get_params_impl]; the state tree has the shape of the encoder. *)
Fixpoint get_params (e : encoder) (st : tree St) : res (tree P * tree P) :=
  match e with Enc s cs =>
    let '(ep, dp) := s_params s (troot st) in
    do kids <- (fix go cs := match cs with
                | [] => Ok []
                | (k, c) :: r =>
                    do stk <- dindex k (tkids st) ;;
                    do pq <- get_params c stk ;;
                    do rest <- go r ;; Ok ((k, pq) :: rest)
                end) cs ;;
    Ok (Node ep (map (fun kp => (fst kp, fst (snd kp))) kids), Node dp (map (fun kp => (fst kp, snd (snd kp))) kids)) end.

(** core_encoder.py:280-300 [_encode_impl] without the state-update tensors: the children replace the entries of the dict
    one after the other. *)
Fixpoint encode (e : encoder) (x : T) (p : tree P) : res (dict evalue * tree (option Sh)) :=
  match e with Enc s cs =>
    do tensors <- s_encode s x (troot p) ;;
    do (enc, shapes) <-
      (fix go cs (d : dict evalue) := match cs with
       | [] => Ok (d, [])
       | (k, c) :: r =>
           do v <- dindex k d ;;
           do pk <- dindex k (tkids p) ;;
           match v with
           | ED _ => Err TypeError
           | ET t =>
               do (ek, sk) <- encode c t pk ;;
               do (d', sr) <- go r (dset k (ED ek) d) ;;
               Ok (d', (k, sk) :: sr)
           end
       end) cs (map (fun kt => (fst kt, ET (snd kt))) tensors) ;;
    Ok (enc, Node (if s_needs_shape s then Some (tshape x) else None) shapes) end.

(** The dictionary handed to [stage.decode] must contain tensors only. *)
Definition as_tensor (v : evalue) : res T := match v with ET t => Ok t | ED _ => Err TypeError end.
Definition as_tensors (d : dict evalue) : res (dict T) :=
  mapM (fun kv => do t <- as_tensor (snd kv) ;; Ok (fst kv, t)) d.
Definition as_dict (v : evalue) : res (dict evalue) := match v with ED d => Ok d | ET _ => Err AttributeError end.

(** The parameters of a stage may have been blanked by [split_by_commuting_structure] ([None]): using them raises. *)
Definition need {A} (o : option A) : res A := match o with Some a => Ok a | None => Err TypeError end.

(** core_encoder.py:362-404 [_decode_before_sum_impl].  Shapes: [Some None] is "no shape needed", [None] is blanked. *)
Fixpoint decode_before_sum_impl (force : bool) (e : encoder) (v : evalue) (p : tree (option P)) (sh : tree (option (option Sh)))
  : res evalue :=
  match e with Enc s cs =>
    let force := (force || negb (s_commutes s))%bool in
    do d <- as_dict v ;;
    do d' <- mapM (fun kv =>
       (fix find cs := match cs with
        | [] => Ok kv
        | (k, c) :: r =>
            if String.eqb (fst kv) k then
              do pk <- dindex k (tkids p) ;; do shk <- dindex k (tkids sh) ;;
              do w <- decode_before_sum_impl force c (snd kv) pk shk ;; Ok (fst kv, w)
            else find r
        end) cs) d ;;
    if force then
      do ts <- as_tensors d' ;; do pr <- need (troot p) ;; do shr <- need (troot sh) ;;
      do y <- s_decode s ts pr None shr ;; Ok (ET y)
    else Ok (ED d') end.
(** core_encoder.py:302-327 [decode] and 329-360 [decode_before_sum]. *)
Definition decode (e : encoder) (v : evalue) p sh : res T := do w <- decode_before_sum_impl true e v p sh ;; as_tensor w.
Definition decode_before_sum := decode_before_sum_impl false.

(** core_encoder.py:443-463 [_decode_after_sum_impl]. *)
Fixpoint decode_after_sum_impl (e : encoder) (v : evalue) (p : tree (option P)) (n : Z) (sh : tree (option (option Sh))) : res evalue :=
  match e with Enc s cs =>
    if negb (s_commutes s) then match v with ET t => Ok (ET t) | ED _ => Err AssertionError end
    else
    do d <- as_dict v ;;
    do d' <- mapM (fun kv =>
       (fix find cs := match cs with
        | [] => Ok kv
        | (k, c) :: r =>
            if String.eqb (fst kv) k then
              do pk <- dindex k (tkids p) ;; do shk <- dindex k (tkids sh) ;;
              do w <- decode_after_sum_impl c (snd kv) pk n shk ;; Ok (fst kv, w)
            else find r
        end) cs) d ;;
    do ts <- as_tensors d' ;; do pr <- need (troot p) ;; do shr <- need (troot sh) ;;
    do y <- s_decode s ts pr (Some n) shr ;; Ok (ET y) end.
Definition decode_after_sum (e : encoder) (v : evalue) p (n : Z) sh : res T := do w <- decode_after_sum_impl e v p n sh ;; as_tensor w.

End Encoder.
Arguments Node {A} a children.

(** core_encoder.py:589-616 [_split_value_by_commuting_structure]: (before_sum_value, after_sum_value). *)
Fixpoint split_by_commuting_structure {A} (v : tree A) (c : tree bool) : res (tree (option A) * tree (option A)) :=
  match v with Node a kids =>
    do ks <- (fix go kids := match kids with
              | [] => Ok []
              | (k, w) :: r =>
                  do ck <- dindex k (tkids c) ;;
                  do ba <- split_by_commuting_structure w ck ;;
                  do rest <- go r ;; Ok ((k, ba) :: rest)
              end) kids ;;
    let b := map (fun kp => (fst kp, fst (snd kp))) ks in
    let f := map (fun kp => (fst kp, snd (snd kp))) ks in
    if troot c then Ok (Node None b, Node (Some a) f) else Ok (Node (Some a) b, Node None f) end.

(** The unsplit tree, every entry available ([Encoder.decode] is called with the full parameters and shapes). *)
Fixpoint full {A} (v : tree A) : tree (option A) :=
  match v with Node a kids => Node (Some a) ((fix go ks := match ks with [] => [] | (k, w) :: r => (k, full w) :: go r end) kids) end.
