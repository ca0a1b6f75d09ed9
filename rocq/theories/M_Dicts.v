(** Nested dictionaries.  Sources: internal/tensor_encoding/utils/py_utils.py:83-167; their use in
    core/simple_encoder.py:79-147 and core/gather_encoder.py:206-330; tf.nest / tree flattening of dictionaries in sorted
    key order. *)
From Verif Require Import Base M_Encoder.

(** py_utils.py values: Python value, TensorFlow value, dictionary. *)
Section DV.
Context {V : Type}.
Inductive dval := DPy (v : V) | DTf (v : V) | DDict (d : dict dval).

(** py_utils.py:83-112 [split_dict_py_tf]: (d_py, d_tf). *)
Fixpoint split_items (v : dval) : option dval * option dval :=
  match v with
  | DPy x => (Some (DPy x), None)
  | DTf x => (None, Some (DTf x))
  | DDict d =>
      let '(a, b) := (fix go d := match d with
        | [] => ([], [])
        | (k, w) :: r =>
            let '(pa, pb) := split_items w in let '(ra, rb) := go r in
            ((match pa with Some x => [(k, x)] | None => [] end ++ ra),
             (match pb with Some x => [(k, x)] | None => [] end ++ rb))
        end) d in (Some (DDict a), Some (DDict b))
  end.
Definition split_dict_py_tf (v : dval) : res (dval * dval) :=
  match v with
  | DDict _ => match split_items v with (Some a, Some b) => Ok (a, b) | _ => Err TypeError end
  | _ => Err TypeError
  end.

Definition is_dict (v : dval) : bool := match v with DDict _ => true | _ => false end.
(** py_utils.py:145-161, second loop: adds the leaves of dict2. *)
Fixpoint merge_second (d1 : dict dval) (d2 : dict dval) (merged : dict dval) : res (dict dval) :=
  match d2 with
  | [] => Ok merged
  | (k, v) :: r =>
      if is_dict v then
        match dget k d1 with Some (DDict _) => merge_second d1 r merged | _ => Err ValueError end
      else match dget k merged with
           | Some _ => Err ValueError
           | None => merge_second d1 r (merged ++ [(k, v)])
           end
  end.
(** py_utils.py:115-161 [merge_dicts]. *)
Fixpoint merge_dicts (v1 v2 : dval) : res dval :=
  match v1, v2 with
  | DDict d1, DDict d2 =>
      do merged <- (fix go d := match d with
        | [] => Ok []
        | (k, v) :: r =>
            do w <- match v with
                    | DDict _ => match dget k d2 with
                                 | Some (DDict e) => merge_dicts v (DDict e)
                                 | _ => Err ValueError end
                    | _ => Ok v end ;;
            do rest <- go r ;; Ok ((k, w) :: rest)
        end) d1 ;;
      do m <- merge_second d1 d2 merged ;; Ok (DDict m)
  | _, _ => Err TypeError
  end.
End DV.
Arguments dval V : clear implicits.

(** Structures flattened with joined string paths.  Keys are lists of code points; Python compares strings by code point. *)
Definition key := list nat.
Fixpoint kleb (a b : key) : bool :=
  match a, b with
  | [], _ => true
  | _ :: _, [] => false
  | x :: a', y :: b' => if (x <? y)%nat then true else if (y <? x)%nat then false else kleb a' b'
  end.
(** sorted(d.items()) for distinct keys. *)
Fixpoint kinsert {A} (k : key) (v : A) (l : list (key * A)) : list (key * A) :=
  match l with [] => [(k, v)] | (k', w) :: r => if kleb k k' then (k, v) :: l else (k', w) :: kinsert k v r end.
Fixpoint ksort {A} (l : list (key * A)) : list (key * A) :=
  match l with [] => [] | (k, v) :: r => kinsert k v (ksort r) end.

Inductive struct (V : Type) := Leaf (v : V) | Tree (d : list (key * struct V)).
Arguments Leaf {V} v. Arguments Tree {V} d.
(** tree.flatten_with_path: children in sorted key order; tf.nest.flatten is its second components. *)
Fixpoint flatten_with_path {V} (s : struct V) : list (list key * V) :=
  match s with
  | Leaf v => [([], v)]
  | Tree d =>
      List.concat (map snd (ksort (map (fun kf => (fst kf, map (fun pv => (fst kf :: fst pv, snd pv)) (snd kf)))
        ((fix go d := match d with [] => [] | (k, c) :: r => (k, flatten_with_path c) :: go r end) d))))
  end.
(** py_utils.py:164-167 [flatten_with_joined_string_paths], separator '/' = 47. *)
Fixpoint join (sep : nat) (path : list key) : key :=
  match path with [] => [] | [k] => k | k :: r => k ++ sep :: join sep r end.
Definition flatten_with_joined_string_paths {V} (s : struct V) : list (key * V) :=
  map (fun pv => (join 47 (fst pv), snd pv)) (flatten_with_path s).
(** tf.nest.flatten of a flat dictionary: values in sorted key order. *)
Definition nest_flatten_flat {V} (d : list (key * V)) : list V := map snd (ksort d).
(** tf.nest.pack_sequence_as: the paths of the structure receive the values in flatten order. *)
Definition pack_sequence_as {U V} (s : struct U) (vals : list V) : res (list (list key * V)) :=
  if Nat.eqb (List.length (flatten_with_path s)) (List.length vals) then Ok (combine (map fst (flatten_with_path s)) vals) else Err ValueError.
