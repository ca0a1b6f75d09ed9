(** Where the dictionaries of an encoder tree keep what belongs to one stage (C143). *)
From Verif Require Import Base M_Encoder M_Dicts S_Dicts M_Gather M_CoreTree.

Section Spec.
Context {V M W0 : Type}.
(** The stage at a path of child keys. *)
Inductive stage_at : list string -> aenc V M W0 -> astage V M W0 -> dict (aenc V M W0) -> Prop :=
| at_root s kids : stage_at [] (AEnc s kids) s kids
| at_child k e s0 kids0 p s kids : dget k kids0 = Some e -> stage_at p e s kids -> stage_at (k :: p) (AEnc s0 kids0) s kids.
(** Where a nested dictionary keeps what belongs to that stage: {CHILDREN: {k1: {CHILDREN: {k2: ...}}}}. *)
Definition node (p : list string) : list string := List.concat (map (fun k => ["EncoderKeys.CHILDREN"; k]%string) p).
(** [v] holds, for the stage at [p] under the given entry, exactly the items of [d] (as tensors or Python values). *)
Definition holds_values (v : dval V) (p : list string) (entry : string) (d : dict V) : Prop :=
  forall k, match dget k d with
            | Some x => at_path (node p ++ [entry; k]) v = ATf x \/ at_path (node p ++ [entry; k]) v = APy x
            | None => at_path (node p ++ [entry; k]) v = Nothing
            end.
(** ... as tensors. *)
Definition holds_tensors (v : dval V) (p : list string) (entry : string) (d : dict V) : Prop :=
  forall k, at_path (node p ++ [entry; k]) v = match dget k d with Some x => ATf x | None => Nothing end.
(** ... as tensors or Python values, as marked. *)
Definition holds_leaves (v : dval V) (p : list string) (entry : string) (d : dict (leaf V)) : Prop :=
  forall k, at_path (node p ++ [entry; k]) v = match dget k d with Some (true, x) => ATf x | Some (false, x) => APy x | None => Nothing end.
(** The shape kept for the stage at [p]: none, or a shape. *)
Definition holds_shape (is_none : V -> bool) (v : dval V) (p : list string) (o : option V) : Prop :=
  match at_path (node p ++ ["EncoderKeys.SHAPE"%string]) v with
  | APy x => o = if is_none x then None else Some x
  | ATf x => o = Some x
  | _ => False
  end.
(** Every child of every stage finds something to decode under its key. *)
Definition complete (e : aenc V M W0) (v : dval V) : Prop :=
  forall p s kids k c, stage_at p e s kids -> dget k kids = Some c -> at_path (p ++ [k]) v <> Nothing.
(** The stage at a path all of whose stages, itself included, commute with sums: its decoding can wait until after the sum. *)
Inductive deferred : list string -> aenc V M W0 -> astage V M W0 -> dict (aenc V M W0) -> Prop :=
| def_root s kids : a_commutes s = true -> deferred [] (AEnc s kids) s kids
| def_child k e s0 kids0 p s kids : a_commutes s0 = true -> dget k kids0 = Some e -> deferred p e s kids -> deferred (k :: p) (AEnc s0 kids0) s kids.
(** Every child of every such stage finds something to decode under its key. *)
Definition complete_part (e : aenc V M W0) (v : dval V) : Prop :=
  forall p s kids k c, deferred p e s kids -> dget k kids = Some c -> at_path (p ++ [k]) v <> Nothing.
(** The first stage of a tree. *)
Definition top (e : aenc V M W0) : astage V M W0 := match e with AEnc s _ => s end.
End Spec.
