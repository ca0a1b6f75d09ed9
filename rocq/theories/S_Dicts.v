(** Specification vocabulary for nested dictionaries. *)
From Verif Require Import Base M_Encoder M_Dicts.
From Coq Require Import Permutation.

Section DV.
Context {V : Type}.
(** Distinct keys at every level (what a Python dict guarantees). *)
Fixpoint wf_dval (v : dval V) : Prop :=
  match v with
  | DDict d => NoDup (dkeys d) /\ (fix go d := match d with [] => True | (_, w) :: r => wf_dval w /\ go r end) d
  | _ => True
  end.
(** What is found at a path: nothing, a dictionary, or a leaf. *)
Inductive found := Nothing | ADict | APy (v : V) | ATf (v : V).
Fixpoint at_path (p : list string) (v : dval V) : found :=
  match p with
  | [] => match v with DPy x => APy x | DTf x => ATf x | DDict _ => ADict end
  | k :: r => match v with DDict d => match dget k d with Some w => at_path r w | None => Nothing end | _ => Nothing end
  end.
Definition or_else (a b : found) : found := match a with Nothing => b | _ => a end.
(** Corresponding structure: a key is in both dictionaries iff both values are dictionaries, which correspond. *)
Inductive corresponding : dval V -> dval V -> Prop :=
| corr d1 d2 :
    (forall k x, dget k d1 = Some (DDict x) -> exists y, dget k d2 = Some (DDict y) /\ corresponding (DDict x) (DDict y)) ->
    (forall k y, dget k d2 = Some (DDict y) -> exists x, dget k d1 = Some (DDict x)) ->
    (forall k a b, dget k d1 = Some a -> dget k d2 = Some b -> is_dict a = true) ->
    corresponding (DDict d1) (DDict d2).
End DV.

(** Keys are distinct at every level, and no key of a dictionary is continued in a sibling key by '/' or a character
    that collates before it (for instance no "a" holding a dictionary next to "a-b"). *)
Definition extends (sep : nat) (k k' : key) : Prop := forall ch r, k' = k ++ ch :: r -> (sep < ch)%nat.
Fixpoint joinable {V} (sep : nat) (s : struct V) : Prop :=
  match s with
  | Leaf _ => True
  | Tree d => NoDup (map fst d) /\
      (forall k c k', In (k, Tree c) d -> In k' (map fst d) -> extends sep k k') /\
      (fix go d := match d with [] => True | (_, c) :: r => joinable sep c /\ go r end) d
  end.
