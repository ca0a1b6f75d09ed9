(** Model of keras/compat.py: generated object names. *)
From Coq Require Import String Ascii DecimalString.
From Verif Require Import Base.
Open Scope string_scope.
Open Scope list_scope.
Open Scope nat_scope.

(** Python's [str(n)] of a non-negative integer. *)
Definition py_str (n : nat) : string := NilEmpty.string_of_uint (Nat.to_uint n).

(** A uid map: [collections.defaultdict(int)] from (namespace, name) to a counter; a missing key reads 0.
    Simplification: a total function; reading a missing key also inserts 0 in Python, which no reader can tell. *)
Definition uid_map := string -> string -> nat.
Definition empty_map : uid_map := fun _ _ => 0.
(** [name_uid_map[name_key] += 1] *)
Definition bump (m : uid_map) (ns name : string) : uid_map :=
  fun ns' name' => if (String.eqb ns' ns && String.eqb name' name)%bool then S (m ns' name') else m ns' name'.

(** The maps a program holds: one per graph (keras/compat.py:66-76, PER_GRAPH_OBJECT_NAME_UIDS and
    get_default_graph_uid_map, which creates an empty map for a graph it does not know) and those the caller made. *)
Inductive map_id := OfGraph (g : nat) | OfUser (u : nat).
Definition map_id_eqb (a b : map_id) : bool :=
  match a, b with OfGraph x, OfGraph y | OfUser x, OfUser y => x =? y | _, _ => false end.
Definition world := map_id -> uid_map.
Definition empty_world : world := fun _ => empty_map.
Definition put (w : world) (i : map_id) (m : uid_map) : world := fun j => if map_id_eqb j i then m else w j.

(** The arguments of a call (keras/compat.py:79-86) and the default graph at the time. *)
Record request := mkReq {
  rq_graph : nat; rq_name : string; rq_map : option nat; rq_avoid : option (list string); rq_ns : string;
  rq_zero : bool; rq_observed : bool }.

(** keras/compat.py:121-132, one iteration of the while body: the proposed name and the updated map. *)
Definition propose (zero : bool) (ns name : string) (m : uid_map) : string * uid_map :=
  if zero
  then let number := m ns name in
       ((if number =? 0 then name else (name ++ "_" ++ py_str number)%string), bump m ns name)
  else let m' := bump m ns name in ((name ++ "_" ++ py_str (m' ns name))%string, m').

Fixpoint inb (x : string) (l : list string) : bool :=
  match l with [] => false | y :: r => (String.eqb x y || inb x r)%bool end.

(** keras/compat.py:119-132, the while loop.  [fuel] bounds the number of iterations; [None] is not a Python outcome,
    it means that the loop needs more of them. *)
Fixpoint name_loop (fuel : nat) (zero : bool) (ns name : string) (avoid : list string) (m : uid_map) : option (string * uid_map) :=
  match fuel with
  | 0 => None
  | S f => let '(p, m') := propose zero ns name m in
           if inb p avoid then name_loop f zero ns name avoid m' else Some (p, m')
  end.

(** keras/compat.py:110-118: the map used and the names avoided.  OBSERVED_NAMES is not defined in the module. *)
Definition rq_map_id (r : request) : map_id := match rq_map r with None => OfGraph (rq_graph r) | Some u => OfUser u end.
Definition rq_avoided (r : request) : res (list string) :=
  match rq_avoid r with
  | None => if rq_observed r then Err NameError else Ok []
  | Some l => Ok l
  end.
(** keras/compat.py:79-133 unique_object_name *)
Definition unique_object_name (fuel : nat) (w : world) (r : request) : option (res (string * world)) :=
  match rq_avoided r with
  | Err e => Some (Err e)
  | Ok avoid =>
      match name_loop fuel (rq_zero r) (rq_ns r) (rq_name r) avoid (w (rq_map_id r)) with
      | None => None
      | Some (s, m) => Some (Ok (s, put w (rq_map_id r) m))
      end
  end.
