(** Specification vocabulary for C68: programs as sequences of requests. *)
From Coq Require Import String Ascii.
From Verif Require Import Base M_Compat.
Open Scope string_scope.
Open Scope list_scope.
Open Scope nat_scope.

(** A call returned [s]. *)
Definition returns (w : world) (r : request) (s : string) (w' : world) : Prop :=
  exists fuel, unique_object_name fuel w r = Some (Ok (s, w')).
(** A program: the requests it made in order and the names it got (it goes on after an error). *)
Inductive program : world -> list (request * string) -> world -> Prop :=
| p_nil : forall w, program w [] w
| p_call : forall w r s w1 l w2, returns w r s w1 -> program w1 l w2 -> program w ((r, s) :: l) w2.
(** The map a request names: the one passed by the caller, else that of the default graph. *)
Definition asked_map (r : request) : map_id := match rq_map r with Some u => OfUser u | None => OfGraph (rq_graph r) end.
(** Two requests compete for names: same map, same namespace. *)
Definition compete (r1 r2 : request) : Prop := asked_map r1 = asked_map r2 /\ rq_ns r1 = rq_ns r2.
