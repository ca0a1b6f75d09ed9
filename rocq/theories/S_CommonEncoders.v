(** Specification vocabulary for the ready-made encoders. *)
From Coq Require Import Reals.
From Verif Require Import Base M_Tensor M_Hadamard M_Encoder M_CommonEncoders.
Open Scope R_scope.

(** The range a uniform quantizer works on: the one it was given, or the extremes of the data. *)
Definition working_rangeR (given : option (list R)) (x : list R) (lo hi : R) : Prop :=
  match given with
  | Some l => l = [lo; hi]
  | None => In lo x /\ In hi x /\ forall v, In v x -> lo <= v <= hi
  end.
(** [c] is [a] moved to the nearest point of [lo, hi]. *)
Definition clipped_toR (lo hi a c : R) : Prop :=
  (a <= lo /\ c = lo) \/ (hi <= a /\ c = hi) \/ (lo <= a <= hi /\ c = a).
(** All random draws of all stages lie in [0, 1). *)
Inductive draws_ok : tree (nat -> R) -> Prop :=
| dr_node u kids : (forall i, 0 <= u i < 1) -> Forall (fun kt => draws_ok (snd kt)) kids -> draws_ok (Node u kids).
(** The draws of the stage reached by following [path]. *)
Fixpoint draws_at (path : list string) (t : tree (nat -> R)) : option (nat -> R) :=
  match path with
  | [] => Some (troot t)
  | k :: r => match dget k (tkids t) with Some c => draws_at r c | None => None end
  end.
(** One value that is encoded and decoded by an encoder with freshly drawn parameters. *)
Definition round_trip (e : cencoder) (st : tree (nat -> R)) (x : tensor R) (sent : dict (@evalue ten)) (y : tensor R) : Prop :=
  exists ep dp shapes, get_params e st = Ok (ep, dp) /\ encode ten_shape e (F x) ep = Ok (sent, shapes) /\
  decode e (ED sent) (full dp) (full shapes) = Ok (F y).
(** Euclidean distance of two equally long vectors. *)
Definition dist2 (x y : list R) : R := sqrt (sumR (map (fun p => (fst p - snd p) * (fst p - snd p)) (combine x y))).

(** Sums of (well-formed) float tensors of equal shape: [t] is the elementwise sum of [ts]. *)
Definition float_sum (ts : list ten) (t : ten) : Prop :=
  exists (xs : list (tensor R)) (y : tensor R), ts = map F xs /\ t = F y /\ wf y /\ Forall (fun x => shape x = shape y /\ wf x) xs /\
    forall i, (i < prod (shape y))%nat -> nth i (data y) 0 = sumR (map (fun x => nth i (data x) 0) xs).
