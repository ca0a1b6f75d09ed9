(** Specification vocabulary for the research stages. *)
From Coq Require Import Reals.
From Verif Require Import Base M_Tensor M_Hadamard M_Encoder M_CommonEncoders.
Open Scope R_scope.

(** The elements of channel [c] of a tensor whose last dimension is [dim] are those at flat positions c, c + dim, ...;
    [lo] and [hi] are the least and the greatest of them. *)
Definition channel_range (dim : nat) (x : list R) (c : nat) (lo hi : R) : Prop :=
  (exists j, (j < List.length x)%nat /\ (j mod dim = c)%nat /\ nth j x 0 = lo) /\
  (exists j, (j < List.length x)%nat /\ (j mod dim = c)%nat /\ nth j x 0 = hi) /\
  forall j, (j < List.length x)%nat -> (j mod dim = c)%nat -> lo <= nth j x 0 <= hi.
(** A tensor encoded and decoded by one stage with the parameters it draws itself. *)
Definition stage_round_trip (s : cstage) (u : nat -> R) (x : tensor R) (sent : dict ten) (y : tensor R) : Prop :=
  s_encode s (F x) (fst (s_params s u)) = Ok sent /\
  s_decode s sent (snd (s_params s u)) None (if s_needs_shape s then Some (shape x) else None) = Ok (F y).
