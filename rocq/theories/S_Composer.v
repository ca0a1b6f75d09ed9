(** Specification vocabulary for composed encoders. *)
From Verif Require Import Base M_Encoder M_Composer.

Section Spec.
Context {T P Sh St : Type}.
(** At every node the children are attached to distinct keys that the node's stage declares compressible. *)
Inductive respects (compressible : @stage T P Sh St -> list string) : @encoder T P Sh St -> Prop :=
| respects_node s cs :
    NoDup (dkeys cs) -> (forall k, In k (dkeys cs) -> In k (compressible s)) ->
    (forall k c, In (k, c) cs -> respects compressible c) -> respects compressible (Enc s cs).
(** A tree of values with an entry for every stage of the encoder. *)
Inductive fits {A} : tree A -> @encoder T P Sh St -> Prop :=
| fits_node a ts s cs : (forall k c, In (k, c) cs -> exists t, dget k ts = Some t /\ fits t c) -> fits (Node a ts) (Enc s cs).
(** What a stage promises by declaring keys compressible: its encoding succeeds and contains these keys. *)
Definition provides (compressible : @stage T P Sh St -> list string) (s : @stage T P Sh St) : Prop :=
  forall x p, exists d, s_encode s x p = Ok d /\ (forall k, In k (compressible s) -> In k (dkeys d)).
End Spec.
