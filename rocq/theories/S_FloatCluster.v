(** Vocabulary for clustering in float32 (C147). *)
From Verif Require Import Base M_Float32 S_Float32 S_FloatQuant.
From Coq Require Import Qabs Qpower.
Open Scope Q_scope.

(** [v] is the value of a centroid of [cs], and no other is nearer to [w] by more than one part in 4194304 of the distance. *)
Definition nearest_up_to_rounding (cs : list f32) (w v : f32) : Prop :=
  finite v /\ exists c, In c cs /\ number v == number c /\
    forall c', In c' cs -> Qabs (number w - number c) <= Qabs (number w - number c') * (1 + eps).
(** The least magnitude clustering handles: see C22. *)
Definition above_limit (w : f32) : Prop := - inject_Z 1000000 < number w.
(** Some centroid is nearer to [w] than every other value of a centroid, by more than rounding can hide. *)
Definition clearly_nearest (cs : list f32) (w c : f32) : Prop :=
  In c cs /\ forall c', In c' cs -> ~ number c' == number c -> Qabs (number w - number c) * (1 + eps) < Qabs (number w - number c').
