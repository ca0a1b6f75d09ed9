(** Vocabulary for the Hadamard rotation in float32 (C150). *)
From Coq Require Import Reals.
From Flocq Require Import Core BinarySingleNaN.
From Verif Require Import Base M_Float32 M_Hadamard.
Open Scope R_scope.

(** The real number a float32 stands for. *)
Definition real (v : f32) : R := B2R v.
Definition reals (x : list f32) : list R := map real x.
Definition finite_all (x : list f32) : Prop := Forall (fun v => is_finite v = true) x.
(** Numbers of magnitude at most 2^60. *)
Definition modest (x : list f32) : Prop := Forall (fun v => is_finite v = true /\ Rabs (real v) <= 2 ^ 60) x.
(** A random draw in [0,1] other than 1/2 (where the sign would be 0, see C55). *)
Definition sign_draw (v : f32) : Prop := is_finite v = true /\ 0 <= real v <= 1 /\ real v <> / 2.
(** Euclidean distance. *)
Definition distance (x y : list R) : R := norm2 (vsub x y).
