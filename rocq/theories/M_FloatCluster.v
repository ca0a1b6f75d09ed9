(** Weight clustering in float32 (compare M_Cluster, which computes exactly): clustering/keras/clustering_algorithm.py.  Tensors are
    flattened; IEEE 754 binary32 as in M_Float32. *)
From Flocq Require Import Core BinarySingleNaN.
From Verif Require Import Base M_Float32.

(** tf.abs, tf.sign. *)
Definition f_abs : f32 -> f32 := @Babs 24 128.
Definition f_sign (x : f32) : f32 := if Bltb (f_of_int 0) x then f_of_int 1 else if Bltb x (f_of_int 0) then f_of_int (-1) else f_of_int 0.
(** tf.argmin over a vector: first index of the smallest entry. *)
Fixpoint argmin_from_f (best : f32) (besti i : nat) (l : list f32) : nat :=
  match l with
  | [] => besti
  | a :: r => if Bltb a best then argmin_from_f a i (S i) r else argmin_from_f best besti (S i) r
  end.
Definition argmin_f (l : list f32) : nat := match l with [] => 0%nat | a :: r => argmin_from_f a 0 1 r end.
(** clustering_algorithm.py:100-101 [add_gradient_to_original_weight]. *)
Definition add_gradient_f (clustered original : f32) : f32 := f_mul clustered (f_sign (f_add original (f_of_int 1000000))).
(** clustering_algorithm.py:110-139 [get_pulling_indices], one weight. *)
Definition pulling_index_f (cs : list f32) (w : f32) : nat := argmin_f (map (fun c => f_abs (f_sub w c)) cs).
(** clustering_algorithm.py:141-194 [get_clustered_weight], with the indices just computed (forward value). *)
Definition clustered_f (cs : list f32) (w : list f32) : list f32 :=
  map (fun x => add_gradient_f (nth (pulling_index_f cs x) cs (f_of_int 0)) x) w.
