(** C147: weight clustering in float32. *)
From Flocq Require Import Core BinarySingleNaN.
From Verif Require Import Base M_Float32 S_Float32 M_FloatQuant S_FloatQuant M_FloatCluster S_FloatCluster L_FloatCluster2.
From Coq Require Import Qabs Qpower.
Open Scope Q_scope.

Section Clustering.
  Context (cs w : list f32).
  (** Centroids and weights that are numbers of at most 2^126, the weights above -1000000 (C22). *)
  Definition usable : Prop := cs <> [] /\ Forall moderate cs /\ Forall moderate w /\ Forall above_limit w.
  (** Every weight takes the value of one of the centroids, the nearest up to rounding... *)
  Theorem C147_nearest_partial : usable -> length (clustered_f cs w) = length w /\
    forall i, (i < length w)%nat -> nearest_up_to_rounding cs (at_ w i) (at_ (clustered_f cs w) i).
  Proof. intros (N & F & W & L). split; [apply clustered_length|]. intros i I. now apply nearest. Qed.
  (** ... the nearest itself unless two of them are almost equally near... *)
  Theorem C147_exact_partial : usable -> forall i c, (i < length w)%nat -> clearly_nearest cs (at_ w i) c -> number (at_ (clustered_f cs w) i) == number c.
  Proof. intros (N & F & W & L) i c. now apply exact. Qed.
  (** ... so a weight equal to a centroid (zero, say) keeps its value... *)
  Theorem C147_fixed_partial : usable -> forall i c, (i < length w)%nat -> In c cs -> number (at_ w i) == number c -> number (at_ (clustered_f cs w) i) == number (at_ w i).
  Proof. intros (N & F & W & L) i c I IN E. rewrite E. now apply fixed. Qed.
  (** ... there are no more different values than centroids... *)
  Theorem C147_distinct_partial : usable -> exists vals, (length vals <= length cs)%nat /\ forall v, In v (clustered_f cs w) -> exists q, In q vals /\ number v == q.
  Proof.
    intros (N & F & W & L). exists (map number cs). split; [now rewrite map_length|]. intros v IN. destruct (In_nth _ _ (f_of_int 0) IN) as (i & I & <-).
    rewrite clustered_length in I. destruct (nearest cs w i N F W L I) as (_ & c & B & C & _). exists (number c). split; auto. now apply in_map.
  Qed.
  (** ... and clustering a second time changes nothing. *)
  Theorem C147_idempotent_partial : usable -> Forall above_limit cs -> forall i, (i < length w)%nat ->
    number (at_ (clustered_f cs (clustered_f cs w)) i) == number (at_ (clustered_f cs w) i).
  Proof. intros (N & F & W & L) A i I. now apply idempotent. Qed.
End Clustering.

(** The float32 number m * 2^e. *)
Definition fl (m e : Z) : f32 := binary_normalize 24 128 prec24 emax128 mode_NE m e false.
(** The centroid used need not be the nearest: 1 - -16777216 rounds to 16777216. *)
Theorem C147_nearest_refuted : exists cs w, usable cs [w] /\ exists c, In c cs /\
  Qabs (number w - number c) < Qabs (number w - number (at_ (clustered_f cs [w]) 0)).
Proof.
  exists [fl (-16777216) 0; fl (-16777215) 0], (fl 1 0). split.
  - split; [discriminate|]. split; [|split].
    + repeat (apply Forall_cons; [split; vm_compute; congruence|]). apply Forall_nil.
    + apply Forall_cons; [split; vm_compute; congruence|apply Forall_nil].
    + apply Forall_cons; [vm_compute; congruence|apply Forall_nil].
  - exists (fl (-16777215) 0). split; [right; now left|]. vm_compute. reflexivity.
Qed.
(** Distances beyond 2^127 overflow, and then the first centroid is taken, even if another is much nearer (here: 4/7 of the distance). *)
Theorem C147_overflow_refuted : exists c0 c1 w, finite c0 /\ finite c1 /\ finite w /\ above_limit w /\
  Qabs (number w - number c1) < Qabs (number w- number c0) * (3#5) /\ number (at_ (clustered_f [c0; c1] [w]) 0) == number c0.
Proof. exists (fl (-7) 125), (fl (-1) 125), (fl 7 125). repeat split; vm_compute; congruence. Qed.

(** Two centroids, weights half way (the first wins) and on one of them. *)
Definition ex_cs : list f32 := [fl 0 0; fl 2 0; fl (-3) 0].
Definition ex_w : list f32 := [fl 1 0; fl 5 0; fl (-1) 0; fl (-2) 0; fl 0 0].
Example C147_example : map (fun v => Qred (number v)) (clustered_f ex_cs ex_w) = [0; 2; 0; -3 # 1; 0].
Proof. vm_compute. reflexivity. Qed.
Example C147_hypotheses : usable ex_cs ex_w /\ Forall above_limit ex_cs /\ clearly_nearest ex_cs (at_ ex_w 1) (at_ ex_cs 1).
Proof.
  split; [|split].
  - split; [discriminate|]. split; [|split]; repeat (apply Forall_cons; [first [split; vm_compute; congruence | vm_compute; congruence]|]); apply Forall_nil.
  - repeat (apply Forall_cons; [vm_compute; congruence|]); apply Forall_nil.
  - split; [right; now left|]. intros c [<- | [<- | [<- | []]]] NE; try (vm_compute; reflexivity). exfalso. apply NE. reflexivity.
Qed.

Print Assumptions C147_nearest_partial.
Print Assumptions C147_exact_partial.
Print Assumptions C147_fixed_partial.
Print Assumptions C147_distinct_partial.
Print Assumptions C147_idempotent_partial.
Print Assumptions C147_nearest_refuted.
Print Assumptions C147_overflow_refuted.
