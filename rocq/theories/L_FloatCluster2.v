From Coq Require Import Reals Qabs Qreals.
From Flocq Require Import Core BinarySingleNaN.
From Verif Require Import Base M_Float32 S_Float32 M_FloatQuant S_FloatQuant M_FloatCluster S_FloatCluster L_Float32 L_Float32b L_Float32c L_FloatSchedule L_FloatSchedule2 L_FloatQuant L_FloatQuant2 L_FloatCluster.
From Coq Require Import Lra Psatz Lia.
Open Scope Q_scope.

Notation at_ l i := (nth i l (f_of_int 0)).
Lemma modR_iff x : modR x <-> moderate x. Proof. rewrite moderate_val. reflexivity. Qed.
Lemma number_eq x y : number x == number y <-> val x = val y. Proof. rewrite eq_R, !number_val. tauto. Qed.
Lemma limit_val w : above_limit w -> (- 1000000 < val w)%R.
Proof. unfold above_limit. rewrite lt_R, Q2R_opp, Q2R_int, number_val. auto. Qed.
Lemma dist_R x y : Q2R (Qabs (number x - number y)) = Rabs (val x - val y).
Proof. rewrite abs_R, Q2R_minus, !number_val. reflexivity. Qed.
Lemma eps1_R : Q2R (1 + eps) = (1 + 4 * u)%R. Proof. rewrite Q2R_plus, one_R, u_eps. reflexivity. Qed.
Lemma clustered_nth cs w i : (i < length w)%nat -> at_ (clustered_f cs w) i = add_gradient_f (at_ cs (pulling_index_f cs (at_ w i))) (at_ w i).
Proof.
  intros H. unfold clustered_f. rewrite nth_indep with (d' := add_gradient_f (at_ cs (pulling_index_f cs (f_of_int 0))) (f_of_int 0)) by now rewrite map_length.
  rewrite (map_nth (fun x => add_gradient_f (at_ cs (pulling_index_f cs x)) x)). reflexivity.
Qed.
Lemma one_weight cs w : cs <> [] -> Forall moderate cs -> moderate w -> above_limit w ->
  let v := add_gradient_f (at_ cs (pulling_index_f cs w)) w in
  fin v = true /\ exists c, In c cs /\ val v = val c /\ forall c', In c' cs -> (Rabs (rnd (val w - val c)) <= Rabs (rnd (val w - val c')))%R.
Proof.
  intros N F M H. apply cluster_val; auto; [|now apply modR_iff|now apply limit_val].
  eapply Forall_impl; [|exact F]. intros a A. now apply modR_iff.
Qed.
Theorem nearest cs w i : cs <> [] -> Forall moderate cs -> Forall moderate w -> Forall above_limit w -> (i < length w)%nat ->
  nearest_up_to_rounding cs (at_ w i) (at_ (clustered_f cs w) i).
Proof.
  intros N F W L I. rewrite clustered_nth by auto. rewrite Forall_forall in W, L. pose proof (nth_In w (f_of_int 0) I) as IN.
  destruct (one_weight cs (at_ w i) N F (W _ IN) (L _ IN)) as (A & c & B & C & D). split; [exact A|]. exists c. split; auto. split; [now apply number_eq|].
  intros c' IN'. rewrite le_R, Q2R_mult, !dist_R, eps1_R. apply nearer. now apply D.
Qed.
Theorem exact cs w i c : cs <> [] -> Forall moderate cs -> Forall moderate w -> Forall above_limit w -> (i < length w)%nat ->
  clearly_nearest cs (at_ w i) c -> number (at_ (clustered_f cs w) i) == number c.
Proof.
  intros N F W L I [IN C]. destruct (nearest cs w i N F W L I) as (_ & c1 & B & E & D). rewrite E.
  destruct (Qeq_dec (number c1) (number c)) as [Q|Q]; auto. exfalso. pose proof (C c1 B Q) as H1. pose proof (D c IN) as H2. apply (Qlt_not_le _ _ H1). exact H2.
Qed.
Theorem fixed cs w i c : cs <> [] -> Forall moderate cs -> Forall moderate w -> Forall above_limit w -> (i < length w)%nat ->
  In c cs -> number (at_ w i) == number c -> number (at_ (clustered_f cs w) i) == number c.
Proof.
  intros N F W L I IN E. apply exact; auto. split; auto. intros c' IN' NE.
  rewrite E. setoid_replace (number c - number c) with 0 by ring. cbn [Qabs]. change (Qabs 0) with 0. rewrite Qmult_0_l.
  apply Qnot_le_lt. intros H. apply NE. apply Qabs_Qle_condition in H. lra.
Qed.
Lemma clustered_length cs w : length (clustered_f cs w) = length w. Proof. apply map_length. Qed.
Lemma clustered_mod cs w : cs <> [] -> Forall moderate cs -> Forall above_limit cs -> Forall moderate w -> Forall above_limit w ->
  Forall moderate (clustered_f cs w) /\ Forall above_limit (clustered_f cs w).
Proof.
  intros N F FA W L. assert (forall v, In v (clustered_f cs w) -> moderate v /\ above_limit v) as H.
  { intros v IN. destruct (In_nth _ _ (f_of_int 0) IN) as (i & I & <-). rewrite clustered_length in I.
    destruct (nearest cs w i N F W L I) as (A & c & B & C & _). rewrite Forall_forall in F, FA. destruct (F c B) as [_ D]. specialize (FA c B).
    split; [split; auto|]. { now rewrite C. } unfold above_limit in *. now rewrite C. }
  split; apply Forall_forall; intros v IN; now apply H.
Qed.
Theorem idempotent cs w i : cs <> [] -> Forall moderate cs -> Forall above_limit cs -> Forall moderate w -> Forall above_limit w -> (i < length w)%nat ->
  number (at_ (clustered_f cs (clustered_f cs w)) i) == number (at_ (clustered_f cs w) i).
Proof.
  intros N F FA W L I. destruct (clustered_mod cs w) as [M1 M2]; auto. destruct (nearest cs w i N F W L I) as (A & c & B & C & _).
  rewrite (fixed cs (clustered_f cs w) i c); auto. { now symmetry. } now rewrite clustered_length.
Qed.
