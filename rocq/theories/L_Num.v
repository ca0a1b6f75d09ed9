From Verif Require Import Base M_Num.
Open Scope Q_scope.

Lemma Qle_bool_false a b : Qle_bool a b = false <-> b < a.
Proof.
  split; intros H.
  - apply Qnot_le_lt. intro K. apply Qle_bool_iff in K. congruence.
  - destruct (Qle_bool a b) eqn:E; auto. apply Qle_bool_iff in E. lra.
Qed.
Lemma qltb_iff a b : qltb a b = true <-> a < b.
Proof. unfold qltb. rewrite negb_true_iff. apply Qle_bool_false. Qed.
Lemma qltb_false a b : qltb a b = false <-> b <= a.
Proof. unfold qltb. rewrite negb_false_iff. apply Qle_bool_iff. Qed.
Lemma qmax_spec a b : (a <= b /\ qmax a b = b) \/ (b < a /\ qmax a b = a).
Proof.
  unfold qmax. destruct (Qle_bool a b) eqn:E.
  - apply Qle_bool_iff in E. auto.
  - apply Qle_bool_false in E. auto.
Qed.
Lemma qmin_spec a b : (a <= b /\ qmin a b = a) \/ (b < a /\ qmin a b = b).
Proof.
  unfold qmin. destruct (Qle_bool a b) eqn:E.
  - apply Qle_bool_iff in E. auto.
  - apply Qle_bool_false in E. auto.
Qed.

Lemma floor_bounds x : inject_Z (Qfloor x) <= x /\ x < inject_Z (Qfloor x) + 1.
Proof.
  split. apply Qfloor_le. pose proof (Qlt_floor x) as H. rewrite inject_Z_plus in H. exact H.
Qed.

Lemma round_cases x :
  let f := Qfloor x in
  (round_half_even x = f /\ inject_Z f <= x <= inject_Z f + (1#2)) \/
  (round_half_even x = (f + 1)%Z /\ inject_Z f + (1#2) <= x < inject_Z f + 1).
Proof.
  cbn zeta. unfold round_half_even. pose proof (floor_bounds x) as [A B].
  set (f := Qfloor x) in *.
  destruct (Qle_bool (1#2) (x - inject_Z f)) eqn:E1; cbn [negb].
  - apply Qle_bool_iff in E1. destruct (Qle_bool (x - inject_Z f) (1#2)) eqn:E2; cbn [negb].
    + apply Qle_bool_iff in E2. destruct (Z.even f); [left|right]; split; auto; lra.
    + apply Qle_bool_false in E2. right. split; auto; lra.
  - apply Qle_bool_false in E1. left. split; auto; lra.
Qed.

Lemma round_error x : Qabs (inject_Z (round_half_even x) - x) <= 1#2.
Proof.
  apply Qabs_Qle_condition. destruct (round_cases x) as [[-> H]|[-> H]].
  - lra.
  - rewrite inject_Z_plus. change (inject_Z 1) with 1. lra.
Qed.
Lemma round_lo x : inject_Z (round_half_even x) - x <= 1#2.
Proof. pose proof (round_error x) as H. apply Qabs_Qle_condition in H. lra. Qed.
Lemma round_hi x : x - inject_Z (round_half_even x) <= 1#2.
Proof. pose proof (round_error x) as H. apply Qabs_Qle_condition in H. lra. Qed.

Lemma inj_le a b : inject_Z a <= inject_Z b <-> (a <= b)%Z.
Proof. rewrite Zle_Qle. tauto. Qed.
Lemma inj_lt a b : inject_Z a < inject_Z b <-> (a < b)%Z.
Proof. rewrite Zlt_Qlt. tauto. Qed.
Lemma inj_lt_succ a b : inject_Z a < inject_Z b + 1 -> (a <= b)%Z.
Proof.
  intros H. assert (inject_Z a < inject_Z (b + 1)) by (rewrite inject_Z_plus; change (inject_Z 1) with 1; lra).
  rewrite inj_lt in H0. lia.
Qed.
Lemma inj_1 : inject_Z 1 = 1. Proof. reflexivity. Qed.
Lemma inj_0 : inject_Z 0 = 0. Proof. reflexivity. Qed.

Lemma Qfloor_unique x z : inject_Z z <= x -> x < inject_Z z + 1 -> Qfloor x = z.
Proof.
  intros A B. pose proof (floor_bounds x) as [C D].
  apply Z.le_antisymm; apply inj_lt_succ; lra.
Qed.
Lemma Qfloor_compat x y : x == y -> Qfloor x = Qfloor y.
Proof. intros H. apply Qfloor_comp. auto. Qed.

Lemma round_compat x y : x == y -> round_half_even x = round_half_even y.
Proof.
  intros H. unfold round_half_even. rewrite (Qfloor_compat x y H). set (f := Qfloor y).
  assert (x - inject_Z f == y - inject_Z f) as E by lra.
  rewrite !(Qleb_comp _ _ (Qeq_refl (1#2)) _ _ E), !(Qleb_comp _ _ E _ _ (Qeq_refl (1#2))).
  reflexivity.
Qed.
Global Instance round_Proper : Proper (Qeq ==> eq) round_half_even.
Proof. intros x y H. apply round_compat; auto. Qed.

(** Rounding is monotone and fixes integers. *)
Lemma round_le x y : x <= y -> (round_half_even x <= round_half_even y)%Z.
Proof.
  intros H. pose proof (Qfloor_resp_le x y H) as Hf.
  destruct (Z.eq_dec (Qfloor x) (Qfloor y)) as [E|N].
  - unfold round_half_even. rewrite <- E. set (f := Qfloor x).
    destruct (Qle_bool (1#2) (x - inject_Z f)) eqn:E1; cbn [negb].
    + apply Qle_bool_iff in E1.
      assert (Qle_bool (1#2) (y - inject_Z f) = true) as -> by (apply Qle_bool_iff; lra). cbn [negb].
      destruct (Qle_bool (x - inject_Z f) (1#2)) eqn:E2; cbn [negb].
      * destruct (Qle_bool (y - inject_Z f) (1#2)); cbn [negb]; destruct (Z.even f); lia.
      * apply Qle_bool_false in E2.
        assert (Qle_bool (y - inject_Z f) (1#2) = false) as -> by (apply Qle_bool_false; lra).
        cbn [negb]. lia.
    + destruct (Qle_bool (1#2) (y - inject_Z f)), (Qle_bool (y - inject_Z f) (1#2)), (Z.even f); cbn; lia.
  - destruct (round_cases x) as [[-> _]|[-> _]]; destruct (round_cases y) as [[-> _]|[-> _]]; lia.
Qed.
Lemma round_inject z : round_half_even (inject_Z z) = z.
Proof.
  unfold round_half_even. rewrite Qfloor_Z.
  assert (Qle_bool (1#2) (inject_Z z - inject_Z z) = false) as ->; [|reflexivity].
  apply Qle_bool_false. lra.
Qed.
Lemma round_bounds x a b : inject_Z a <= x <= inject_Z b -> (a <= round_half_even x <= b)%Z.
Proof.
  intros [A B]. apply round_le in A, B. rewrite round_inject in *. lia.
Qed.
