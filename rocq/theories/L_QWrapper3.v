(** set_quantize_weights called directly. *)
From Verif Require Import Base M_Num M_Tensor M_Quant M_QWrapper S_QWrapper L_QWrapper.

Lemma other_attr l a b t : b <> a -> getattr (setattr_tensor l a t) b = getattr l b.
Proof. intros N. unfold getattr, setattr_tensor. cbn [l_attrs]. rewrite alookup_update. destruct (Nat.eqb_spec b a); [congruence|reflexivity]. Qed.
Lemma set_weights_errors st attrs : forall l ws e, NoDup attrs -> List.length attrs = List.length ws -> set_weights st l attrs ws = Err e ->
  exists i a w, nth_error attrs i = Some a /\ nth_error ws i = Some w /\
   ((e = AttributeError /\ getattr l a = Err AttributeError) \/
    (e = ValueError /\ exists cur, getattr l a = Ok cur /\ shape (value st cur) <> shape w)).
Proof.
  induction attrs as [|a attrs IH]; intros l [|w ws] e Nd Len H; try discriminate. cbn [set_weights] in H.
  destruct (getattr l a) as [cur|e1] eqn:G; cbn [bind] in H.
  - unfold shape_eqb in H. destruct (list_eq_dec _ _ _) as [E|E]; cbn [negb] in H.
    + inversion Nd as [|? ? Na Nd']; subst. injection Len as Len. destruct (IH _ _ _ Nd' Len H) as (i & b & u & Hb & Hu & K).
      exists (S i), b, u. split; [auto|]. split; [auto|]. assert (b <> a) as N by (intros ->; apply nth_error_In in Hb; contradiction).
      rewrite (other_attr l a b w N) in K. exact K.
    + injection H as <-. exists 0%nat, a, w. repeat split; auto. right. split; [reflexivity|]. eauto.
  - injection H as <-. exists 0%nat, a, w. repeat split; auto. left. unfold getattr in *. destruct (alookup a (l_attrs l)); [discriminate|]. injection G as <-. auto.
Qed.

Lemma accepted_all st attrs : forall l ws l', NoDup attrs -> List.length attrs = List.length ws -> set_weights st l attrs ws = Ok l' ->
  forall i a, nth_error attrs i = Some a -> exists cur w, nth_error ws i = Some w /\ getattr l a = Ok cur /\ shape (value st cur) = shape w.
Proof.
  induction attrs as [|a attrs IH]; intros l [|w ws] l' Nd Len H i b Hi; try discriminate; [destruct i; discriminate|]. cbn [set_weights] in H.
  destruct (getattr l a) as [cur|e1] eqn:G; cbn [bind] in H; [|discriminate]. unfold shape_eqb in H. destruct (list_eq_dec _ _ _) as [E|E]; cbn [negb] in H; [|discriminate].
  destruct i as [|i]; cbn [nth_error] in *; [injection Hi as <-; eauto|].
  inversion Nd as [|? ? Na Nd']; subst. injection Len as Len. destruct (IH _ _ _ Nd' Len H i b Hi) as (c & u & Hu & K & Sh).
  rewrite other_attr in K by (intros ->; apply nth_error_In in Hi; contradiction). eauto.
Qed.
Lemma accepted_shapes st attrs l ws l' : NoDup attrs -> List.length attrs = List.length ws -> set_weights st l attrs ws = Ok l' ->
  forall i a w cur, nth_error attrs i = Some a -> nth_error ws i = Some w -> getattr l a = Ok cur -> shape (value st cur) = shape w.
Proof. intros N L H i a w cur Ha Hw G. destruct (accepted_all st attrs l ws l' N L H i a Ha) as (c & u & Hu & K & Sh). congruence. Qed.
Lemma accepted_present st attrs l ws l' : NoDup attrs -> List.length attrs = List.length ws -> set_weights st l attrs ws = Ok l' ->
  forall i a, nth_error attrs i = Some a -> getattr l a <> Err AttributeError.
Proof. intros N L H i a Ha G. destruct (accepted_all st attrs l ws l' N L H i a Ha) as (c & u & Hu & K & Sh). congruence. Qed.
