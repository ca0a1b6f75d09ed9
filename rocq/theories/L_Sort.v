(** Facts about the stable descending sort modelling tf.math.top_k. *)
From Verif Require Import Base M_Num L_Num M_Tensor L_Tensor M_Mask S_Mask.
From Coq Require Import Sorting.Sorted Sorting.Permutation.
Open Scope Q_scope.

(** [before x y]: x precedes y: larger value, or equal value and smaller index. *)
Definition before (x y : Q * nat) : Prop :=
  fst y < fst x \/ (fst x == fst y /\ (snd x < snd y)%nat).

Lemma before_trans x y z : before x y -> before y z -> before x z.
Proof. unfold before. intros [A|[A A']] [B|[B B']]; [left; lra|left; lra|left; lra|right; split; [lra|lia]]. Qed.
Lemma before_irrefl x : ~ before x x.
Proof. unfold before. intros [A|[A A']]; [lra|lia]. Qed.

Lemma insert_perm x l : Permutation (x :: l) (insert_desc x l).
Proof.
  induction l as [|y l IH]; cbn; auto. destruct (Qle_bool (fst y) (fst x)); auto.
  rewrite perm_swap. constructor. exact IH.
Qed.
Lemma sort_perm l : Permutation l (sort_desc l).
Proof.
  induction l as [|x l IH]; cbn; auto. rewrite <- insert_perm. constructor. exact IH.
Qed.

Lemma insert_in x y l : In y (insert_desc x l) <-> y = x \/ In y l.
Proof.
  split; intros H.
  - apply (Permutation_in _ (Permutation_sym (insert_perm x l))) in H. destruct H; auto.
  - apply (Permutation_in _ (insert_perm x l)). destruct H; [left; auto | right; auto].
Qed.

Lemma insert_sorted x l :
  StronglySorted before l -> (forall y, In y l -> (snd x < snd y)%nat) ->
  StronglySorted before (insert_desc x l).
Proof.
  intros H. induction H as [|y l Hl IH Hy]; intros Hx; cbn.
  - repeat constructor.
  - destruct (Qle_bool (fst y) (fst x)) eqn:E.
    + apply Qle_bool_iff in E. constructor; [constructor; auto|].
      assert (before x y).
      { unfold before. specialize (Hx y (or_introl eq_refl)).
        destruct (Qlt_le_dec (fst y) (fst x)); [auto|]. right. split; [lra|auto]. }
      constructor; auto. rewrite Forall_forall in Hy |- *. intros z Hz.
      apply before_trans with y; auto.
    + apply Qle_bool_false in E. constructor.
      * apply IH. intros z Hz. apply Hx. right; auto.
      * rewrite Forall_forall in Hy |- *. intros z Hz. apply insert_in in Hz as [->|Hz]; auto.
        left. exact E.
Qed.

Lemma indexed_from (l : list Q) s :
  StronglySorted before (sort_desc (combine l (seq s (length l)))).
Proof.
  revert s. induction l as [|a l IH]; intros s; cbn [length seq combine].
  - constructor.
  - cbn [sort_desc fold_right]. apply insert_sorted.
    + apply (IH (S s)).
    + intros y Hy. apply (Permutation_in _ (Permutation_sym (sort_perm _))) in Hy.
      destruct y as [b j]. apply in_combine_r in Hy. apply in_seq in Hy. cbn. lia.
Qed.
Lemma top_k_sorted l : StronglySorted before (top_k_all l).
Proof. apply indexed_from. Qed.
Lemma top_k_perm l : Permutation (indexed l) (top_k_all l).
Proof. apply sort_perm. Qed.
Lemma indexed_length l : length (indexed l) = length l.
Proof. unfold indexed. rewrite combine_length, seq_length. lia. Qed.
Lemma top_k_length l : length (top_k_all l) = length l.
Proof. rewrite <- (Permutation_length (top_k_perm l)). apply indexed_length. Qed.

Lemma indexed_nth l i d : (i < length l)%nat -> nth i (indexed l) d = (nth i l (fst d), i).
Proof.
  intros H. unfold indexed. rewrite (surjective_pairing d) at 1.
  rewrite combine_nth by (rewrite seq_length; auto). rewrite seq_nth by auto. reflexivity.
Qed.
Lemma indexed_in l a i : In (a, i) (indexed l) <-> (i < length l)%nat /\ nth i l 0 = a.
Proof.
  split.
  - intros H. apply (In_nth _ _ (0, 0%nat)) in H as [j [Hj H]].
    rewrite indexed_length in Hj. rewrite indexed_nth in H by auto. inversion H; subst. auto.
  - intros [H <-]. pose proof (indexed_nth l i (0, 0%nat) H) as E. cbn [fst] in E. rewrite <- E. apply nth_In.
    rewrite indexed_length. auto.
Qed.

Lemma map_fst_indexed l : map fst (indexed l) = l.
Proof.
  unfold indexed. generalize 0%nat. induction l as [|a l IH]; intros s; cbn; auto. f_equal. apply IH.
Qed.
Lemma map_snd_indexed l : map snd (indexed l) = seq 0 (length l).
Proof.
  unfold indexed. generalize 0%nat. induction l as [|a l IH]; intros s; cbn; auto. f_equal. apply IH.
Qed.

(** Counting through the permutation. *)
Lemma count_perm {A} (p : A -> bool) l l' : Permutation l l' -> count_if p l = count_if p l'.
Proof.
  unfold count_if. induction 1; cbn; auto.
  - destruct (p x); cbn; auto.
  - destruct (p x), (p y); cbn; auto.
  - congruence.
Qed.
Lemma count_map {A B} (f : A -> B) (p : B -> bool) l : count_if p (map f l) = count_if (fun x => p (f x)) l.
Proof. unfold count_if. induction l; cbn; auto. destruct (p (f a)); cbn; auto. Qed.
Lemma count_indexed (p : Q -> bool) l : count_if p l = count_if (fun x => p (fst x)) (top_k_all l).
Proof.
  rewrite <- (count_perm _ _ _ (top_k_perm l)). rewrite <- (map_fst_indexed l) at 1. apply count_map.
Qed.
Lemma count_app {A} (p : A -> bool) l l' : count_if p (l ++ l') = (count_if p l + count_if p l')%nat.
Proof. unfold count_if. rewrite filter_app, app_length. auto. Qed.
Lemma count_all {A} (p : A -> bool) l : (forall x, In x l -> p x = true) -> count_if p l = length l.
Proof.
  unfold count_if. induction l; cbn; auto. intros H. rewrite H by auto. cbn. f_equal. auto.
Qed.
Lemma count_none {A} (p : A -> bool) l : (forall x, In x l -> p x = false) -> count_if p l = 0%nat.
Proof. unfold count_if. induction l; cbn; auto. intros H. rewrite H by auto. auto. Qed.
Lemma count_le {A} (p : A -> bool) l : (count_if p l <= length l)%nat.
Proof. unfold count_if. induction l; cbn; auto. destruct (p a); cbn; lia. Qed.
Lemma count_le_impl {A} (p q : A -> bool) l :
  (forall x, In x l -> p x = true -> q x = true) -> (count_if p l <= count_if q l)%nat.
Proof.
  unfold count_if. induction l; cbn; auto. intros H.
  assert (length (filter p l) <= length (filter q l))%nat by (apply IHl; auto).
  destruct (p a) eqn:E; destruct (q a) eqn:F; cbn; try lia.
  rewrite (H a) in F by auto. discriminate.
Qed.
Lemma count_ext {A} (p q : A -> bool) l :
  (forall x, In x l -> p x = q x) -> count_if p l = count_if q l.
Proof. intros H. unfold count_if. f_equal. apply filter_ext_in. auto. Qed.

(** A strongly sorted list around position [i]. *)
Lemma sorted_split (l : list (Q * nat)) i x :
  StronglySorted before l -> nth_error l i = Some x ->
  exists l1 l2, l = l1 ++ x :: l2 /\ length l1 = i /\
    (forall y, In y l1 -> before y x) /\ (forall y, In y l2 -> before x y).
Proof.
  intros Hs Hn. apply nth_error_split in Hn as (l1 & l2 & -> & Hl).
  exists l1, l2. repeat split; auto.
  - clear Hl. induction l1 as [|z l1 IH]; intros y Hy; [destruct Hy|].
    inversion Hs as [|? ? Hs' Hf]; subst. destruct Hy as [->|Hy].
    + rewrite Forall_forall in Hf. apply Hf. apply in_or_app. right. left. auto.
    + apply IH; auto.
  - intros y Hy. clear Hl. induction l1 as [|z l1 IH].
    + inversion Hs as [|? ? Hs' Hf]; subst. rewrite Forall_forall in Hf. auto.
    + inversion Hs; subst. auto.
Qed.

Lemma sort_kth l i t p :
  nth_error (top_k_all l) i = Some (t, p) ->
  kth_largest l (S i) t /\ (p < length l)%nat /\ nth p l 0 = t.
Proof.
  intros H. pose proof (nth_error_In _ _ H) as Hin.
  apply (Permutation_in _ (Permutation_sym (top_k_perm l))) in Hin. apply indexed_in in Hin as [Hp Hv].
  split; [|auto].
  destruct (sorted_split _ _ _ (top_k_sorted l) H) as (l1 & l2 & E & Hl & H1 & H2).
  unfold kth_largest. rewrite !(count_indexed _ l), E, !count_app. repeat split.
  - rewrite <- Hv. apply nth_In. auto.
  - rewrite (count_all _ l1).
    + unfold count_if. cbn [filter fst].
      assert (Qle_bool t t = true) as -> by (apply Qle_bool_iff; lra). cbn. lia.
    + intros y Hy. apply Qle_bool_iff. destruct (H1 y Hy) as [A|[A _]]; cbn in A; lra.
  - rewrite (count_none _ ((t, p) :: l2)).
    + pose proof (count_le (fun x : Q * nat => negb (Qle_bool (fst x) t)) l1). lia.
    + intros y [<-|Hy]; apply negb_false_iff, Qle_bool_iff; cbn; [lra|].
      destruct (H2 y Hy) as [A|[A _]]; cbn in A; lra.
Qed.

Lemma nth_error_top_k_exists l i : (i < length l)%nat -> exists t p, nth_error (top_k_all l) i = Some (t, p).
Proof.
  intros H. destruct (nth_error (top_k_all l) i) as [[t p]|] eqn:E; eauto.
  apply nth_error_None in E. rewrite top_k_length in E. lia.
Qed.

(** ** The k best indices *)
Lemma NoDup_snd_top_k l : NoDup (map snd (top_k_all l)).
Proof.
  apply (Permutation_NoDup (l := map snd (indexed l))).
  - apply Permutation_map. apply top_k_perm.
  - rewrite map_snd_indexed. apply seq_NoDup.
Qed.
Lemma top_k_indices_length k l : length (top_k_indices k l) = Nat.min k (length l).
Proof. unfold top_k_indices. rewrite map_length, firstn_length, top_k_length. auto. Qed.
Lemma firstn_In {A} n (l : list A) x : In x (firstn n l) -> In x l.
Proof. intros H. rewrite <- (firstn_skipn n l). apply in_or_app. auto. Qed.
Lemma NoDup_app_l {A} (l l' : list A) : NoDup (l ++ l') -> NoDup l.
Proof. induction l; cbn; intros H; [constructor|]. inversion H; subst. constructor; auto. intro K. apply H2. apply in_or_app; auto. Qed.
Lemma top_k_indices_NoDup k l : NoDup (top_k_indices k l).
Proof.
  unfold top_k_indices. rewrite <- firstn_map.
  apply (NoDup_app_l _ (skipn k (map snd (top_k_all l)))). rewrite firstn_skipn. apply NoDup_snd_top_k.
Qed.
Lemma top_k_indices_lt k l i : In i (top_k_indices k l) -> (i < length l)%nat.
Proof.
  unfold top_k_indices. intros H. apply in_map_iff in H as [[a j] [<- H]].
  apply firstn_In in H. apply (Permutation_in _ (Permutation_sym (top_k_perm l))) in H.
  apply indexed_in in H. tauto.
Qed.
(** A chosen index precedes every index not chosen. *)
Lemma top_k_indices_before k l i j :
  In i (top_k_indices k l) -> (j < length l)%nat -> ~ In j (top_k_indices k l) ->
  before (nth i l 0, i) (nth j l 0, j).
Proof.
  intros Hi Hj Hn. unfold top_k_indices in *.
  apply in_map_iff in Hi as [[a i'] [E Hi]]. cbn in E; subst i'.
  assert (Ha : nth i l 0 = a).
  { apply firstn_In in Hi. apply (Permutation_in _ (Permutation_sym (top_k_perm l))) in Hi.
    apply indexed_in in Hi. tauto. }
  assert (Hin : In (nth j l 0, j) (top_k_all l)).
  { apply (Permutation_in _ (top_k_perm l)). apply indexed_in. auto. }
  rewrite <- (firstn_skipn k (top_k_all l)) in Hin. apply in_app_or in Hin as [Hin|Hin].
  - exfalso. apply Hn. apply in_map_iff. exists (nth j l 0, j). auto.
  - rewrite Ha. pose proof (top_k_sorted l) as Hs. rewrite <- (firstn_skipn k (top_k_all l)) in Hs.
    revert Hs Hi Hin. generalize (firstn k (top_k_all l)) as l1. generalize (skipn k (top_k_all l)) as l2.
    intros l2 l1. induction l1 as [|z l1 IH]; intros Hs Hi Hin; [destruct Hi|].
    inversion Hs as [|? ? Hs' Hf]; subst. destruct Hi as [->|Hi]; auto.
    rewrite Forall_forall in Hf. apply Hf. apply in_or_app. auto.
Qed.
