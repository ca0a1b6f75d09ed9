From Verif Require Import Base M_Tensor.

Lemma valid_nil_iff idx : valid [] idx <-> idx = [].
Proof. split; intros H. inversion H; auto. subst; constructor. Qed.
Lemma valid_cons_iff d s i idx : valid (d :: s) (i :: idx) <-> i < d /\ valid s idx.
Proof. split; intros H. inversion H; auto. destruct H. constructor; auto. Qed.
Lemma valid_cons_inv d s idx : valid (d :: s) idx -> exists i r, idx = i :: r /\ i < d /\ valid s r.
Proof. intros H. inversion H; subst. eauto. Qed.

Lemma ravel_lt s idx : valid s idx -> ravel s idx < prod s.
Proof.
  revert idx. induction s as [|d s IH]; intros idx H.
  - inversion H; subst. cbn. lia.
  - apply valid_cons_inv in H as (i & r & -> & Hi & Hr). cbn [ravel prod].
    specialize (IH r Hr). nia.
Qed.

Lemma unravel_valid s n : n < prod s -> valid s (unravel s n).
Proof.
  revert n. induction s as [|d s IH]; intros n H; cbn [unravel prod] in *.
  - constructor.
  - assert (prod s <> 0) by nia. constructor.
    + apply Nat.div_lt_upper_bound; lia.
    + apply IH. apply Nat.mod_upper_bound. auto.
Qed.

Lemma unravel_ravel s idx : valid s idx -> unravel s (ravel s idx) = idx.
Proof.
  revert idx. induction s as [|d s IH]; intros idx H.
  - inversion H; subst. reflexivity.
  - apply valid_cons_inv in H as (i & r & -> & Hi & Hr). cbn [ravel unravel].
    pose proof (ravel_lt s r Hr).
    rewrite Nat.div_add_l by lia. rewrite (Nat.div_small (ravel s r)) by auto.
    rewrite Nat.add_0_r. f_equal.
    replace (i * prod s + ravel s r) with (ravel s r + i * prod s) by lia.
    rewrite Nat.mod_add by lia. rewrite Nat.mod_small by auto. auto.
Qed.

Lemma ravel_unravel s n : n < prod s -> ravel s (unravel s n) = n.
Proof.
  revert n. induction s as [|d s IH]; intros n H; cbn [unravel ravel prod] in *.
  - lia.
  - assert (prod s <> 0) by nia. rewrite IH by (apply Nat.mod_upper_bound; auto).
    pose proof (Nat.div_mod n (prod s)). lia.
Qed.

Lemma tab_shape {A} s (f : list nat -> A) : shape (tab s f) = s.
Proof. reflexivity. Qed.
Lemma tab_wf {A} s (f : list nat -> A) : wf (tab s f).
Proof. unfold wf, tab; cbn. rewrite map_length, seq_length. auto. Qed.

Lemma nth_map_seq {A} (f : nat -> A) n i d : i < n -> nth i (map f (seq 0 n)) d = f i.
Proof.
  intros H. rewrite nth_indep with (d' := f 0) by (rewrite map_length, seq_length; auto).
  rewrite map_nth. rewrite seq_nth by auto. reflexivity.
Qed.

Lemma tget_tab {A} (d : A) s f idx : valid s idx -> tget d (tab s f) idx = f idx.
Proof.
  intros H. unfold tget, tab; cbn [shape data].
  rewrite nth_map_seq by (apply ravel_lt; auto).
  rewrite unravel_ravel; auto.
Qed.

Lemma nth_ext_lt {A} (d : A) (l l' : list A) :
  length l = length l' -> (forall i, i < length l -> nth i l d = nth i l' d) -> l = l'.
Proof. intros H1 H2. apply nth_ext with (d := d) (d' := d); auto. Qed.

(** Two well-formed tensors with equal shape and equal entries are equal. *)
Lemma tensor_ext {A} (d : A) t t' :
  wf t -> wf t' -> shape t = shape t' ->
  (forall idx, valid (shape t) idx -> tget d t idx = tget d t' idx) -> t = t'.
Proof.
  destruct t as [s l], t' as [s' l']. unfold wf; cbn [shape data]. intros H1 H2 -> H.
  f_equal. apply nth_ext_lt with (d := d); [lia|]. intros i Hi.
  specialize (H (unravel s' i)). unfold tget in H; cbn [shape data] in H.
  rewrite ravel_unravel in H by lia. apply H. apply unravel_valid. lia.
Qed.

Lemma tget_tmap {A B} (f : A -> B) d d' t idx :
  wf t -> valid (shape t) idx -> tget d' (tmap f t) idx = f (tget d t idx).
Proof.
  intros Hw Hv. unfold tget, tmap; cbn [shape data].
  pose proof (ravel_lt _ _ Hv) as Hl. unfold wf in Hw.
  rewrite nth_indep with (d' := f d) by (rewrite map_length; lia).
  apply map_nth.
Qed.
Lemma tmap_wf {A B} (f : A -> B) t : wf t -> wf (tmap f t).
Proof. unfold wf, tmap; cbn. rewrite map_length. auto. Qed.

Lemma reshape_ok {A} (t : tensor A) s : wf t -> prod s = prod (shape t) -> reshape t s = Ok (mkT s (data t)).
Proof. unfold wf, reshape. intros H1 H2. rewrite H1, H2, Nat.eqb_refl. auto. Qed.

Lemma tab_ext {A} s (f g : list nat -> A) :
  (forall idx, valid s idx -> f idx = g idx) -> tab s f = tab s g.
Proof.
  intros H. unfold tab. f_equal. apply map_ext_in. intros n Hn.
  apply in_seq in Hn. apply H. apply unravel_valid. lia.
Qed.

Lemma tab_tget {A} (d : A) t : wf t -> tab (shape t) (tget d t) = t.
Proof.
  intros H. apply (tensor_ext d); auto. apply tab_wf.
  intros idx Hv. rewrite tab_shape in Hv. apply tget_tab; auto.
Qed.

Lemma transpose_wf {A} (d : A) p t : wf (transpose d p t).
Proof. apply tab_wf. Qed.
Lemma In_split_nth {A} (l : list A) x d : In x l -> exists i, i < length l /\ nth i l d = x.
Proof. apply In_nth. Qed.
