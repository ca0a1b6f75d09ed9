(** Gradients (C25) and centroid initialisation (C27-C29). *)
From Verif Require Import Base M_Tensor M_Num M_Stages M_Cluster S_Cluster L_Num L_Tensor L_Stages L_Cluster.
Open Scope Q_scope.

Lemma add_at_length l : forall i v, length (add_at l i v) = length l.
Proof. induction l; intros [|i] v; cbn; auto. Qed.
Lemma scatter_length idx : forall acc vals, length (scatter_add acc idx vals) = length acc.
Proof. induction idx; intros acc [|v vals]; cbn; auto. rewrite IHidx. apply add_at_length. Qed.
Lemma nth_add_at l : forall i v j, (j < length l)%nat -> nth j (add_at l i v) 0 == nth j l 0 + (if Nat.eqb i j then v else 0).
Proof.
  induction l as [|a l IH]; intros i v j H; [cbn in H; lia|]. destruct i as [|i], j as [|j]; cbn; try ring.
  apply IH. cbn in H. lia.
Qed.
Lemma nth_scatter idx : forall acc vals j, (j < length acc)%nat -> nth j (scatter_add acc idx vals) 0 == nth j acc 0 + sumQ (member_grads j idx vals).
Proof.
  induction idx as [|i idx IH]; intros acc vals j L; [cbn; unfold member_grads; cbn; ring|].
  destruct vals as [|v vals]; [cbn; unfold member_grads; cbn; ring|]. cbn [scatter_add]. rewrite IH by (rewrite add_at_length; exact L).
  rewrite nth_add_at by exact L. unfold member_grads. cbn [combine filter fst]. destruct (Nat.eqb i j); cbn; ring.
Qed.
Lemma nth_repeat0 n j : nth j (repeat 0 n) 0 = 0.
Proof. revert j. induction n; intros [|j]; cbn; auto. Qed.
Lemma member_map j (f : Q -> Q) idx : forall g, member_grads j idx (map f g) = map f (member_grads j idx g).
Proof.
  induction idx as [|i idx IH]; intros [|v g]; try reflexivity. unfold member_grads in *. cbn [map combine filter fst].
  destruct (Nat.eqb i j); cbn; [f_equal|]; apply IH.
Qed.
Lemma map_fst_grad g : map (fun x => fst (add_gradient_grad x)) g = g.
Proof. unfold add_gradient_grad. cbn. apply map_id. Qed.
Lemma member_ones j idx : sumQ (member_grads j idx (repeat 1 (length idx))) == inject_Z (Z.of_nat (length (filter (Nat.eqb j) idx))).
Proof.
  induction idx as [|i idx IH]; [reflexivity|]. unfold member_grads in *. cbn [length repeat combine filter fst map].
  rewrite (Nat.eqb_sym j i). destruct (Nat.eqb i j); cbn [map snd sumQ length].
  - rewrite IH. rewrite Nat2Z.inj_succ. unfold Z.succ. rewrite inject_Z_plus. change (inject_Z 1) with 1. ring.
  - exact IH.
Qed.
Lemma member_length j idx : forall g, length g = length idx -> length (member_grads j idx g) = length (filter (Nat.eqb j) idx).
Proof.
  induction idx as [|i idx IH]; intros [|v g] E; try discriminate; [reflexivity|]. unfold member_grads in *. cbn in E. cbn [combine filter fst map].
  rewrite (Nat.eqb_sym j i). destruct (Nat.eqb i j); cbn; rewrite IH; auto.
Qed.

Lemma centroid_grad_length agg n idx g : length (centroid_grad agg n idx g) = n.
Proof.
  unfold centroid_grad, bincount. destruct agg; rewrite ?map_length, ?combine_length, !scatter_length, repeat_length; [reflexivity|]. apply Nat.min_id.
Qed.
Lemma centroid_grad_sum n idx g j : (j < n)%nat -> nth j (centroid_grad SUM n idx g) 0 == sumQ (member_grads j idx g).
Proof.
  intros L. unfold centroid_grad. rewrite map_fst_grad. rewrite nth_scatter by (rewrite repeat_length; exact L). rewrite nth_repeat0. ring.
Qed.
Lemma centroid_grad_avg n idx g j : (j < n)%nat -> length g = length idx ->
  (member_grads j idx g = [] -> nth j (centroid_grad AVG n idx g) 0 == 0) /\
  (member_grads j idx g <> [] -> nth j (centroid_grad AVG n idx g) 0 == sumQ (member_grads j idx g) / inject_Z (Z.of_nat (length (member_grads j idx g)))).
Proof.
  intros L E. unfold centroid_grad. rewrite map_fst_grad.
  set (d := scatter_add (repeat 0 n) idx g). set (b := bincount n idx).
  assert (Ld : length d = n) by (unfold d; rewrite scatter_length; apply repeat_length).
  assert (Lb : length b = n) by (unfold b, bincount; rewrite scatter_length; apply repeat_length).
  assert (V : nth j (map (fun p => divide_no_nan (fst p) (snd p)) (combine d b)) 0 = divide_no_nan (nth j d 0) (nth j b 0)).
  { rewrite (nth_indep _ 0 (divide_no_nan 0 0)) by (rewrite map_length, combine_length, Ld, Lb; lia).
    change (divide_no_nan 0 0) with ((fun p : Q * Q => divide_no_nan (fst p) (snd p)) (0, 0)). rewrite map_nth, combine_nth by congruence. reflexivity. }
  rewrite V. assert (Vd : nth j d 0 == sumQ (member_grads j idx g)). { unfold d. rewrite nth_scatter by (rewrite repeat_length; exact L). rewrite nth_repeat0. ring. }
  assert (Vb : nth j b 0 == inject_Z (Z.of_nat (length (member_grads j idx g)))).
  { unfold b, bincount. rewrite nth_scatter by (rewrite repeat_length; exact L). rewrite nth_repeat0, member_ones, member_length by exact E. ring. }
  unfold divide_no_nan. destruct (Qeq_bool (nth j b 0) 0) eqn:Z0.
  - apply Qeq_bool_iff in Z0. rewrite Vb in Z0. split; [reflexivity|]. intros N. exfalso. destruct (member_grads j idx g); [congruence|].
    cbn [length] in Z0. change 0 with (inject_Z 0) in Z0. rewrite inject_Z_injective in Z0. lia.
  - apply Qeq_bool_neq in Z0. rewrite Vb in Z0. split; intros N.
    + rewrite N in Z0. exfalso. apply Z0. reflexivity.
    + rewrite Vd, Vb. reflexivity.
Qed.
(** Conservation: summed over the centroids, SUM gradients are the sum of all upstream gradients. *)
Lemma sumQ_add_at l : forall i v, (i < length l)%nat -> sumQ (add_at l i v) == sumQ l + v.
Proof. induction l as [|a l IH]; intros [|i] v H; cbn in *; try lia; [ring|]. rewrite IH by lia. ring. Qed.
Lemma sumQ_scatter idx : forall acc g, length g = length idx -> (forall i, In i idx -> (i < length acc)%nat) -> sumQ (scatter_add acc idx g) == sumQ acc + sumQ g.
Proof.
  induction idx as [|i idx IH]; intros acc [|v g] E H; try discriminate; cbn; [ring|].
  rewrite IH; [| cbn in E; lia | intros k Hk; rewrite add_at_length; apply H; now right].
  rewrite sumQ_add_at by (apply H; now left). ring.
Qed.
Lemma sumQ_repeat0 n : sumQ (repeat 0 n) == 0. Proof. induction n; cbn; [reflexivity|]. rewrite IHn. ring. Qed.
Lemma centroid_grad_total n idx g : length g = length idx -> (forall i, In i idx -> (i < n)%nat) -> sumQ (centroid_grad SUM n idx g) == sumQ g.
Proof.
  intros E H. unfold centroid_grad. rewrite map_fst_grad, sumQ_scatter, sumQ_repeat0; [ring|exact E|]. intros i Hi. rewrite repeat_length. auto.
Qed.

(** linspace *)
Lemma linspace_length a b n : length (linspace a b n) = n.
Proof. destruct n as [|[|n]]; [reflexivity|reflexivity|]. unfold linspace. rewrite map_length, seq_length. reflexivity. Qed.
Lemma nth_linspace a b n i : (2 <= n)%nat -> (i < n)%nat -> nth i (linspace a b n) 0 = a + inject_Z (Z.of_nat i) * ((b - a) / inject_Z (Z.of_nat n - 1)).
Proof. intros H L. destruct n as [|[|n]]; [lia|lia|]. unfold linspace. now rewrite nth_map_seq. Qed.
Lemma inject_pos z : (0 < z)%Z -> 0 < inject_Z z. Proof. intros H. apply (inj_lt 0). exact H. Qed.
Lemma linspace_even a b n : (2 <= n)%nat -> evenly_spaced a b n (linspace a b n).
Proof.
  intros H. split; [apply linspace_length|]. assert (P : 0 < inject_Z (Z.of_nat n - 1)) by (apply inject_pos; lia). split; [|split].
  - rewrite nth_linspace by lia. change (inject_Z (Z.of_nat 0)) with 0. ring.
  - rewrite nth_linspace by lia. replace (Z.of_nat (n - 1)) with (Z.of_nat n - 1)%Z by lia. field. lra.
  - exists ((b - a) / inject_Z (Z.of_nat n - 1)). intros i L. rewrite !nth_linspace by lia. rewrite Nat2Z.inj_succ. unfold Z.succ. rewrite inject_Z_plus. change (inject_Z 1) with 1. ring.
Qed.
Lemma linspace_range a b n x : a <= b -> In x (linspace a b n) -> a <= x <= b.
Proof.
  intros H Hx. destruct n as [|[|n]]; [destruct Hx|destruct Hx as [<-|[]]; lra|].
  destruct (In_split_nth _ _ 0 Hx) as (i & L & <-). rewrite linspace_length in L. rewrite nth_linspace by lia.
  assert (P : 0 < inject_Z (Z.of_nat (S (S n)) - 1)) by (apply inject_pos; lia). set (m := inject_Z (Z.of_nat (S (S n)) - 1)) in *.
  assert (I0 : 0 <= inject_Z (Z.of_nat i)) by (apply (inj_le 0); lia).
  assert (I1 : inject_Z (Z.of_nat i) <= m) by (apply inj_le; lia).
  set (q := inject_Z (Z.of_nat i)) in *. assert (D : (b - a) / m * m == b - a) by (field; lra). set (d := (b - a) / m) in *.
  assert (D0 : 0 <= d). { unfold d. apply Qle_shift_div_l; [exact P|]. lra. }
  split; [nra|]. nra.
Qed.
