(** Centroid initialisation (C27-C29). *)
From Verif Require Import Base M_Tensor M_Num M_Stages M_Cluster S_Cluster L_Num L_Tensor L_Stages L_Cluster L_Cluster2.
Open Scope Q_scope.

(** ** Density based *)
Lemma solve_id x1 y1 x2 y2 : ~ y2 == y1 -> solve_for_x x1 y1 x2 y2 y1 == x1.
Proof.
  intros N. unfold solve_for_x, solver_b, solver_a. assert (P : 0 < qmax (x2 - x1) (1 # 1000)). { destruct (qmax_spec (x2 - x1) (1#1000)) as [[? ->]|[? ->]]; lra. }
  set (m := qmax (x2 - x1) (1 # 1000)) in *. field. split; intros E; [apply N; lra|lra].
Qed.
Lemma single_centroid_grid grid cdf i : single_centroid grid cdf i == nth (Nat.min i (length cdf - 1)) grid 0.
Proof.
  unfold single_centroid. destruct (Qeq_bool _ _) eqn:E; [reflexivity|]. apply Qeq_bool_neq in E. now apply solve_id.
Qed.
Lemma upper_bound_spec l v : (upper_bound l v <= length l)%nat /\ (forall j, (j < upper_bound l v)%nat -> nth j l 0 <= v) /\
  ((upper_bound l v < length l)%nat -> v < nth (upper_bound l v) l 0).
Proof.
  induction l as [|c l (IH1 & IH2 & IH3)]; cbn [upper_bound length]; [repeat split; try lia; intros; lia|].
  destruct (qltb v c) eqn:E.
  - apply qltb_iff in E. repeat split; [lia|intros; lia|]. intros _. exact E.
  - apply qltb_false in E. repeat split; [lia| |].
    + intros [|j] H; cbn; [exact E|]. apply IH2. lia.
    + intros H. cbn. apply IH3. lia.
Qed.
Lemma upper_bound_mono l v v' : v <= v' -> (upper_bound l v <= upper_bound l v')%nat.
Proof.
  intros H. induction l as [|c l IH]; cbn; [lia|]. destruct (qltb v c) eqn:E, (qltb v' c) eqn:E'; try lia.
  apply qltb_false in E. apply qltb_iff in E'. lra.
Qed.

Lemma gap_pos ps ws : ws <> [] -> (ps = true -> (forall x, In x ws -> ~ x == 0)) -> 0 < weights_gap ps (reduce_min ws) (reduce_max ws).
Proof.
  intros N H. unfold weights_gap. destruct ps; [|lra]. specialize (H eq_refl).
  destruct (reduce_min_spec ws N) as [A _], (reduce_max_spec ws N) as [B _].
  assert (P : forall y, ~ y == 0 -> 0 < Qabs y). { intros y Hy. apply Qabs_case; intros; lra. }
  pose proof (P _ (H _ A)). pose proof (P _ (H _ B)).
  destruct (qmin_spec (Qabs (reduce_min ws)) (Qabs (reduce_max ws))) as [[? E]|[? E]]; rewrite E;
  match goal with |- 0 < qmin ?a ?b => destruct (qmin_spec a b) as [[? F]|[? F]]; rewrite F; clear F end; try lra;
  match goal with |- 0 < ?a / 2 => unfold Qdiv; setoid_replace (a * / 2) with (a * (1#2)) by reflexivity; lra end.
Qed.
Lemma min_le_max ws : ws <> [] -> reduce_min ws <= reduce_max ws.
Proof. intros N. destruct (reduce_min_spec ws N) as [A _], (reduce_max_spec ws N) as [_ B]. auto. Qed.

Lemma cdf_grid_length ps ws : length (cdf_grid ps ws) = 30%nat.
Proof. unfold cdf_grid. apply linspace_length. Qed.
Lemma linspace_step a b n i j : (2 <= n)%nat -> (i < j)%nat -> (j < n)%nat -> a < b -> nth i (linspace a b n) 0 < nth j (linspace a b n) 0.
Proof.
  intros H L1 L2 E. rewrite !nth_linspace by lia. assert (P : 0 < inject_Z (Z.of_nat n - 1)) by (apply inject_pos; lia).
  set (m := inject_Z (Z.of_nat n - 1)) in *. assert (D : 0 < (b - a) / m). { apply Qlt_shift_div_l; [exact P|lra]. }
  assert (I : inject_Z (Z.of_nat i) < inject_Z (Z.of_nat j)) by (apply inj_lt; lia). set (d := (b - a) / m) in *. nra.
Qed.
Lemma grid_increasing ps ws i j : ws <> [] -> (ps = true -> forall x, In x ws -> ~ x == 0) -> (i < j)%nat -> (j < 30)%nat ->
  nth i (cdf_grid ps ws) 0 < nth j (cdf_grid ps ws) 0.
Proof.
  intros N H L1 L2. unfold cdf_grid. pose proof (gap_pos ps ws N H). pose proof (min_le_max ws N). apply linspace_step; try lia. lra.
Qed.
Lemma cdf_fraction ws x : cdf_value ws x = fraction_le ws x. Proof. reflexivity. Qed.
Lemma filter_len_mono {A} (f g : A -> bool) l : (forall a, In a l -> f a = true -> g a = true) -> (length (filter f l) <= length (filter g l))%nat.
Proof.
  induction l as [|a l IH]; intros H; cbn; [lia|]. assert (IH' : (length (filter f l) <= length (filter g l))%nat) by (apply IH; intros; apply H; auto; now right).
  destruct (f a) eqn:E; [rewrite (H a (or_introl eq_refl) E); cbn; lia|]. destruct (g a); cbn; lia.
Qed.
Lemma filter_all {A} (f : A -> bool) l : (forall a, In a l -> f a = true) -> filter f l = l.
Proof. induction l as [|a l IH]; intros H; cbn; [reflexivity|]. rewrite H by now left. f_equal. apply IH. intros; apply H; now right. Qed.
Lemma fraction_mono ws x y : ws <> [] -> x <= y -> fraction_le ws x <= fraction_le ws y.
Proof.
  intros N H. unfold fraction_le. assert (P : 0 < inject_Z (Z.of_nat (length ws))) by (apply inject_pos; destruct ws; [congruence|cbn; lia]).
  unfold Qdiv. apply Qmult_le_compat_r; [|apply Qlt_le_weak, Qinv_lt_0_compat, P].
  apply inj_le. apply Nat2Z.inj_le. apply filter_len_mono. intros a _ Ha. apply Qle_bool_iff in Ha. apply Qle_bool_iff. lra.
Qed.
Lemma fraction_top ws x : ws <> [] -> (forall w, In w ws -> w <= x) -> fraction_le ws x == 1.
Proof.
  intros N H. unfold fraction_le. rewrite filter_all by (intros a Ha; apply Qle_bool_iff; auto).
  assert (P : 0 < inject_Z (Z.of_nat (length ws))) by (apply inject_pos; destruct ws; [congruence|cbn; lia]). field. lra.
Qed.

(** The [j]-th requested probability. *)
Lemma probability_lt n j : (2 <= n)%nat -> (S j < n)%nat -> nth j (linspace (1#100) 1 n) 0 < 1.
Proof.
  intros H L. destruct (linspace_even (1#100) 1 n H) as (_ & _ & E & _). apply Qlt_le_trans with (nth (n - 1) (linspace (1#100) 1 n) 0); [|lra]. apply linspace_step; try lia. lra.
Qed.

Section Density.
  Variables (ps : bool) (ws : list Q).
  Hypothesis N : ws <> [].
  Hypothesis NZ : ps = true -> forall x, In x ws -> ~ x == 0.
  Let grid := cdf_grid ps ws.
  Let cdf := map (cdf_value ws) grid.

  Lemma cdf_length : length cdf = 30%nat. Proof. unfold cdf. rewrite map_length. apply cdf_grid_length. Qed.
  Lemma nth_cdf i : (i < 30)%nat -> nth i cdf 0 = fraction_le ws (nth i grid 0).
  Proof.
    intros L. unfold cdf. rewrite (nth_indep _ 0 (cdf_value ws 0)) by (rewrite map_length; unfold grid; rewrite cdf_grid_length; exact L).
    rewrite map_nth. reflexivity.
  Qed.
  Lemma grid_last : nth 29 grid 0 == reduce_max ws + weights_gap ps (reduce_min ws) (reduce_max ws).
  Proof.
    unfold grid, cdf_grid. match goal with |- nth _ (linspace ?a ?b _) _ == _ => destruct (linspace_even a b 30) as (_ & _ & E & _); [lia|] end. exact E.
  Qed.
  Lemma cdf_last : nth 29 cdf 0 == 1.
  Proof.
    rewrite nth_cdf by lia. apply fraction_top; [exact N|]. intros w Hw. rewrite grid_last. destruct (reduce_max_spec ws N) as [_ B].
    pose proof (gap_pos ps ws N NZ). pose proof (B _ Hw). lra.
  Qed.
  Lemma centroid_value p : exists i, (i < 30)%nat /\ single_centroid grid cdf (upper_bound cdf p) == nth i grid 0 /\
    (forall j, (j < i)%nat -> fraction_le ws (nth j grid 0) <= p) /\ (p < 1 -> p < fraction_le ws (nth i grid 0)) /\ (1 <= p -> i = 29%nat).
  Proof.
    destruct (upper_bound_spec cdf p) as (U1 & U2 & U3). rewrite cdf_length in U1, U3. exists (Nat.min (upper_bound cdf p) 29). split; [lia|]. split.
    { rewrite single_centroid_grid, cdf_length. reflexivity. }
    split.
    { intros j L. rewrite <- nth_cdf by lia. apply U2. lia. }
    assert (F : p < 1 -> (upper_bound cdf p <= 29)%nat).
    { intros Hp. destruct (Nat.le_gt_cases (upper_bound cdf p) 29) as [|G]; [assumption|exfalso]. specialize (U2 29%nat G). rewrite cdf_last in U2. lra. }
    split.
    - intros Hp. specialize (F Hp). rewrite Nat.min_l by exact F. rewrite <- nth_cdf by lia. apply U3. lia.
    - intros Hp. destruct (Nat.le_gt_cases (upper_bound cdf p) 28) as [G|G]; [exfalso|lia]. specialize (U3 ltac:(lia)).
      rewrite nth_cdf in U3 by lia. assert (fraction_le ws (nth (upper_bound cdf p) grid 0) <= 1); [|lra].
      rewrite <- (fraction_top ws (nth (upper_bound cdf p) grid 0 + qmax 0 (reduce_max ws - nth (upper_bound cdf p) grid 0)) N).
      + apply fraction_mono; [exact N|]. destruct (qmax_spec 0 (reduce_max ws - nth (upper_bound cdf p) grid 0)) as [[? ->]|[? ->]]; lra.
      + intros w Hw. destruct (reduce_max_spec ws N) as [_ B]. specialize (B _ Hw).
        destruct (qmax_spec 0 (reduce_max ws - nth (upper_bound cdf p) grid 0)) as [[? ->]|[? ->]]; lra.
  Qed.
  Lemma not_interpolated p : p < 1 -> ~ interpolates ws grid p (single_centroid grid cdf (upper_bound cdf p)).
  Proof.
    intros Hp (k & Lk & Hx & Hc & HL). destruct (centroid_value p) as (i & Li & E & _ & U & _). specialize (U Hp).
    unfold grid in Lk. rewrite cdf_grid_length in Lk. cbn zeta in *. rewrite E in Hx.
    unfold on_line in HL. rewrite E in HL. clear E.
    assert (C : k = i \/ S k = i).
    { destruct (Nat.lt_trichotomy k i) as [G|[G|G]].
      - destruct (Nat.eq_dec (S k) i) as [|Ne]; [now right|exfalso]. pose proof (grid_increasing ps ws (S k) i N NZ ltac:(lia) Li) as M. fold grid in M. lra.
      - now left.
      - exfalso. pose proof (grid_increasing ps ws i k N NZ G ltac:(lia)) as M. fold grid in M. lra. }
    destruct C as [->|<-].
    - lra.
    - pose proof (grid_increasing ps ws k (S k) N NZ ltac:(lia) Li) as M. fold grid in M.
      set (x0 := nth k grid 0) in *. set (x1 := nth (S k) grid 0) in *. set (y0 := fraction_le ws x0) in *. set (y1 := fraction_le ws x1) in *.
      clearbody x0 x1 y0 y1. assert ((x1 - x0) * (y1 - p) == 0) by lra. assert (0 < (x1 - x0) * (y1 - p)); [|lra]. apply Qmult_lt_0_compat; lra.
  Qed.
  Lemma last_interpolated p : p == 1 -> interpolates ws grid p (single_centroid grid cdf (upper_bound cdf p)).
  Proof.
    intros Hp. destruct (centroid_value p) as (i & Li & E & B & _ & U). rewrite U in * by lra. exists 28%nat.
    split; [unfold grid; rewrite cdf_grid_length; lia|]. cbn zeta. unfold on_line.
    pose proof (grid_increasing ps ws 28 29 N NZ ltac:(lia) ltac:(lia)) as M. fold grid in M.
    pose proof cdf_last as T. rewrite nth_cdf in T by lia. specialize (B 28%nat ltac:(lia)).
    set (c := single_centroid grid cdf (upper_bound cdf p)) in *. clearbody c. repeat split; try lra. rewrite E, T, Hp. ring.
  Qed.
End Density.

Lemma nth_density ps ws n j : (j < n)%nat -> nth j (density_centroids ps ws n) 0 =
  single_centroid (cdf_grid ps ws) (map (cdf_value ws) (cdf_grid ps ws)) (upper_bound (map (cdf_value ws) (cdf_grid ps ws)) (nth j (linspace (1#100) 1 n) 0)).
Proof.
  intros L. unfold density_centroids. set (f := fun p => single_centroid _ _ _).
  rewrite (nth_indep _ 0 (f 0)) by (rewrite map_length, linspace_length; exact L). rewrite map_nth. reflexivity.
Qed.
Lemma density_length ps ws n : length (density_centroids ps ws n) = n.
Proof. unfold density_centroids. rewrite map_length. apply linspace_length. Qed.
Lemma density_range ps ws n x : ws <> [] -> (ps = true -> forall y, In y ws -> ~ y == 0) -> In x (density_centroids ps ws n) ->
  reduce_min ws - weights_gap ps (reduce_min ws) (reduce_max ws) <= x <= reduce_max ws + weights_gap ps (reduce_min ws) (reduce_max ws).
Proof.
  intros N NZ H. destruct (In_split_nth _ _ 0 H) as (j & L & <-). rewrite density_length in L. rewrite nth_density by exact L.
  destruct (centroid_value ps ws N NZ (nth j (linspace (1#100) 1 n) 0)) as (i & Li & E & _). rewrite E.
  unfold cdf_grid. pose proof (gap_pos ps ws N NZ). pose proof (min_le_max ws N). apply (linspace_range _ _ 30); [lra|]. apply nth_In. rewrite linspace_length. exact Li.
Qed.
Lemma density_sorted ps ws n i j : ws <> [] -> (ps = true -> forall y, In y ws -> ~ y == 0) -> (i <= j)%nat -> (j < n)%nat ->
  nth i (density_centroids ps ws n) 0 <= nth j (density_centroids ps ws n) 0.
Proof.
  intros N NZ Lij Lj. rewrite !nth_density by lia. rewrite !single_centroid_grid.
  destruct (Nat.eq_dec i j) as [->|Ne]; [lra|]. rewrite map_length, cdf_grid_length.
  set (cdf := map (cdf_value ws) (cdf_grid ps ws)).
  assert (M : le (upper_bound cdf (nth i (linspace (1#100) 1 n) 0)) (upper_bound cdf (nth j (linspace (1#100) 1 n) 0))).
  { apply upper_bound_mono. apply Qlt_le_weak, linspace_step; try lia. lra. }
  revert M. generalize (upper_bound cdf (nth i (linspace (1#100) 1 n) 0)) (upper_bound cdf (nth j (linspace (1#100) 1 n) 0)). intros a b M.
  change (30 - 1)%nat with 29%nat.
  destruct (Nat.eq_dec (Nat.min a 29) (Nat.min b 29)) as [->|Ne2]; [lra|]. apply Qlt_le_weak, grid_increasing; auto; lia.
Qed.
