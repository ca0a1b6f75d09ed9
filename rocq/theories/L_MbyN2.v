(** m-by-n masks seen on the weight itself, and the exact meaning of the checker. *)
From Verif Require Import Base M_Num M_Tensor M_Mask S_Mask L_Tensor L_Mask L_Block L_MbyN.
Local Open Scope nat_scope.

Lemma rows (fs : list nat) ci co : length fs = 0 \/ length fs = 2 -> exists rowf : list nat -> nat -> nat,
  (forall front o, valid fs front -> o < co -> rowf front o < co * prod fs) /\
  (forall row, row < co * prod fs -> exists front o, valid fs front /\ o < co /\ rowf front o = row) /\
  forall w : tensor Q, wf w -> shape w = fs ++ [ci; co] -> exists p, weights_rearrange 0%Q w = Ok p /\ wf p /\ shape p = [co * prod fs; ci] /\
    forall front o i, valid fs front -> o < co -> i < ci -> tget 0%Q p [rowf front o; i] = tget 0%Q w (front ++ [i; o]).
Proof.
  intros [L|L].
  - destruct fs; [|discriminate]. exists (fun _ o => o). cbn [prod app]. rewrite Nat.mul_1_r. split; [auto|]. split.
    + intros row H. exists [], row. repeat split; auto. constructor.
    + intros w W S. exists (transpose 0%Q [1;0] w). split; [apply (rearrange2 0%Q w ci co); auto|]. split; [apply transpose_wf|].
      split; [apply (transpose2_shape 0%Q w ci co); auto|]. intros front o i V Ho Hi. inversion V; subst. cbn [app]. apply (transpose2_get 0%Q w ci co); auto.
  - destruct fs as [|h [|x [|y l]]]; try discriminate. cbn [prod app].
    exists (fun front o => (o * h + nth 0 front 0) * x + nth 1 front 0). split; [|split].
    + intros front o V Ho. apply valid2_inv in V as (a & b & -> & Ha & Hb). cbn [nth]. assert (o * h + a < co * h) by nia. assert ((o * h + a) * x + b < co * h * x) by nia. lia.
    + intros row H. destruct (split3 co h x row) as (o & a & b & Ho & Ha & Hb & ->); [nia|]. exists [a; b], o. split; [apply valid2; auto|]. auto.
    + intros w W S. destruct (rearrange4 0%Q w h x ci co W S) as (p & E & Wp & Sp & G). exists p. split; [auto|]. split; [auto|].
      split; [rewrite Sp; f_equal; nia|]. intros front o i V Ho Hi. apply valid2_inv in V as (a & b & -> & Ha & Hb). cbn [nth app]. apply G; auto.
Qed.

Lemma count_ext_in {A} (p q : A -> bool) l : (forall x, In x l -> p x = q x) -> count_if p l = count_if q l.
Proof. unfold count_if. induction l as [|x l IH]; intros H; cbn; auto. rewrite (H x) by (left; auto). destruct (q x); cbn; rewrite IH; auto; intros; apply H; right; auto. Qed.
Lemma count_map' {A B} (f : A -> B) p l : count_if p (map f l) = count_if (fun x => p (f x)) l.
Proof. unfold count_if. induction l as [|x l IH]; cbn; auto. destruct (p (f x)); cbn; auto. Qed.
Lemma group_lt ci n g j : In j (group_cols ci n g) -> j < ci.
Proof. unfold group_cols. rewrite in_seq. lia. Qed.

Lemma mbyn_weights w fs ci co m n mask front o g : wf w -> shape w = fs ++ [ci; co] -> length fs = 0 \/ length fs = 2 ->
  update_mask_m_by_n w m n = Ok mask -> valid fs front -> o < co -> g * n < ci ->
  shape mask = shape w /\
  count_if (fun idx => Qeq_bool (tget 0%Q mask idx) 1) (group_positions front o ci n g) = Nat.min (n - m) (length (group_positions front o ci n g)) /\
  (forall p q, In p (group_positions front o ci n g) -> In q (group_positions front o ci n g) ->
    (tget 0 mask p == 1)%Q -> (tget 0 mask q == 0)%Q -> (Qabs (tget 0 w q) <= Qabs (tget 0 w p))%Q).
Proof.
  intros W S L E V Ho Hg. destruct (rows fs ci co L) as (rowf & R1 & _ & R3).
  destruct (Nat.le_gt_cases n m) as [Hnm|Hmn].
  { exfalso. unfold update_mask_m_by_n in E. destruct (weights_rearrange 0%Q w); cbn [bind] in E; [|discriminate]. rewrite generate_error in E by auto. discriminate. }
  assert (Hr : rank w = 2 \/ rank w = 4) by (unfold rank; rewrite S, app_length; cbn; lia).
  destruct (mbyn_ok w m n W Hr Hmn) as (p & mask2 & mask' & Ep & Wp & Eg & E' & Wm & Sm & Rm & S2 & W2 & _).
  rewrite E in E'. injection E' as <-.
  destruct (R3 w W S) as (p' & Ep' & _ & Sp & Gp). rewrite Ep in Ep'. injection Ep' as <-.
  destruct (R3 mask Wm ltac:(congruence)) as (m' & Em' & _ & Sm' & Gm). rewrite Rm in Em'. injection Em' as <-.
  destruct (generate_group p (co * prod fs) ci m n mask2 (rowf front o) g Wp Sp Eg (R1 _ _ V Ho) Hg) as (A & B).
  split; [auto|]. split.
  - unfold group_positions. rewrite map_length, count_map', <- A. apply count_ext_in. intros j Hj. rewrite Gm by (auto; eapply group_lt; eauto). auto.
  - intros a b Ha Hb. unfold group_positions in Ha, Hb. apply in_map_iff in Ha as (i & <- & Hi). apply in_map_iff in Hb as (j & <- & Hj).
    rewrite <- !Gm, <- !Gp by (auto; eapply group_lt; eauto). apply B; auto.
Qed.

Lemma ceil_div_ge c n g : 0 < n -> g * n < c -> g < ceil_div c n.
Proof. intros Hn H. unfold ceil_div. apply Nat.div_le_lower_bound; [lia|]. nia. Qed.

(** The body of the checker on the 2-D arrangement. *)
Lemma checker_rows p rows_ cols n k : 0 < n ->
  forallb (fun row => forallb (fun col => Nat.leb (count_nonzero (map (fun j => tget 0%Q p [row; j]) (seq col (Nat.min n (cols - col))))) k) (group_starts cols n)) (seq 0 rows_) = true <->
  forall row g, row < rows_ -> g * n < cols -> count_if (fun j => negb (Qeq_bool (tget 0%Q p [row; j]) 0)) (group_cols cols n g) <= k.
Proof.
  intros Hn. rewrite forallb_forall. split.
  - intros H row g Hr Hg. specialize (H row). rewrite in_seq in H. specialize (H ltac:(lia)). rewrite forallb_forall in H.
    specialize (H (g * n)). assert (In (g * n) (group_starts cols n)) as I by (unfold group_starts; apply in_map_iff; exists g; split; auto; apply in_seq; split; [lia|]; cbn; now apply ceil_div_ge).
    apply H in I. apply Nat.leb_le in I. unfold count_nonzero in I.
    fold (count_if (fun x => negb (Qeq_bool x 0)) (map (fun j => tget 0%Q p [row; j]) (seq (g * n) (Nat.min n (cols - g * n))))) in I. rewrite count_map' in I. exact I.
  - intros H row Hr. apply in_seq in Hr. apply forallb_forall. intros col Hc. unfold group_starts in Hc. apply in_map_iff in Hc as (g & <- & Hg). apply in_seq in Hg.
    apply Nat.leb_le. unfold count_nonzero. fold (count_if (fun x => negb (Qeq_bool x 0)) (map (fun j => tget 0%Q p [row; j]) (seq (g * n) (Nat.min n (cols - g * n))))). rewrite count_map'.
    apply H; [lia|]. apply ceil_div_lt; auto. lia.
Qed.

Lemma checker_iff w fs ci co m n : wf w -> shape w = fs ++ [ci; co] -> length fs = 0 \/ length fs = 2 -> m <= n -> 0 < n ->
  exists b, is_pruned_m_by_n w m n C_OUT = Ok b /\
    (b = true <-> forall front o g, valid fs front -> o < co -> g * n < ci ->
       count_if (fun idx => negb (Qeq_bool (tget 0%Q w idx) 0)) (group_positions front o ci n g) <= n - m).
Proof.
  intros W S L Hmn Hn. destruct (rows fs ci co L) as (rowf & R1 & R2 & R3). destruct (R3 w W S) as (p & Ep & Wp & Sp & Gp).
  unfold is_pruned_m_by_n. replace (n <? m) with false by lia. rewrite Ep. cbn [bind]. rewrite Sp. replace (n =? 0) with false by lia.
  eexists. split; [reflexivity|]. rewrite checker_rows by auto. split.
  - intros H front o g V Ho Hg. unfold group_positions. rewrite count_map'. rewrite <- (count_ext_in (fun j => negb (Qeq_bool (tget 0%Q p [rowf front o; j]) 0))).
    + apply H; auto.
    + intros j Hj. rewrite Gp by (auto; eapply group_lt; eauto). auto.
  - intros H row g Hr Hg. destruct (R2 row Hr) as (front & o & V & Ho & <-). specialize (H front o g V Ho Hg).
    unfold group_positions in H. rewrite count_map' in H. rewrite (count_ext_in _ (fun i => negb (Qeq_bool (tget 0%Q w (front ++ [i; o])) 0))); auto.
    intros j Hj. rewrite Gp by (auto; eapply group_lt; eauto). auto.
Qed.

(** With the input channels last: groups of the last axis. *)
Lemma ravel_app fs front i c : valid fs front -> ravel (fs ++ [c]) (front ++ [i]) = ravel fs front * c + i.
Proof.
  intros V. induction V as [|a d front fs H V IH]; cbn [app ravel prod]; [lia|]. rewrite IH.
  assert (P : forall l, prod (l ++ [c]) = prod l * c) by (induction l; cbn; [lia|rewrite IHl; lia]). rewrite P. nia.
Qed.
Lemma prod_app1 fs c : prod (fs ++ [c]) = prod fs * c.
Proof. induction fs; cbn; [lia|rewrite IHfs; lia]. Qed.
Lemma checker_last_iff w fs ci m n : wf w -> shape w = fs ++ [ci] -> m <= n -> 0 < n ->
  exists b, is_pruned_m_by_n w m n C_IN = Ok b /\
    (b = true <-> forall front g, valid fs front -> g * n < ci ->
       count_if (fun idx => negb (Qeq_bool (tget 0%Q w idx) 0)) (map (fun i => front ++ [i]) (group_cols ci n g)) <= n - m).
Proof.
  intros W S Hmn Hn. unfold is_pruned_m_by_n. replace (n <? m) with false by lia. rewrite S, rev_app_distr. cbn [rev app].
  assert (Pr : prod (rev fs) = prod fs). { clear. induction fs; cbn; auto. rewrite prod_app1, IHfs. lia. }
  rewrite reshape_ok by (auto; rewrite S, prod_app1; cbn [prod]; rewrite Pr; lia). cbn [bind shape].
  replace (n =? 0) with false by lia. eexists. split; [reflexivity|]. rewrite checker_rows by auto.
  assert (G : forall front i, valid fs front -> tget 0%Q (mkT [prod (rev fs); ci] (data w)) [ravel fs front; i] = tget 0%Q w (front ++ [i])).
  { intros front i V. unfold tget. cbn [shape data]. rewrite S. rewrite (ravel_app fs front i ci V). cbn [ravel prod]. f_equal. lia. }
  split.
  - intros H front g V Hg. rewrite count_map'. rewrite <- (count_ext_in (fun j => negb (Qeq_bool (tget 0%Q (mkT [prod (rev fs); ci] (data w)) [ravel fs front; j]) 0))).
    + apply H; auto. rewrite Pr. now apply ravel_lt.
    + intros j _. now rewrite G.
  - intros H row g Hr Hg. rewrite Pr in Hr. specialize (H (unravel fs row) g (unravel_valid fs row Hr) Hg). rewrite count_map' in H.
    rewrite (count_ext_in _ (fun i => negb (Qeq_bool (tget 0%Q w (unravel fs row ++ [i])) 0))); auto.
    intros j _. rewrite <- G by (now apply unravel_valid). now rewrite ravel_unravel.
Qed.

Lemma validate_block_iff pp ws : validate_block pp ws = Ok tt <-> pp_block pp = [1; 1] \/ forall w, In w ws -> rank w = 2.
Proof.
  unfold validate_block. destruct (list_nat_eqb (pp_block pp) [1; 1]) eqn:E.
  - split; auto. intros _. left. destruct (pp_block pp) as [|a [|b [|c l]]]; cbn in E; try discriminate; rewrite ?andb_true_iff, ?andb_false_r in E; try (destruct E as (A & B)).
    + discriminate.
    + destruct B as (B & _). apply Nat.eqb_eq in A, B. congruence.
    + destruct B; discriminate.
  - destruct (forallb (fun w => rank w =? 2) ws) eqn:F.
    + split; auto. intros _. right. rewrite forallb_forall in F. intros w Hw. apply Nat.eqb_eq. auto.
    + split; [discriminate|]. intros [A|A]; [rewrite A in E; discriminate|]. exfalso.
      assert (forallb (fun w => rank w =? 2) ws = true) by (apply forallb_forall; intros w Hw; apply Nat.eqb_eq; auto). congruence.
Qed.
