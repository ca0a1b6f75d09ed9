(** Lemmas about the cluster-preserving quantizer. *)
From Coq Require Import String.
From Verif Require Import Base M_Num L_Num M_Tensor L_Tensor M_Stages L_Stages M_Cluster M_ClusterWrapper S_Cluster S_ClusterWrapper L_Cluster L_Cluster5 L_Cluster6 L_Cluster7 L_Cluster8 L_Cluster9 M_Quant S_Quant L_Quant L_Quantizers L_Quantizers4 M_Preserve S_Preserve L_Preserve.
Open Scope Q_scope.

(** ** Distinct values *)
Lemma uniques_In l : forall seen u, In u (uniques seen l) -> In u l.
Proof. induction l as [|a r IH]; intros seen u; cbn [uniques]; [auto|]. destruct (existsb _ seen); intros H; [right; eauto|]. destruct H as [->|H]; [now left|right; eauto]. Qed.
Lemma existsb_eq a seen : existsb (Qeq_bool a) seen = true <-> exists s, In s seen /\ a == s.
Proof. rewrite existsb_exists. split; intros (s & I & E); exists s; (split; [auto|]); now apply Qeq_bool_iff. Qed.
Lemma uniques_cover l : forall seen x, In x l -> (exists s, In s seen /\ x == s) \/ exists u, In u (uniques seen l) /\ x == u.
Proof.
  induction l as [|a r IH]; intros seen x H; [destruct H|]. cbn [uniques]. destruct (existsb (Qeq_bool a) seen) eqn:E.
  - destruct H as [->|H]; [left; now apply existsb_eq|now apply IH].
  - destruct H as [->|H]; [right; exists x; split; [now left|reflexivity]|]. destruct (IH (a :: seen) x H) as [(s & [<-|I] & Q)|(u & I & Q)].
    + right. exists a. split; [now left|exact Q].
    + left. eauto.
    + right. exists u. split; [now right|exact Q].
Qed.
Lemma uniques_fresh l : forall seen u s, In u (uniques seen l) -> In s seen -> ~ u == s.
Proof.
  induction l as [|a r IH]; intros seen u s; cbn [uniques]; [intros []|]. destruct (existsb (Qeq_bool a) seen) eqn:E; intros H I; [eauto|].
  destruct H as [<-|H]; [|apply (IH (a :: seen)); [auto|now right]]. intros Q. assert (existsb (Qeq_bool a) seen = true) as C by (apply existsb_eq; eauto). congruence.
Qed.
Lemma uniques_nodup l : forall seen, NoDup (map Qred (uniques seen l)).
Proof.
  induction l as [|a r IH]; intros seen; cbn [uniques]; [constructor|]. destruct (existsb _ seen); [apply IH|]. cbn [map]. constructor; [|apply IH].
  intros H. apply in_map_iff in H as (u & Q & H). apply (uniques_fresh r (a :: seen) u a H); [now left|]. rewrite <- (Qred_correct u), <- (Qred_correct a), Q. reflexivity.
Qed.
Lemma uniques_least n l : at_most_distinct n l -> (length (uniques [] l) <= n)%nat.
Proof.
  intros (vals & L & H). eapply Nat.le_trans; [|exact L]. rewrite <- (map_length Qred (uniques [] l)), <- (map_length Qred vals). apply NoDup_incl_length; [apply uniques_nodup|].
  intros q I. apply in_map_iff in I as (u & <- & I). apply uniques_In in I. destruct (H u I) as (v & Iv & E). apply in_map_iff. exists v. split; [now apply Qred_complete, Qeq_sym|exact Iv].
Qed.
Lemma uniques_all x l : In x l -> exists u, In u (uniques [] l) /\ x == u.
Proof. intros H. destruct (uniques_cover l [] x H) as [(s & [] & _)|H']; exact H'. Qed.
Lemma uniques_exact l : exactly_distinct (length (uniques [] l)) l.
Proof. split; [exists (uniques [] l); split; [auto|]; intros; now apply uniques_all|]. intros m. apply uniques_least. Qed.
Lemma exactly_unique n m l : exactly_distinct n l -> exactly_distinct m l -> n = m.
Proof. intros [A B] [C D]. apply B in C. apply D in A. lia. Qed.
Lemma uniques_nonempty l : l <> [] -> uniques [] l <> [].
Proof. destruct l; [congruence|]. intros _. cbn. discriminate. Qed.
Lemma distinct_sub n l l' : (forall x, In x l' -> exists y, In y l /\ x == y) -> at_most_distinct n l -> at_most_distinct n l'.
Proof. intros S (vals & L & H). exists vals. split; [auto|]. intros x I. destruct (S x I) as (y & Iy & E). destruct (H y Iy) as (v & Iv & E'). exists v. split; [auto|]. now rewrite E. Qed.

(** ** Masking *)
Lemma zip_length a : forall b, length a = length b -> length (zip_mult a b) = length a.
Proof. induction a as [|x a IH]; intros [|y b] H; try discriminate; cbn; [auto|]. f_equal. apply IH. now injection H. Qed.
Lemma nth_zip a : forall b i, length a = length b -> (i < length a)%nat -> nth i (zip_mult a b) 0 = nth i a 0 * nth i b 0.
Proof. induction a as [|x a IH]; intros [|y b] i H L; try discriminate; cbn in L; [lia|]. destruct i; cbn [zip_mult nth]; [reflexivity|]. apply IH; [now injection H|lia]. Qed.
Lemma one_cold_length l : length (one_cold l) = length l. Proof. unfold one_cold. now rewrite map_length, seq_length. Qed.
Lemma nth_one_cold l i : (i < length l)%nat -> nth i (one_cold l) 0 = b2q (negb (Nat.eqb i (argmin (map Qabs l)))).
Proof. intros L. unfold one_cold. rewrite (nth_map_indep _ _ i 0 0%nat) by (now rewrite seq_length). now rewrite seq_nth. Qed.
Lemma zip_has_zero l0 l : l0 <> [] -> length l0 = length l -> exists z, In z (zip_mult l (one_cold l0)) /\ z == 0.
Proof.
  intros N L. pose proof (argmin_lt (map Qabs l0)) as A. rewrite map_length in A. assert (argmin (map Qabs l0) < length l0)%nat as A'. { apply A. intros E. apply map_eq_nil in E. auto. }
  exists (nth (argmin (map Qabs l0)) (zip_mult l (one_cold l0)) 0). split.
  - apply nth_In. rewrite zip_length by (rewrite one_cold_length; auto). lia.
  - rewrite nth_zip by (rewrite ?one_cold_length; auto; lia). rewrite nth_one_cold by auto. rewrite Nat.eqb_refl. cbn. ring.
Qed.
Lemma same_form_sym a b : same_form a b -> same_form b a.
Proof. destruct a, b; cbn; auto. Qed.
Lemma mask_rows_form r0 : forall r, map (@length Q) r0 = map (@length Q) r -> map (@length Q) (map (fun p => zip_mult (fst p) (snd p)) (combine r (map one_cold r0))) = map (@length Q) r.
Proof. induction r0 as [|a r0 IH]; intros [|b r] H; try discriminate; cbn; [auto|]. injection H as H1 H2. f_equal; [|now apply IH]. rewrite zip_length; [auto|]. rewrite one_cold_length. auto. Qed.
Lemma mask_form cs0 cs : same_form cs0 cs -> same_form cs0 (mask_centroids cs (centroids_mask cs0)).
Proof.
  destruct cs0 as [l0|r0], cs as [l|r]; cbn; intros H; try contradiction.
  - now rewrite zip_length by (rewrite one_cold_length; auto).
  - now rewrite mask_rows_form.
Qed.
Lemma nth_mask_rows r0 : forall r c, map (@length Q) r0 = map (@length Q) r -> (c < length r)%nat ->
  nth c (map (fun p => zip_mult (fst p) (snd p)) (combine r (map one_cold r0))) [] = zip_mult (nth c r []) (one_cold (nth c r0 [])).
Proof. induction r0 as [|a r0 IH]; intros [|b r] c H L; try discriminate; cbn in L; [lia|]. injection H as H1 H2. destruct c; cbn [map combine nth fst snd]; [reflexivity|]. apply IH; [auto|lia]. Qed.
Lemma mask_has_zero df cs0 cs w idx : compat df cs0 w -> same_form cs0 cs -> valid (shape w) idx -> exists z, In z (centroids_at df (mask_centroids cs (centroids_mask cs0)) idx) /\ z == 0.
Proof.
  destruct cs0 as [l0|r0], cs as [l|r]; cbn [same_form mask_centroids centroids_mask centroids_at compat]; intros C S V; try contradiction.
  - apply zip_has_zero; [apply C|exact S].
  - destruct C as (a & b & h & o & E & W & Hc & Lr & NE). assert (slice_of df idx < length r0)%nat as Ls. { rewrite Lr. rewrite E in V. now apply (slice_lt df a b h o). }
    assert (length r0 = length r) as Lrr by (rewrite <- (map_length (@length Q) r0), <- (map_length (@length Q) r); congruence).
    rewrite nth_mask_rows by (auto; lia). apply zip_has_zero; [apply NE, nth_In, Ls|]. now apply same_form_lengths.
Qed.

(** ** get_centroids *)
Lemma mapM_slices w a b h o n : shape w = [a; b; h; o] ->
  mapM (fun c => do s <- channel_slice 0 ChannelsLast w c ;; Ok (get_unique s)) (seq 0 n) = Ok (map (fun c => get_unique (the_slice 0 ChannelsLast w a b h o c)) (seq 0 n)).
Proof.
  intros E. generalize (seq 0 n). induction l as [|c r IH]; [reflexivity|]. cbn [mapM map]. rewrite (channel_slice_eq 0 ChannelsLast w a b h o c E). cbn [bind]. rewrite IH. reflexivity.
Qed.
Lemma slice_nonempty w a b h o c : shape w = [a; b; h; o] -> wf w -> data w <> [] -> (c < o)%nat -> data (the_slice 0 ChannelsLast w a b h o c) <> [].
Proof.
  intros E W N C. assert (0 < a /\ 0 < b /\ 0 < h)%nat as (A & B & H).
  { assert (length (data w) <> 0)%nat as L by (destruct (data w); [congruence|discriminate]). rewrite W, E in L. cbn in L. destruct a, b, h; cbn in L; rewrite ?Nat.mul_0_r in L; cbn in L; lia. }
  assert (In (tget 0 w [0; 0; 0; c]%nat) (data (the_slice 0 ChannelsLast w a b h o c))) as I.
  { apply (slice_In ChannelsLast w a b h o c _ E C). exists [0; 0; 0; c]%nat. split; [rewrite E; now apply valid4_intro|]. split; reflexivity. }
  intros E0. rewrite E0 in I. destruct I.
Qed.
Lemma max_of_ge l x : In x l -> (x <= max_of l)%nat.
Proof. unfold max_of in *. induction l as [|a r IH]; [intros []|]. intros [->|H]; cbn [fold_right]; [apply Nat.le_max_l|]. apply IH in H. etransitivity; [exact H|apply Nat.le_max_r]. Qed.
Lemma max_of_In l : l <> [] -> In (max_of l) l.
Proof. induction l as [|a r IH]; [congruence|]. intros _. change (max_of (a :: r)) with (Nat.max a (max_of r)). destruct r as [|b r']; [left; now rewrite Nat.max_0_r|]. destruct (Nat.max_spec a (max_of (b :: r'))) as [[_ ->]|[_ ->]]; [right; apply IH; discriminate|now left]. Qed.
Lemma min_of_spec l : l <> [] -> In (min_of l) l /\ forall x, In x l -> (min_of l <= x)%nat.
Proof.
  destruct l as [|a r]; [congruence|]. intros _. cbn [min_of]. induction r as [|b r [IH1 IH2]]; cbn [fold_right].
  - split; [now left|]. intros x [->|[]]. lia.
  - split.
    + destruct (Nat.min_spec b (fold_right Nat.min a r)) as [[_ ->]|[_ ->]]; [right; now left|]. destruct IH1; [now left|right; now right].
    + intros x [->|[->|H]]; [specialize (IH2 x (or_introl eq_refl)); lia|lia|]. specialize (IH2 x (or_intror H)). lia.
Qed.

(** Cases of get_centroids on a kernel. *)
Definition rows_of (w : tensor Q) (a b h o n : nat) : list (list Q) := map (fun c => get_unique (the_slice 0 ChannelsLast w a b h o c)) (seq 0 n).
Lemma get_centroids_cases k df w cs num lk : kernel k w -> get_centroids k df w = Ok (cs, num, lk) ->
  compat df cs w /\
  ((cs = Flat (get_unique w) /\ num = length (get_unique w) /\ lk = shape w /\
     (k = KConv2D -> df = ChannelsLast -> ~ evenly_clustered w)) \/
   (k = KConv2D /\ exists a b h o, shape w = [a; b; h; o] /\ let n := nchan df b o in (n <= o)%nat /\ let m := max_of (map (@length Q) (rows_of w a b h o n)) in
     cs = Rows (map (fun r => (r ++ repeat 1 (m - length r))%list) (rows_of w a b h o n)) /\ num = m /\
     lk = match df with ChannelsFirst => [a; n; b; h] | ChannelsLast => [a; b; h; n] end /\
     (df = ChannelsLast -> evenly_clustered w))).
Proof.
  intros (W & N & R) H. assert (compat df (Flat (get_unique w)) w) as CF by (split; [now apply uniques_nonempty|exact W]). destruct k; cbn [get_centroids] in H.
  { injection H as <- <- <-. split; [exact CF|]. left. repeat split; auto. discriminate. }
  destruct (shape w) as [|a [|b [|h [|o [|]]]]] eqn:E; try discriminate. rewrite (num_channels_eq df w a b h o E) in H. set (n := nchan df b o) in *.
  destruct (o <? n)%nat eqn:O; [discriminate|]. apply Nat.ltb_ge in O. destruct (n =? 0)%nat eqn:Z; [discriminate|]. apply Nat.eqb_neq in Z. rewrite (mapM_slices w a b h o n E) in H. cbn [bind] in H. fold (rows_of w a b h o n) in H.
  set (rows := rows_of w a b h o n) in *. set (counts := map (@length Q) rows) in *.
  assert (length rows = n) as Lr by (unfold rows, rows_of; now rewrite map_length, seq_length).
  assert (counts <> []) as NC. { intros E'. apply (f_equal (@length nat)) in E'. unfold counts in E'. rewrite map_length, Lr in E'. cbn in E'. lia. }
  destruct (min_of_spec counts NC) as [Mi Ml].
  assert (forall c, (c < n)%nat -> nth c rows [] = get_unique (the_slice 0 ChannelsLast w a b h o c)) as Nr.
  { intros c Hc. unfold rows, rows_of. rewrite (nth_map_indep _ _ c [] 0%nat) by (now rewrite seq_length). now rewrite seq_nth. }
  assert (forall c, (c < n)%nat -> exactly_distinct (length (nth c rows [])) (output_channel_values w c)) as Ex.
  { intros c Hc. rewrite Nr by exact Hc. unfold get_unique. destruct (uniques_exact (data (the_slice 0 ChannelsLast w a b h o c))) as [A B]. assert (c < o)%nat as Hco by lia.
    assert (S1 : forall x, In x (output_channel_values w c) -> In x (data (the_slice 0 ChannelsLast w a b h o c))).
    { intros x I. apply output_channel_In in I as (idx & V & Oc & Ev). apply (slice_In ChannelsLast w a b h o c x E Hco). exists idx. auto. }
    assert (S2 : forall x, In x (data (the_slice 0 ChannelsLast w a b h o c)) -> In x (output_channel_values w c)).
    { intros x I. apply (slice_In ChannelsLast w a b h o c x E Hco) in I as (idx & V & Oc & Ev). unfold output_channel_values. apply in_map_iff. exists idx. split; [exact Ev|]. apply filter_In. split; [|now apply Nat.eqb_eq].
      apply in_map_iff. exists (ravel (shape w) idx). split; [now apply unravel_ravel|]. apply in_seq. split; [lia|]. cbn. now apply ravel_lt. }
    split; [eapply distinct_sub; [|exact A]; intros x I; exists x; split; [now apply S1|reflexivity]|].
    intros m Hm. apply B. eapply distinct_sub; [|exact Hm]. intros x I. exists x. split; [now apply S2|reflexivity]. }
  assert (forall c, (c < n)%nat -> In (length (nth c rows [])) counts) as Ic. { intros c Hc. apply in_map. apply nth_In. lia. }
  assert (forall x, In x counts -> exists c, (c < n)%nat /\ x = length (nth c rows [])) as Ci.
  { intros x I. apply in_map_iff in I as (r & <- & I). destruct (In_split_nth _ _ [] I) as (c & Lc & <-). exists c. split; [lia|reflexivity]. }
  destruct (1 <? max_of counts - min_of counts)%nat eqn:D.
  - injection H as <- <- <-. split; [exact CF|]. left. repeat split; auto. intros _ ->. cbn [nchan] in n. subst n. intros (m & Hm). unfold filters in Hm. rewrite E in Hm. cbn [nth] in Hm.
    apply Nat.ltb_lt in D. destruct (Ci _ Mi) as (c1 & L1 & E1). destruct (Ci _ (max_of_In counts NC)) as (c2 & L2 & E2).
    destruct (Hm c1 L1) as [X1|X1], (Hm c2 L2) as [X2|X2]; apply (exactly_unique _ _ _ (Ex c1 L1)) in X1; apply (exactly_unique _ _ _ (Ex c2 L2)) in X2; lia.
  - apply Nat.ltb_ge in D. injection H as <- <- <-. split.
    + exists a, b, h, o. split; [exact E|]. split; [exact W|]. fold n. split; [lia|]. split; [now rewrite map_length|]. intros r I. apply in_map_iff in I as (r0 & <- & I).
      destruct (In_split_nth _ _ [] I) as (c & Lc & <-). rewrite Lr in Lc. rewrite Nr by exact Lc. intros E'. apply app_eq_nil in E' as [E' _]. revert E'. apply uniques_nonempty, slice_nonempty; auto. lia.
    + right. split; [reflexivity|]. exists a, b, h, o. split; [reflexivity|]. fold n. split; [exact O|]. fold rows counts. repeat split; auto.
      intros ->. cbn [nchan] in n. subst n. exists (min_of counts). intros c Hc. unfold filters in Hc. rewrite E in Hc. cbn [nth] in Hc. pose proof (Ml _ (Ic c Hc)). pose proof (max_of_ge _ _ (Ic c Hc)).
      assert (length (nth c rows []) = min_of counts \/ length (nth c rows []) = S (min_of counts)) as [X|X] by lia; rewrite <- X; [left|right]; now apply Ex.
Qed.
