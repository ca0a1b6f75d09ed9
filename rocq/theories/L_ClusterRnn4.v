(** Main theorems about RNN wrappers (C129-C131). *)
From Coq Require Import String Ascii.
From Verif Require Import Base M_Tensor M_Num M_Stages M_Cluster M_ClusterWrapper M_Compat M_ClusterRnn S_Cluster S_ClusterWrapper S_ClusterRnn L_Num L_Tensor L_Stages L_Cluster L_Cluster2 L_Cluster3 L_Cluster4 L_Cluster5 L_Cluster6 L_Cluster7 L_Cluster8 L_Cluster9 L_Compat L_ClusterRnn L_ClusterRnn2 L_ClusterRnn3.
Open Scope string_scope.
Open Scope list_scope.
Open Scope nat_scope.
Notation length := List.length.

Lemma flat_built cfg L v x : cluster_per_channel cfg = false -> build_var cfg L v = Ok x -> exists cs, cv_cents x = Flat cs.
Proof.
  intros P. unfold build_var. destruct (find_var _ _ _) as [(p, w)|]; [|discriminate]. cbn [bind]. rewrite P. unfold get_cluster_centroids. destruct (preserve_sparsity cfg).
  - destruct (zero_centroid_initialization _ _ _) as [cs|]; [|discriminate]. cbn [bind]. destruct (pull _ _ _); [|discriminate]. cbn [bind]. destruct (clustered _ _ _ _); [|discriminate]. cbn [bind]. intros [= <-]. eexists. reflexivity.
  - destruct (centroids_for_interval _ _ _ _) as [cs|]; [|discriminate]. cbn [bind]. destruct (pull _ _ _); [|discriminate]. cbn [bind]. intros [= <-]. eexists. reflexivity.
Qed.
Lemma map_some_eq (ws : list (tensor Q)) (f : nat -> option (tensor Q)) vs : map Some ws = map f vs -> ws = map (fun v => match f v with Some t => t | None => mkT [] [] end) vs.
Proof. revert ws. induction vs as [|v vs IH]; intros [|w ws] E; try discriminate; [reflexivity|]. cbn in *. injection E as E1 E2. rewrite <- E1. f_equal. now apply IH. Qed.

Lemma rnn_history cfg st h l s0 evs : accepted cfg -> cluster_per_channel cfg = false -> (forall v, wf (st v)) -> keras_layer h l -> rnn_build cfg st h l = Ok s0 -> Forall (fits (r_w s0)) evs ->
  exists s1 s2 clean, rnn_run s0 evs = Ok s1 /\ rnn_step s1 Forward = Ok s2 /\ rnn_strip s1 = Ok clean /\
    (forall i c k r bias, has_cell h l i c -> keras_cell h c k r bias ->
       exists tk tr, c_attrs (r_heap s2 c) = ("kernel", Tens tk) :: ("recurrent_kernel", Tens tr) :: map (fun b => ("bias", Var b)) bias /\ clusters_of cfg s2 k tk /\ clusters_of cfg s2 r tr) /\
    (forall c, (forall i, ~ has_cell h l i c) -> r_heap s2 c = h c) /\
    (forall i c, has_cell h l i c <-> nth_error (get_rnn_cells h l) i = Some c) /\
    clean = map (fun c => map (fun p => (fst p, read (var_value (r_w s2)) (snd p))) (c_attrs (r_heap s2 c))) (get_rnn_cells h l).
Proof.
  intros Ac Pc W KL B F. rewrite (build_sim h l KL cfg st) in B. destruct (build cfg (as_layer h l st)) as [w0|] eqn:Bw; [|discriminate]. cbn [bind] in B. injection B as <-. cbn [r_w] in F.
  pose proof (as_proper h l KL st W) as Pl. pose proof (as_in_order h l KL st) as Ord. destruct (build_built cfg _ w0 Ac Pl Bw) as (E1 & E2 & E3). destruct (built_self _ _ _ _ E2) as [S1 S2]. rewrite <- E1 in S1, S2.
  assert (R0 : wrel w0 w0) by (split; [reflexivity|split; [exact S1|reflexivity]]).
  assert (N0 : map cv_name (cw_vars w0) = kr h l) by (change (kr h l) with (l_clusterable (as_layer h l st)); clear - E2; induction E2 as [|v x vs xs (E & _) F IH]; [reflexivity|]; cbn; now rewrite E, IH).
  destruct (run_ok w0 evs S2 F w0 R0) as (w1 & H1 & R1). destruct (forward_ok w0 w1 R1) as (w2 & H2 & R2 & U & Er).
  destruct (run_sim h l KL w0 N0 S2 evs F h w0 w1 (sames_refl h l KL) R0 H1) as (h1 & Hr & Sm1 & _).
  destruct (forward_sim h l KL w0 N0 h1 w1 w2 Sm1 R1 H2 R2) as (h2 & Hf & Sm2 & At).
  assert (Nm : map cv_name (cw_vars w2) = kr h l) by (now rewrite (wrel_names w0 w2 R2)).
  assert (Sv : forall x, In x (cw_vars w2) -> exists t, cv_attr x = Some t) by (now apply (forward_some w1)).
  assert (Rs : map fst (cw_rest w2) = filter (fun u => negb (isin (kr h l) u)) (layer_weights h l)).
  { rewrite Er, (proj2 (proj2 R1)), E3, <- (as_layer_names h l st). apply (map_filter_fst (fun u => negb (isin (kr h l) u))). }
  destruct (strip_restores cfg _ w0 evs Ac Pl Ord Bw F) as (w1' & w2' & ws & Q1 & Q2 & Q3 & Q4). assert (w1' = w1) by congruence. subst w1'. assert (w2' = w2) by congruence. subst w2'.
  assert (NdR : NoDup (map fst (cw_rest w2))) by (rewrite Rs; apply NoDup_filter, lw_nodup).
  assert (Ev : map snd (cw_rest w2) = map (val w2) (map fst (cw_rest w2))).
  { rewrite map_map. apply map_ext_in. intros (u, t) Hin. cbn [fst snd]. rewrite <- (vv_rest h l w2 Nm Rs) by (apply in_map_iff; exists (u, t); auto). unfold var_value. rewrite (find_name_none (cw_vars w2) (kr h l) u).
    - now rewrite (find_rest _ u t NdR Hin).
    - rewrite <- Nm. clear. induction (cw_vars w2); constructor; auto.
    - assert (Hu : In u (map fst (cw_rest w2))) by (apply in_map_iff; exists (u, t); auto). rewrite Rs in Hu. apply filter_In in Hu. destruct Hu as [_ Hu]. apply Bool.negb_true_iff in Hu. intros Hc. apply isin_iff in Hc. congruence. }
  pose proof H2 as H2'. cbn [step] in H2'. unfold strip in Q3. rewrite H2' in Q3. cbn [bind] in Q3.
  assert (Ew : ws = map (val w2) (layer_weights h l)). { rewrite <- (as_layer_names h l st). exact (map_some_eq _ _ _ Q4). }
  pose proof (strip_sim h l KL w2 h2 Sm2 At Nm Sv Rs ws Ev Q3 Ew) as St.
  exists (mkRW h1 l (names h l) w1), (mkRW h2 l (names h l) w2), (map (row w2 h2) (get_rnn_cells h l)).
  split; [exact Hr|]. split; [exact Hf|]. split.
  { unfold rnn_strip. cbn [rnn_step] in Hf. rewrite Hf. cbn [bind r_w r_heap r_layer r_names]. exact St. }
  assert (HC : forall i c, has_cell h l i c <-> nth_error (get_rnn_cells h l) i = Some c) by (intros; apply has_cell_nth, (kind h l KL)).
  split; [|split; [|split; [exact HC|reflexivity]]].
  - intros i c k r bias Hc Kc. assert (Ic : In c (get_rnn_cells h l)) by (apply HC in Hc; eapply nth_error_In, Hc). destruct (kc_vars h c k r bias Kc) as (Ek & Err & Eb). cbn [r_heap]. rewrite (At c Ic), Ek, Err, Eb. do 2 eexists. split; [reflexivity|].
    destruct (history_nearest cfg _ w0 evs Ac Pl Bw F) as (w1' & w2' & P1 & P2 & P3). assert (w1' = w1) by congruence. subst w1'. assert (w2' = w2) by congruence. subst w2'.
    assert (Main : forall v, In v (kr h l) -> clusters_of cfg (mkRW h2 l (names h l) w2) v (val w2 v)).
    { intros v Hv. apply In_nth_error in Hv. destruct Hv as [j Hj]. destruct (P3 j v Hj) as (t0 & x & t & I0 & Hx & Hn & Ha & Sh & Wt & G). 
      assert (Fn : Forall2 (fun u y => cv_name y = u) (kr h l) (cw_vars w2)) by (rewrite <- Nm; clear; induction (cw_vars w2); constructor; auto).
      assert (Ex : var_value w2 v = cv_orig x) by (unfold var_value; now rewrite (find_name _ v x _ Fn (kr_nodup h l KL) j Hj Hx)).
      assert (Et : val w2 v = t) by (unfold val, effective_value; now rewrite (find_name _ v x _ Fn (kr_nodup h l KL) j Hj Hx), Ha).
      unfold clusters_of. cbn [r_w]. rewrite Ex, Et. split; [exact Wt|].
      destruct (history_full cfg _ w0 evs Ac Pl Bw F) as (w1' & w2' & T1 & T2 & _ & _ & _ & T3). assert (w1' = w1) by congruence. subst w1'. assert (w2' = w2) by congruence. subst w2'.
      destruct (T3 j v Hj) as (t0' & x1 & x2 & I0' & _ & Hx2 & _ & _ & Eo & So & Bd & _). assert (x2 = x) by congruence. subst x2.
      assert (t0' = t0). { cbn in I0, I0'. apply in_map_iff in I0. apply in_map_iff in I0'. destruct I0 as (u & [= <- <-] & _). destruct I0' as (u' & [= -> <-] & _). reflexivity. }
      subst t0'. split; [rewrite Sh, Eo, So; reflexivity|].
      assert (Fl : exists cs, cv_cents x = Flat cs).
      { destruct (Forall2_nth_r _ _ _ E2 j v Hj) as (x0 & Hx0 & _). destruct (Forall2_nth_r _ _ _ (proj1 (proj2 R2)) j x0 Hx0) as (x' & Hx' & (_ & _ & _ & V4)). assert (x' = x) by congruence. subst x'.
        assert (F0 : exists cs, cv_cents x0 = Flat cs). { unfold build in Bw. destruct (mapM (build_var cfg (as_layer h l st)) _) as [vs|] eqn:M; [|discriminate]. cbn [bind] in Bw. injection Bw as <-. cbn in Hx0. apply mapM_inv in M. destruct (Forall2_in_r _ _ _ M x0 (nth_error_In _ _ Hx0)) as (u & _ & Bu). eapply flat_built; eassumption. }
        destruct F0 as (cs & E0). rewrite E0 in V4. destruct (cv_cents x) as [cs'|rows]; [eauto|destruct V4]. }
      destruct Fl as (cs & Ecs). exists cs. split.
      - rewrite Ecs in Bd. unfold bounded in Bd. destruct Ac as [_ Ac]. destruct (preserve_sparsity cfg); lia.
      - intros ix V Lo. destruct (G ix V Lo) as (_ & o & O1 & O2). exists o. split; [exact O1|]. rewrite Ecs in O2. exact O2. }
    split; [rewrite <- Ek|rewrite <- Err]; apply Main; unfold kr; apply in_flat_map; exists c; (split; [exact Ic|]); cbn; auto.
  - intros c Hc. cbn [r_heap]. destruct Sm2 as (_ & Out & _). apply Out. intros Hin. apply In_nth_error in Hin. destruct Hin as [i Hi]. apply (Hc i), HC, Hi.
Qed.
Lemma rnn_forward cfg st h l s0 evs : accepted cfg -> cluster_per_channel cfg = false -> (forall v, wf (st v)) -> keras_layer h l -> rnn_build cfg st h l = Ok s0 -> Forall (fits (r_w s0)) evs ->
  exists s1 s2, rnn_run s0 evs = Ok s1 /\ rnn_step s1 Forward = Ok s2 /\
    (forall i c k r bias, has_cell h l i c -> keras_cell h c k r bias ->
       exists tk tr, c_attrs (r_heap s2 c) = ("kernel", Tens tk) :: ("recurrent_kernel", Tens tr) :: map (fun b => ("bias", Var b)) bias /\ clusters_of cfg s2 k tk /\ clusters_of cfg s2 r tr) /\
    (forall c, (forall i, ~ has_cell h l i c) -> r_heap s2 c = h c).
Proof. intros Ac Pc W KL B F. destruct (rnn_history cfg st h l s0 evs Ac Pc W KL B F) as (s1 & s2 & clean & A1 & A2 & A3 & A4 & A5 & _). eauto 8. Qed.
Lemma nodup_attrs h c k r bias : keras_cell h c k r bias -> NoDup (map fst (c_attrs (h c))).
Proof.
  intros (_ & L & E). rewrite E. destruct bias as [|b [|b2 bias]]; cbn in L; try lia; cbn; repeat constructor; cbn; intuition discriminate.
Qed.
Lemma get_attr_in l a x : NoDup (map fst l) -> In (a, x) l -> get_attr l a = Ok x.
Proof.
  unfold get_attr. induction l as [|(b, y) l IH]; intros Nd H; [destruct H|]. cbn in Nd. inversion Nd; subst. cbn. destruct H as [[= -> ->]|H]; [now rewrite String.eqb_refl|].
  destruct (String.eqb_spec a b) as [->|]; [exfalso; apply H2, in_map_iff; exists (b, x); auto|]. now apply IH.
Qed.
Lemma rnn_stripped cfg st h l s0 evs : accepted cfg -> cluster_per_channel cfg = false -> (forall v, wf (st v)) -> keras_layer h l -> rnn_build cfg st h l = Ok s0 -> Forall (fits (r_w s0)) evs ->
  exists s1 s2 clean, rnn_run s0 evs = Ok s1 /\ rnn_step s1 Forward = Ok s2 /\ rnn_strip s1 = Ok clean /\
    (forall i, (exists c, has_cell h l i c) <-> i < length clean) /\
    forall i c row, has_cell h l i c -> nth_error clean i = Some row -> map fst row = map fst (c_attrs (h c)) /\ forall a t, In (a, t) row -> cell_uses s2 c a t.
Proof.
  intros Ac Pc W KL B F. destruct (rnn_history cfg st h l s0 evs Ac Pc W KL B F) as (s1 & s2 & clean & A1 & A2 & A3 & A4 & A5 & A6 & ->). exists s1, s2. eexists. split; [exact A1|]. split; [exact A2|]. split; [exact A3|]. split.
  - intros i. rewrite map_length, <- nth_error_Some. split; [intros (c & Hc); apply A6 in Hc; congruence|]. destruct (nth_error _ i) as [c|] eqn:E; [|contradiction]. intros _. exists c. now apply A6.
  - intros i c rw Hc Hn. pose proof Hc as Hc'. apply A6 in Hc'. rewrite nth_error_map, Hc' in Hn. injection Hn as <-. destruct KL as (_ & HK & _). destruct (HK i c Hc) as (k & r & bias & Kc). destruct (A4 i c k r bias Hc Kc) as (tk & tr & E & _).
    assert (Nd : NoDup (map fst (c_attrs (r_heap s2 c)))) by (pose proof (nodup_attrs h c k r bias Kc) as N; destruct Kc as (_ & _ & Ka); rewrite Ka in N; rewrite E; exact N).
    split; [rewrite map_map; cbn [fst]; destruct Kc as (_ & _ & Ka); rewrite E, Ka; reflexivity|].
    intros a t Hin. apply in_map_iff in Hin. destruct Hin as ((a', x) & [= <- <-] & Hin). exists x. split; [|reflexivity]. now apply get_attr_in.
Qed.

(** ** Which layers can be built *)
Lemma build_keras h l : keras_layer h l -> accepts h l = true /\ exists ws, get_clusterable_weights h l = Ok ws.
Proof. intros KL. split; [now apply accepted_layer|]. eexists. now apply listed_eq. Qed.
Lemma find_var_total v : forall (ws : list (nat * tensor Q)) i, In v (map fst ws) -> exists p, find_var v i ws = Ok p.
Proof.
  induction ws as [|(u, t) ws IH]; intros i H; [destruct H|]. cbn. destruct (Nat.eqb_spec u v) as [->|N]; [eauto|]. apply IH. destruct H; [contradiction|assumption].
Qed.
Lemma mapM_all {A B} (f : A -> res B) : forall l, (forall a, In a l -> exists b, f a = Ok b) -> exists bs, mapM f l = Ok bs.
Proof.
  induction l as [|a l IH]; intros H; cbn; [eauto|]. destruct (H a) as (b & ->); [now left|]. cbn [bind]. destruct IH as (bs & ->); [intros; apply H; now right|]. cbn. eauto.
Qed.
Lemma builds_linear cfg st h l : keras_layer h l -> cluster_centroids_init cfg = Linear -> cluster_per_channel cfg = false -> preserve_sparsity cfg = false -> (2 <= number_of_clusters cfg)%Z ->
  (forall v, wf (st v)) -> (forall v, data (st v) <> []) -> exists s0, rnn_build cfg st h l = Ok s0.
Proof.
  intros KL Ei Ep Es Hn W Hd. rewrite (build_sim h l KL cfg st). unfold build. destruct (mapM_all (build_var cfg (as_layer h l st)) (l_clusterable (as_layer h l st))) as (vs & ->); [|cbn [bind]; eauto].
  intros v Hv. unfold build_var. assert (Hin : In v (map fst (l_weights (as_layer h l st)))) by (rewrite as_layer_names; now apply kr_in).
  destruct (find_var_total v (l_weights (as_layer h l st)) 0 Hin) as ((p, w) & E). pose proof E as E'. cbn [as_layer l_weights] in E'. apply find_var_st in E'. subst w. rewrite E. cbn [bind]. rewrite Ei, Ep, Es. unfold get_cluster_centroids.
  destruct (cfi_ok Linear false (data (st v)) (number_of_clusters cfg)) as (cs & Ec); [intros Z; exfalso; apply (Hd v Z)|exact I|].
  assert (Eg : get_cluster_centroids Linear (Z.of_nat (Z.to_nat (number_of_clusters cfg))) false false (data_format_of cfg) (st v) = Ok (Flat cs)) by (rewrite Z2Nat.id by lia; unfold get_cluster_centroids; rewrite Ec; reflexivity).
  assert (Ln : 2 <= Z.to_nat (number_of_clusters cfg)) by lia. destruct (linear_spec _ _ _ _ (W v) Ln Eg) as (lo & hi & _ & _ & _ & (Len & _)). rewrite Ec. cbn [bind pull]. destruct cs as [|c cs]; [cbn in Len; lia|]. cbn [bind]. eauto.
Qed.

Lemma forallb_neg {A} (f : A -> bool) l : forallb f l = false -> exists x, In x l /\ f x = false.
Proof. induction l as [|x r IH]; cbn; [discriminate|]. destruct (f x) eqn:E; cbn; [|eauto]. intros H. destruct (IH H) as (y & Hy & Fy). eauto. Qed.
Lemma rnn_refused : forall h b c, accepts h (RnnLayer b c) = false <-> b = false \/ exists i d k, has_cell h (RnnLayer b c) i d /\ c_class (h d) = CustomCell k.
Proof.
  intros h b c. cbn [accepts supports]. destruct b; cbn [andb]; [|split; auto]. split.
  - intros F. right. destruct (forallb_neg _ _ F) as (d & Hin & Hd). apply In_nth_error in Hin. destruct Hin as (i & Hi). exists i, d.
    assert (X : exists k, c_class (h d) = CustomCell k) by (destruct (c_class (h d)) as [| | | |k]; try discriminate Hd; eauto).
    destruct X as (k & Ek). exists k. split; [|exact Ek]. cbn [get_rnn_cells] in Hi.
    destruct (c_class (h c)) as [| | |cs|kc] eqn:Ec; try (destruct i as [|[|i]]; try discriminate Hi; injection Hi as <-; apply hc_single; congruence).
    now apply hc_stacked with cs.
  - intros [E|(i & d & k & H & Ek)]; [discriminate|]. apply not_true_iff_false. intros F. rewrite forallb_forall in F.
    assert (Hin : In d (get_rnn_cells h (RnnLayer true c))).
    { inversion H as [? ? N|? ? cs ? ? E Ei| |]; subst; cbn [get_rnn_cells]; [|rewrite E; now apply nth_error_In in Ei]. destruct (c_class (h d)) eqn:Ed; try now left. exfalso; eapply N; reflexivity. }
    specialize (F d Hin). now rewrite Ek in F.
Qed.

Lemma other_names h attr i : clusterable_attr attr ->
  (forall f b, 1 < i -> get_weight_from_layer h (Bidirectional f b) (indexed attr i) = Err ValueError) /\
  (forall k c cs, c_class (h c) = StackedRNNCells cs -> List.length cs <= i -> get_weight_from_layer h (RnnLayer k c) (indexed attr i) = Err IndexError) /\
  (forall c, get_weight_from_layer h (CellLayer c) (indexed attr i) = Err ValueError).
Proof.
  intros Ha. unfold get_weight_from_layer, resolve. rewrite (name_indexed attr i Ha). cbn [bind]. split; [|split].
  - intros f b Hi. destruct (Z.ltb_spec (Z.of_nat i) 0), (Z.ltb_spec 1 (Z.of_nat i)); cbn [orb bind]; try lia; reflexivity.
  - intros k c cs Ec Hi. rewrite Ec. unfold py_nth. destruct (Z.ltb_spec (Z.of_nat i) 0); [lia|]. destruct (Z.ltb_spec (Z.of_nat i) 0); [lia|]. rewrite Nat2Z.id.
    apply nth_error_None in Hi. rewrite Hi. reflexivity.
  - reflexivity.
Qed.
