(** Properties C97-C100: one-shot pruning, summaries, the sparsity report.  Statements only. *)
From Coq Require Import String Ascii.
From Verif Require Import Base M_Num M_Tensor M_Mask S_Mask L_MbyN2 M_PruneWrapper M_Tools S_Tools L_Tools L_Tools2.
Open Scope string_scope.
Open Scope list_scope.
Open Scope Q_scope.

(** ** C97: prune_for_benchmark prunes every prunable weight at once, without training *)
Theorem C97_elementwise : forall layers target, 0 <= target ->
  (forall ws w, In ws layers -> In w ws -> (0 < List.length (data w))%nat) ->
  exists ls, prune_for_benchmark layers target [1; 1]%nat = Ok ls /\
    Forall2 (fun ws l => Forall2 (pruned_to target) ws (pl_vars l) /\ pl_step l = (-1)%Z) layers ls.
Proof.
  intros layers target H Hn. destruct (bench_total target layers H Hn) as (ls & E). exists ls. split; auto.
  apply bench_all in E. induction E as [|ws l la lb (A & B) R IH]; constructor.
  - split; auto. clear - A. induction A; constructor; auto. now apply bench_pruned.
  - apply IH. intros ws' w I. apply Hn. now right.
Qed.
Print Assumptions C97_elementwise.
(** With blocks: every weight matrix larger than the block is pruned in whole blocks, chosen by their mean magnitude. *)
Theorem C97_blocks : forall layers target bh bw ls, (bh, bw) <> (1, 1)%nat -> (0 < bh)%nat -> (0 < bw)%nat -> 0 <= target ->
  (forall ws w, In ws layers -> In w ws -> wf w /\ exists r c, shape w = [r; c] /\ (0 < r)%nat /\ (0 < c)%nat) ->
  prune_for_benchmark layers target [bh; bw] = Ok ls ->
  Forall2 (fun ws l => Forall2 (pruned_in_blocks target bh bw) ws (pl_vars l) /\ pl_step l = (-1)%Z) layers ls.
Proof.
  intros layers target bh bw ls N Hh Hw T H E. pose proof (bench_blocks_total target bh bw layers N Hh Hw T H) as X. rewrite E in X.
  apply bench_all in E. induction E as [|ws l la lb (A & B) R IH]; constructor.
  - split; auto. assert (Y := fun w I0 => H ws w (or_introl eq_refl) I0). assert (Z := fun w r c I0 => X ws w r c (or_introl eq_refl) I0). clear - A Y Z N Hh Hw.
    induction A as [|w v ws vs V A IH]; constructor.
    + destruct (Y w (or_introl eq_refl)) as (W & r & c & E & _). destruct (Z w r c (or_introl eq_refl) E). eapply bench_blocks; eauto.
    + apply IH. intros w' I0. apply Y. now right. intros w' r c I0. apply Z. now right.
  - apply IH. intros ws' w I0. apply H. now right. intros ws' w r c I0. apply X. now right.
Qed.
Print Assumptions C97_blocks.
(** ... and it succeeds exactly if every matrix is larger than the block in both directions; otherwise ValueError. *)
Theorem C97_blocks_accepted : forall layers target bh bw, (bh, bw) <> (1, 1)%nat -> (0 < bh)%nat -> (0 < bw)%nat -> 0 <= target ->
  (forall ws w, In ws layers -> In w ws -> wf w /\ exists r c, shape w = [r; c] /\ (0 < r)%nat /\ (0 < c)%nat) ->
  ((exists ls, prune_for_benchmark layers target [bh; bw] = Ok ls) <->
     forall ws w r c, In ws layers -> In w ws -> shape w = [r; c] -> (bh < r)%nat /\ (bw < c)%nat) /\
  (forall e, prune_for_benchmark layers target [bh; bw] = Err e -> e = ValueError).
Proof.
  intros layers target bh bw N Hh Hw T H. pose proof (bench_blocks_total target bh bw layers N Hh Hw T H) as X.
  destruct (prune_for_benchmark layers target [bh; bw]) as [ls|e].
  - split; [|discriminate]. split; eauto.
  - destruct X as (-> & ws & w & r & c & I0 & I1 & E & D). split; [|congruence]. split. { intros (ls & Y). discriminate. }
    intros Y. destruct (Y ws w r c I0 I1 E). lia.
Qed.
Print Assumptions C97_blocks_accepted.
Example C97_blocks_ex : exists l, prune_for_benchmark [[mkT [4; 4]%nat [1; 2; 0; 0; 3; 4; 0; 0; 0; 0; 5; 5; 0; 1; 5; 5]]] (1#2) [2; 2]%nat = Ok [l] /\
  map (fun v => map Qred (data (pv_w v))) (pl_vars l) = [[1; 2; 0; 0; 3; 4; 0; 0; 0; 0; 5; 5; 0; 0; 5; 5]] /\
  prune_for_benchmark [[mkT [4; 2]%nat [1; 2; 0; 0; 3; 4; 0; 0]]] (1#2) [2; 2]%nat = Err ValueError.
Proof. eexists. split; [vm_compute; reflexivity|]. split; vm_compute; reflexivity. Qed.
(** The documented interval [0, 1] is neither checked nor fully honoured: 1.0 leaves the largest weight, 1.5 is
    accepted like 1.0, a negative value fails inside TensorFlow. *)
Theorem C97_interval_refuted :
  (exists l, prune_for_benchmark [[mkT [3]%nat [1; -(2); 3]]] 1 [1; 1]%nat = Ok [l] /\ map (fun v => map Qred (data (pv_w v))) (pl_vars l) = [[0; 0; 3]]) /\
  (exists l, prune_for_benchmark [[mkT [3]%nat [1; -(2); 3]]] (3#2) [1; 1]%nat = Ok [l] /\ map (fun v => map Qred (data (pv_w v))) (pl_vars l) = [[0; 0; 3]]) /\
  prune_for_benchmark [[mkT [3]%nat [1; -(2); 3]]] (-(1#2)) [1; 1]%nat = Err InvalidArgument.
Proof.
  split; [eexists; split; vm_compute; reflexivity|]. split; [eexists; split; vm_compute; reflexivity|]. vm_compute. reflexivity.
Qed.
Print Assumptions C97_interval_refuted.
Example C97_ex : exists l, prune_for_benchmark [[mkT [2; 2]%nat [1; -(4); 3; 2]]] (1#2) [1; 1]%nat = Ok [l] /\
  map (fun v => map Qred (data (pv_w v))) (pl_vars l) = [[0; -(4); 3; 0]].
Proof. eexists. split; vm_compute; reflexivity. Qed.

(** ** C98: PruningSummaries logs the sparsity of every mask and every threshold *)
Theorem C98_distinct_names_partial : forall layers,
  NoDup (map nv_mask_name (List.concat layers)) -> NoDup (map nv_thr_name (List.concat layers)) ->
  (forall vs v, In vs layers -> In v vs -> data (pv_mask (nv_var v)) <> [] /\ is_mask (pv_mask (nv_var v))) ->
  (forall vs v, In vs layers -> In v vs ->
     (exists f, In ((nv_mask_name v ++ "/sparsity")%string, f) (pruning_logs layers) /\ zero_fraction (data (pv_mask (nv_var v))) f) /\
     In ((nv_thr_name v ++ "/threshold")%string, pv_thr (nv_var v)) (pruning_logs layers)) /\
  List.length (pruning_logs layers) = (2 * List.length (List.concat layers))%nat /\ NoDup (map fst (pruning_logs layers)).
Proof.
  intros layers N1 N2 H. pose proof (logs_distinct layers N1 N2) as E. split; [|split].
  - intros vs v I1 I2. rewrite E. assert (I : In v (List.concat layers)) by (apply in_concat; eauto). split.
    + eexists. split; [apply in_app_iff; left; apply (in_map (fun v => ((nv_mask_name v ++ "/sparsity")%string, 1 - mean (data (pv_mask (nv_var v)))))); exact I|].
      destruct (H vs v I1 I2) as (A & B). now apply mask_fraction.
    + apply in_app_iff. right. apply (in_map (fun v => ((nv_thr_name v ++ "/threshold")%string, pv_thr (nv_var v)))). exact I.
  - rewrite E, app_length, !map_length. lia.
  - unfold pruning_logs. cbn zeta.
    assert (G : forall A (l d : list (string * A)), NoDup (map fst d) -> NoDup (map fst (dict_sets d l))).
    { intros A l. unfold dict_sets. induction l as [|[k v] l IH]; cbn [fold_left fst snd]; intros d D; auto. apply IH.
      assert (K : forall d : list (string * A), NoDup (map fst d) -> NoDup (map fst (dict_set d k v)) /\ (forall x, In x (map fst (dict_set d k v)) -> x = k \/ In x (map fst d))).
      { clear. induction d as [|[k' v'] d IH]; cbn; intros D. { split; [repeat constructor; auto|]. intros x [<-|[]]. auto. }
        destruct (String.eqb_spec k k') as [<-|Nk]; cbn. { split; [exact D|]. intros x [<-|I]; auto. }
        inversion D as [|? ? D1 D2]; subst. destruct (IH D2) as (A1 & A2). split.
        - constructor; auto. intros I. apply A2 in I as [-> | I]; contradiction || auto.
        - intros x [<-|I]; auto. apply A2 in I as [-> | I]; auto. }
      apply K. exact D. }
    apply G, G. constructor.
Qed.
Print Assumptions C98_distinct_names_partial.
(** Two wrapped layers of the same name (in two nested models): only the last one is reported. *)
Definition nv (name : string) (mask : list Q) : named_var :=
  mkNV (name ++ "/mask:0") (name ++ "/threshold:0") (mkV (mkT [List.length mask] mask) (mkT [List.length mask] mask) 0).
Theorem C98_refuted : exists logs, pruning_logs [[nv "prune_low_magnitude_dense" [1; 1]]; [nv "prune_low_magnitude_dense" [0; 0]]] = logs /\
  map (fun p => (fst p, Qred (snd p))) logs =
    [("prune_low_magnitude_dense/mask:0/sparsity", 1); ("prune_low_magnitude_dense/threshold:0/threshold", 0)].
Proof. eexists. split; [reflexivity|]. vm_compute. reflexivity. Qed.
Print Assumptions C98_refuted.
Example C98_ex : map (fun p => (fst p, Qred (snd p))) (pruning_logs [[nv "a" [1; 0; 0; 1]; nv "b" [1; 1; 1; 0]]]) =
  [("a/mask:0/sparsity", 1#2); ("b/mask:0/sparsity", 1#4); ("a/threshold:0/threshold", 0); ("b/threshold:0/threshold", 0)].
Proof. vm_compute. reflexivity. Qed.

(** ** C99: clustering summaries are written at the requested cadence, across epochs and fit calls *)
Theorem C99_every_f_batches_partial : forall f ns, (0 < f)%nat ->
  cs_run 1 ns (cs_init (FInt (Z.of_nat f))) =
  Ok (mkCS (FInt (Z.of_nat f)) (Z.of_nat (fold_right Nat.add 0%nat ns)), multiples f (fold_right Nat.add 0%nat ns)).
Proof. intros f ns H. exact (run_batches f H ns 0). Qed.
Print Assumptions C99_every_f_batches_partial.
Theorem C99_every_epoch_partial : forall ns, exists c, cs_run 1 ns (cs_init FEpoch) = Ok (c, totals 0 ns).
Proof. intros ns. eexists. exact (run_epochs ns 0). Qed.
Print Assumptions C99_every_epoch_partial.
(** With steps_per_execution >= 2 training stops with an AssertionError in the first epoch, whatever the cadence. *)
Theorem C99_steps_per_execution_refuted : forall f k n ns, (2 <= k)%nat -> (2 * k <= n)%nat ->
  (f = FEpoch \/ exists z, f = FInt z /\ z <> 0%Z) -> cs_run k (n :: ns) (cs_init f) = Err AssertionError.
Proof. exact run_spe. Qed.
Print Assumptions C99_steps_per_execution_refuted.
(** Only the wrappers directly in the model are logged: those inside nested models are not. *)
Theorem C99_layers_partial : forall layers v, In v (written layers) <->
  exists c cs vars x, In (SWrapper (Some (c :: cs)) vars) layers /\ In x vars /\ v = ("clustering/" ++ x)%string.
Proof.
  intros layers v. unfold written. rewrite in_flat_map. split.
  - intros (l & Hl & Hv). destruct l as [sub|[[|c cs]|] vars|]; try contradiction.
    apply in_map_iff in Hv as (x & <- & Hx). eauto 8.
  - intros (c & cs & vars & x & Hl & Hx & ->). eexists. split; [exact Hl|]. apply (in_map (fun v => ("clustering/" ++ v)%string)). exact Hx.
Qed.
Print Assumptions C99_layers_partial.
Theorem C99_nested_refuted : exists layers, in_model (SWrapper (Some ["kernel"]) ["cluster_dense/kernel:0"]) layers /\ written layers = [].
Proof.
  exists [SModel [SWrapper (Some ["kernel"]) ["cluster_dense/kernel:0"]]]. split; [|reflexivity].
  eapply im_nested; [left; reflexivity|]. apply im_here. now left.
Qed.
Print Assumptions C99_nested_refuted.
Example C99_ex : cs_run 1 [4; 3]%nat (cs_init (FInt 3)) = Ok (mkCS (FInt 3) 7, [3; 6]%Z) /\
  cs_run 1 [4; 3]%nat (cs_init FEpoch) = Ok (mkCS FEpoch 7, [4; 7]%Z) /\
  cs_run 2 [4]%nat (cs_init FEpoch) = Err AssertionError /\ cs_run 1 [4]%nat (cs_init (FInt 0)) = Err ZeroDivisionError.
Proof. repeat split. Qed.

(** ** C100: the report tool prints the true sparsity and the true m-by-n verdict of every tensor it does not ignore *)
Theorem C100_sparsity : forall w, w <> [] -> zero_fraction w (calculate_sparsity w) /\ 0 <= calculate_sparsity w <= 1.
Proof.
  intros w H. pose proof (sparsity_fraction w H) as F. split; auto. unfold zero_fraction in F.
  assert (C : (count_if (fun x => Qeq_bool x 0) w <= List.length w)%nat).
  { clear. unfold count_if. induction w as [|x w IH]; cbn; auto. destruct (Qeq_bool x 0); cbn; lia. }
  assert (P : 0 < inject_Z (Z.of_nat (List.length w))). { destruct w; [congruence|]. cbn [List.length]. unfold Qlt. cbn. lia. }
  set (f := calculate_sparsity w) in *. set (n := inject_Z (Z.of_nat (List.length w))) in *.
  assert (0 <= f * n <= n). { rewrite F. unfold n. split; unfold Qle; cbn; lia. }
  split.
  - apply Qmult_le_r with n; auto. lra.
  - apply Qmult_le_r with n; auto. lra.
Qed.
Print Assumptions C100_sparsity.
Lemma lower_small c : small_of c (lower c).
Proof.
  assert (D : forall c, (exists i, (i < 26)%nat /\ get i capitals = Some c /\ get i smalls = Some (lower c)) \/ ((forall i, (i < 26)%nat -> get i capitals <> Some c) /\ lower c = c)).
  { intros x. destruct x as [[|] [|] [|] [|] [|] [|] [|] [|]];
      try (right; split; [intros i Hi; do 26 (destruct i as [|i]; [discriminate|]); lia|reflexivity]);
      left; match goal with |- context[get _ capitals = Some ?c] =>
        let rec f n := match n with 26%nat => fail 1 | _ => first [ exists n; split; [lia|split; reflexivity] | let m := eval cbv in (S n) in f m ] end in f 0%nat end. }
  destruct (D c) as [(i & _ & A & B)|[A B]]; [left; eauto|]. right. split; auto. intros i. destruct (le_lt_dec 26 i) as [L|L]; [|auto].
  assert (E : get i capitals = None); [|now rewrite E]. do 26 (destruct i as [|i]; [lia|]). reflexivity.
Qed.
Lemma small_unique c d e : small_of c d -> small_of c e -> d = e.
Proof.
  intros [(i & A & B)|[A ->]] [(j & A' & B')|[A' ->]]; auto; try (exfalso; eapply A; eauto; fail); try (exfalso; eapply A'; eauto; fail).
  assert (E : i = j); [|subst; congruence].
  assert (I : forall i, get i capitals = Some c -> (i < 26)%nat). { intros k K. destruct (le_lt_dec 26 k) as [L|L]; auto. do 26 (destruct k as [|k]; [lia|]). discriminate. }
  pose proof (I _ A) as Li. pose proof (I _ A') as Lj. assert (V : forall k, (k < 26)%nat -> nat_of_ascii (match get k capitals with Some x => x | None => "0"%char end) = (65 + k)%nat).
  { intros k K. do 26 (destruct k as [|k]; [reflexivity|]). lia. }
  pose proof (V _ Li) as Vi. pose proof (V _ Lj) as Vj. rewrite A in Vi. rewrite A' in Vj. lia.
Qed.
Lemma casefold_small s t : small_form s t <-> t = casefold s.
Proof.
  revert t. induction s as [|c s IH]; intros [|d t]; cbn; try (split; [tauto|discriminate]); [split; auto|].
  rewrite IH. split.
  - intros [A ->]. f_equal. exact (small_unique _ _ _ A (lower_small c)).
  - intros [= -> ->]. split; auto. apply lower_small.
Qed.
Theorem C100_ignored : forall name, ignore_tensor name IGNORE_LIST = true <->
  name = "" \/ exists word a b small, In word not_reported /\ small_form name small /\ small = (a ++ word ++ b)%string.
Proof.
  intros name. change not_reported with IGNORE_LIST. generalize IGNORE_LIST as l. intros l. unfold ignore_tensor. destruct (casefold name) as [|c s] eqn:E.
  - split; auto. intros _. left. destruct name; [reflexivity|discriminate].
  - rewrite existsb_exists. setoid_rewrite contains_spec. split.
    + intros (w & Hw & a & b & H). right. exists w, a, b, (casefold name). rewrite E. split; auto. split; auto. apply casefold_small. auto.
    + intros [-> | (w & a & b & sm & Hw & F & H)]; [discriminate|]. apply casefold_small in F. exists w. split; auto. exists a, b. congruence.
Qed.
Print Assumptions C100_ignored.
Theorem C100_report : forall tensors m n lines, report tensors m n = Ok lines ->
  Forall2 (fun p line => snd line = true /\ is_pruned_m_by_n (snd p) m n C_IN = Ok true \/
                         snd line = false /\ is_pruned_m_by_n (snd p) m n C_IN = Ok false)
          (filter (fun p => negb (ignore_tensor (fst p) IGNORE_LIST)) tensors) lines /\
  map (fun line => fst (fst (fst line))) lines = map fst (filter (fun p => negb (ignore_tensor (fst p) IGNORE_LIST)) tensors) /\
  map (fun line => snd (fst line)) lines = map (fun p => calculate_sparsity (data (snd p))) (filter (fun p => negb (ignore_tensor (fst p) IGNORE_LIST)) tensors).
Proof.
  intros tensors m n. unfold report. generalize (filter (fun p => negb (ignore_tensor (fst p) IGNORE_LIST)) tensors) as l.
  induction l as [|[name w] l IH]; cbn [mapM]; intros lines H. { injection H as <-. repeat split. constructor. }
  destruct (is_pruned_m_by_n w m n C_IN) as [b|] eqn:B; cbn [bind] in H; [|discriminate].
  destruct (mapM _ l) as [r|]; cbn [bind] in H; [|discriminate]. injection H as <-.
  destruct (IH r eq_refl) as (A1 & A2 & A3). split; [|split]; cbn [map fst snd]; try (f_equal; auto).
  constructor; auto. cbn [snd]. destruct b; auto.
Qed.
Print Assumptions C100_report.
(** The verdict of a line is the m-by-n pattern along the last axis, and its number the fraction of zeros. *)
Theorem C100_verdict : forall tensors m n, (m <= n)%nat -> (0 < n)%nat ->
  (forall name w, In (name, w) tensors -> wf w /\ shape w <> [] /\ data w <> []) ->
  exists lines, report tensors m n = Ok lines /\
  Forall2 (fun p line => exists fs ci, shape (snd p) = fs ++ [ci] /\ zero_fraction (data (snd p)) (snd (fst line)) /\
     (snd line = true <-> forall front g, valid fs front -> (g * n < ci)%nat ->
       (count_if (fun idx => negb (Qeq_bool (tget 0%Q (snd p) idx) 0)) (map (fun i => front ++ [i]) (group_cols ci n g)) <= n - m)%nat))
    (filter (fun p => negb (ignore_tensor (fst p) IGNORE_LIST)) tensors) lines.
Proof.
  intros tensors m n H1 H2 H. unfold report.
  assert (H' : forall name w, In (name, w) (filter (fun p => negb (ignore_tensor (fst p) IGNORE_LIST)) tensors) -> wf w /\ shape w <> [] /\ data w <> []).
  { intros name w I. apply filter_In in I as [I _]. eauto. }
  clear H. revert H'. generalize (filter (fun p => negb (ignore_tensor (fst p) IGNORE_LIST)) tensors) as l.
  induction l as [|[name w] l IH]; intros H; cbn [mapM]. { eexists. split; [reflexivity|constructor]. }
  destruct (H name w (or_introl eq_refl)) as (W & SH & D). destruct (exists_last SH) as (fs & ci & E).
  destruct (checker_last_iff w fs ci m n W E H1 H2) as (b & B & BI). rewrite B. cbn [bind].
  destruct IH as (r & R & F). { intros; eapply H; right; eauto. }
  rewrite R. cbn [bind]. eexists. split; [reflexivity|]. constructor; auto. exists fs, ci. cbn [snd fst]. split; auto. split; auto. now apply sparsity_fraction.
Qed.
Print Assumptions C100_verdict.
Example C100_ex : ignore_tensor "Model/ReLU/Relu" IGNORE_LIST = true /\ ignore_tensor "dense/MatMul" IGNORE_LIST = false /\
  report [("conv", mkT [1; 4]%nat [1; 0; 0; 4]); ("INPUT", mkT [1]%nat [1])] 2 4 = Ok [("conv", [1; 4]%nat, 1 - inject_Z 2 / inject_Z 4, true)].
Proof. repeat split. Qed.
