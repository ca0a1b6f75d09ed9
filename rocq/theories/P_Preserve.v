(** Prune- and cluster-preserving quantization aware training: C49-C51, C88-C91. *)
From Coq Require Import String.
From Verif Require Import Base M_Num M_Tensor M_Cluster S_Cluster M_ClusterWrapper S_ClusterWrapper M_Transform M_Layout8 M_QuantizeApply S_Transform S_Layout8 S_QuantizeApply L_QuantizeApply2 P_QuantizeApply M_Quant M_Preserve S_Preserve.
From Verif Require Import L_Preserve L_Preserve2 L_Preserve3 L_Preserve4 L_Preserve5 L_Preserve6.
Open Scope string_scope.
Open Scope list_scope.
Open Scope Q_scope.

(** ** C49: prune-preserving *)
(** After any history of forward passes with any kernel values, every entry that was zero when the quantizer was built is zero
    in the quantized kernel. *)
Theorem C49_zeros : forall k w0, wf w0 -> forall v0 calls v tr x y v',
  pp_build k w0 = Ok v0 -> Forall (fun c => like w0 (snd c)) calls -> pp_run k v0 calls = Ok v -> like w0 x -> pp_call k tr v x = Ok (y, v') -> zeros_kept w0 y.
Proof. exact pp_zeros. Qed.
(** Otherwise it is the plain quantizer, applied to the kernel with those entries replaced by zero. *)
Theorem C49_like_plain : forall k w0, wf w0 -> forall v0 calls v tr x y v',
  pp_build k w0 = Ok v0 -> Forall (fun c => like w0 (snd c)) calls -> pp_run k v0 calls = Ok v -> like w0 x -> pp_call k tr v x = Ok (y, v') ->
  exists p, like w0 p /\ (forall idx, valid (shape w0) idx -> tget 0 p idx == if Qeq_bool (tget 0 w0 idx) 0 then 0 else tget 0 x idx) /\
    call (default_weights_quantizer k) tr (pp_range v) p = Ok (y, pp_range v').
Proof. exact pp_as_base. Qed.
Theorem C49_never_fails : forall k w0 calls, kernel k w0 -> Forall (fun c => like w0 (snd c)) calls -> exists v0 v, pp_build k w0 = Ok v0 /\ pp_run k v0 calls = Ok v.
Proof. exact pp_never_fails. Qed.
Definition t22 (l : list Q) : tensor Q := mkT [2; 2]%nat l.
Example C49_ex : exists v0 v y v', pp_build KDense (t22 [0; 1; 2; 0]) = Ok v0 /\ pp_run KDense v0 [(true, t22 [5; 1; -2; 3])] = Ok v /\
  pp_call KDense false v (t22 [5; 127; -64; 3]) = Ok (y, v') /\ map Qred (data y) = [0; 2; -2; 0] /\ kernel KDense (t22 [0; 1; 2; 0]).
Proof. do 4 eexists. split; [reflexivity|]. split; [vm_compute; reflexivity|]. split; [vm_compute; reflexivity|]. split; [vm_compute; reflexivity|]. repeat split; discriminate. Qed.

(** ** C50: cluster-preserving *)
(** A history: the quantizer is built for the kernel [w0], then forward passes and arbitrary changes of the variables. *)
Definition history (k : kclass) (df : data_format) (flag0 fl : bool) (w0 : tensor Q) (v0 v : cpvars) : Prop :=
  kernel k w0 /\ exists fb evs, cp_build k df flag0 w0 = Ok (fb, v0) /\ Forall (cp_fits w0 v0) evs /\ cp_run k df fl v0 evs = Ok v.
Definition originals_in_range (v : cpvars) : Prop := forall c, cp_cluster v = Some c -> in_range (cc_orig c).
Lemma orig_range v : originals_in_range v -> orig_in_range v.
Proof. unfold originals_in_range, orig_in_range. destruct (cp_cluster v); auto. Qed.

(** Dense: a training pass leaves at most as many different values as the kernel had at build, in the kernel and in the
    quantized kernel. *)
Theorem C50_dense : forall df flag0 fl w0 v0 v y v' n,
  history KDense df flag0 fl w0 v0 v -> originals_in_range v -> cp_call KDense df fl true v = Ok (y, v') ->
  exactly_distinct n (data w0) -> (2 <= n <= 1024)%nat -> at_most_distinct n (data (cp_kernel v')) /\ at_most_distinct n (data y).
Proof. intros df flag0 fl w0 v0 v y v' n (K & fb & evs & B & F & R) Ra C D N. eapply dense_bound; eauto using orig_range. Qed.
(** Conv2D whose channels have about the same number of different values: each channel keeps its bound. *)
Theorem C50_conv_channels : forall flag0 fl w0 v0 v y v' n,
  history KConv2D ChannelsLast flag0 fl w0 v0 v -> originals_in_range v -> cp_call KConv2D ChannelsLast fl true v = Ok (y, v') ->
  evenly_clustered w0 -> (forall c, (c < filters w0)%nat -> at_most_distinct n (output_channel_values w0 c)) -> (n <= 1024)%nat ->
  (exists c, (c < filters w0)%nat /\ ~ at_most_distinct 1 (output_channel_values w0 c)) ->
  forall c, (c < filters w0)%nat -> at_most_distinct n (output_channel_values (cp_kernel v') c) /\ at_most_distinct n (output_channel_values y c).
Proof. intros flag0 fl w0 v0 v y v' n (K & fb & evs & B & F & R) Ra C Ev D N X. eapply channels_bound; eauto using orig_range. Qed.
(** Any other Conv2D: the whole kernel keeps its bound; the quantized kernel does so per channel (its scales are per channel). *)
Theorem C50_conv_whole : forall flag0 fl w0 v0 v y v' n,
  history KConv2D ChannelsLast flag0 fl w0 v0 v -> originals_in_range v -> cp_call KConv2D ChannelsLast fl true v = Ok (y, v') ->
  ~ evenly_clustered w0 -> exactly_distinct n (data w0) -> (2 <= n <= 1024)%nat ->
  at_most_distinct n (data (cp_kernel v')) /\ forall c, at_most_distinct n (output_channel_values y c).
Proof. intros flag0 fl w0 v0 v y v' n (K & fb & evs & B & F & R) Ra C Ev D N. eapply conv_whole_bound; eauto using orig_range. Qed.
(** preserve_sparsity (the flag is still set): zeros of the kernel at build are zeros of the kernel and of the quantized
    kernel after a training pass. *)
Theorem C50_zeros : forall k df flag0 w0 v0 v y v',
  history k df flag0 true w0 v0 v -> cp_call k df true true v = Ok (y, v') -> zeros_kept w0 y /\ (cp_cluster v0 <> None -> zeros_kept w0 (cp_kernel v')).
Proof.
  intros k df flag0 w0 v0 v y v' (K & fb & evs & B & F & R) C. pose proof (hist_inv _ _ _ _ _ _ _ _ _ K B F R) as I. destruct (cp_cluster v0) as [c0|] eqn:E0.
  - destruct (train_zeros k df flag0 fb w0 v0 K B v y v' I) as [Z Y]; auto. congruence.
  - destruct (train_zeros_unclustered k df flag0 fb w0 v0 K B v y v' I E0 C) as [_ Y]. split; [exact Y|congruence].
Qed.
(** Inference does not change the kernel; the result is the plain quantizer's, so equal values stay equal and zeros stay
    zero. *)
Theorem C50_inference : forall k df flag0 fl w0 v0 v y v',
  history k df flag0 fl w0 v0 v -> cp_call k df fl false v = Ok (y, v') ->
  cp_kernel v' = cp_kernel v /\ call (default_weights_quantizer k) false (cp_range v) (cp_kernel v) = Ok (y, cp_range v') /\ zeros_kept (cp_kernel v) y.
Proof. intros k df flag0 fl w0 v0 v y v' (K & fb & evs & B & F & R) C. pose proof (hist_inv _ _ _ _ _ _ _ _ _ K B F R) as I. eapply inference; eauto. Qed.
Theorem C50_never_fails : forall k df flag w, kernel k w -> regular k df -> exists fb v0, cp_build k df flag w = Ok (fb, v0) /\
  forall fl evs, (fl = true -> fb = true) -> Forall (cp_fits w v0) evs -> exists v, cp_run k df fl v0 evs = Ok v.
Proof. exact cp_never_fails. Qed.

(** What does not hold.  The number of different values of a Conv2D kernel whose channels have equally many is not kept: a
    kernel with two values becomes one with four. *)
Definition claim_whole : Prop := forall flag0 fl w0 v0 v y v' n,
  history KConv2D ChannelsLast flag0 fl w0 v0 v -> originals_in_range v -> cp_call KConv2D ChannelsLast fl true v = Ok (y, v') ->
  exactly_distinct n (data w0) -> (2 <= n <= 1024)%nat -> at_most_distinct n (data (cp_kernel v')).
Definition t4 (s : list nat) (l : list Q) : tensor Q := mkT s l.
Definition w_even := t4 [1; 1; 2; 2]%nat [1; 1; 2; 2].
Ltac fits_tac := repeat constructor; cbn; repeat constructor; auto.
Ltac range_tac := let c := fresh in let E := fresh in let x := fresh in intros c E; vm_compute in E; injection E as <-; intros x; cbn [cc_orig data]; intros I; repeat (destruct I as [<-|I]; [reflexivity|]); destruct I.
Ltac kernel_tac := split; [reflexivity|split; [discriminate|reflexivity]].
Theorem C50_conv_whole_refuted : ~ claim_whole.
Proof.
  intros H.
  assert (B : exists v0, cp_build KConv2D ChannelsLast false w_even = Ok (false, v0)) by (eexists; vm_compute; reflexivity). destruct B as (v0 & B). pose proof B as B'. vm_compute in B'. injection B' as B'.
  assert (R : exists v, cp_run KConv2D ChannelsLast false v0 [Assign w_even (t4 [1; 1; 2; 2]%nat [1; 3; 2; 4]) (Rows [[1; 2]; [3; 4]])] = Ok v) by (rewrite <- B'; eexists; vm_compute; reflexivity). destruct R as (v & R). pose proof R as R'. rewrite <- B' in R'. vm_compute in R'. injection R' as R'.
  assert (C : exists y v', cp_call KConv2D ChannelsLast false true v = Ok (y, v') /\ map Qred (data (cp_kernel v')) = [1; 3; 2; 4]) by (rewrite <- R'; do 2 eexists; split; vm_compute; reflexivity). destruct C as (y & v' & C & E).
  assert (D : at_most_distinct 2 (data (cp_kernel v'))).
  { apply (H false false w_even v0 v y v' 2%nat); auto; try lia.
    - split; [kernel_tac|]. exists false. eexists. split; [exact B|]. split; [|exact R]. constructor; [|constructor]. rewrite <- B'. cbn. repeat split; auto.
    - rewrite <- R'. range_tac.
    - exact (uniques_exact (data w_even)). }
  destruct D as (vals & L & D). destruct (data (cp_kernel v')) as [|a [|b [|c [|d [|e t]]]]]; try discriminate. cbn in E. injection E as Ea Eb Ec Ed.
  destruct (D a) as (p & Ip & Ep); [cbn; auto|]. destruct (D b) as (q & Iq & Eq); [cbn; auto|]. destruct (D c) as (r & Ir & Er); [cbn; auto|].
  rewrite <- (Qred_correct a), Ea in Ep. rewrite <- (Qred_correct b), Eb in Eq. rewrite <- (Qred_correct c), Ec in Er.
  destruct vals as [|u1 [|u2 [|u3 us]]]; cbn in L; try lia; cbn in Ip, Iq, Ir.
  - destruct Ip.
  - destruct Ip as [<-|[]], Iq as [<-|[]]. discriminate (Qeq_trans _ _ _ Ep (Qeq_sym _ _ Eq)).
  - destruct Ip as [<-|[<-|[]]], Iq as [<-|[<-|[]]], Ir as [<-|[<-|[]]]; try (discriminate (Qeq_trans _ _ _ Ep (Qeq_sym _ _ Eq))); try (discriminate (Qeq_trans _ _ _ Ep (Qeq_sym _ _ Er))); try (discriminate (Qeq_trans _ _ _ Eq (Qeq_sym _ _ Er))).
Qed.
(** With data_format channels_first the quantizer cannot even be built for most kernels: a kernel with fewer filters than
    kernel columns always fails. *)
Theorem C50_channels_first_fails : forall flag w a b h o, shape w = [a; b; h; o] -> (o < b)%nat -> cp_build KConv2D ChannelsFirst flag w = Err InvalidArgument.
Proof. intros flag w a b h o E L. unfold cp_build, get_centroids, num_channels. rewrite E. cbn [nth]. apply Nat.ltb_lt in L. now rewrite L. Qed.
Theorem C50_channels_first_refuted : ~ (forall flag w, kernel KConv2D w -> exists fb v, cp_build KConv2D ChannelsFirst flag w = Ok (fb, v)).
Proof. intros H. destruct (H false (t4 [3; 3; 1; 2]%nat (repeat 1 18))) as (fb & v & E); [kernel_tac|]. vm_compute in E. discriminate. Qed.
Example C50_ex : exists v0 v y v', history KDense ChannelsLast true true (t22 [0; 1; 2; 0]) v0 v /\ originals_in_range v /\
  cp_call KDense ChannelsLast true true v = Ok (y, v') /\ exactly_distinct 3 (data (t22 [0; 1; 2; 0])) /\ map Qred (data (cp_kernel v')) = [0; 1; 3; 0] /\ cp_cluster v0 <> None.
Proof.
  do 4 eexists. split; [split; [kernel_tac|]; exists true, [Assign (t22 [9; 9; 9; 9]) (t22 [7; 1; 5; -5]) (Flat [9; 1; 3])]; split; [vm_compute; reflexivity|]; split; [constructor; [|constructor]; cbn; repeat split; auto|vm_compute; reflexivity]|].
  split; [range_tac|]. split; [vm_compute; reflexivity|]. split; [exact (uniques_exact (data (t22 [0; 1; 2; 0])))|]. split; [vm_compute; reflexivity|discriminate].
Qed.
Example C50_ex_channels : exists v0 v y v', history KConv2D ChannelsLast false false w_even v0 v /\ originals_in_range v /\
  cp_call KConv2D ChannelsLast false true v = Ok (y, v') /\ evenly_clustered w_even /\
  (forall c, (c < filters w_even)%nat -> at_most_distinct 2 (output_channel_values w_even c)) /\ (exists c, (c < filters w_even)%nat /\ ~ at_most_distinct 1 (output_channel_values w_even c)).
Proof.
  do 4 eexists. split; [split; [kernel_tac|]; exists false, []; split; [vm_compute; reflexivity|]; split; [constructor|reflexivity]|].
  split; [range_tac|]. split; [vm_compute; reflexivity|].
  assert (X : forall c, (c < filters w_even)%nat -> exactly_distinct 2 (output_channel_values w_even c)).
  { intros c L. change (filters w_even) with 2%nat in L. destruct c as [|[|c]]; [exact (uniques_exact [1; 2])|exact (uniques_exact [1; 2])|lia]. }
  split; [exists 1%nat; intros c L; right; now apply X|]. split; [intros c L; now apply X|]. exists 0%nat. split; [cbn; lia|]. intros D. apply (X 0%nat) in D; [lia|cbn; lia].
Qed.
Definition w_uneven := t4 [1; 1; 3; 2]%nat [0; 5; 1; 5; 2; 5].
Example C50_ex_uneven : exists v0 v y v', history KConv2D ChannelsLast true true w_uneven v0 v /\ originals_in_range v /\
  cp_call KConv2D ChannelsLast true true v = Ok (y, v') /\ ~ evenly_clustered w_uneven /\ exactly_distinct 4 (data w_uneven).
Proof.
  do 4 eexists. split; [split; [kernel_tac|]; exists true, []; split; [vm_compute; reflexivity|]; split; [constructor|reflexivity]|].
  split; [range_tac|]. split; [vm_compute; reflexivity|]. split; [|exact (uniques_exact (data w_uneven))].
  intros (m & H). assert (X0 : exactly_distinct 3 (output_channel_values w_uneven 0)) by exact (uniques_exact [0; 1; 2]). assert (X1 : exactly_distinct 1 (output_channel_values w_uneven 1)) by exact (uniques_exact [5; 5; 5]).
  destruct (H 0%nat) as [A|A]; [cbn; lia| |]; pose proof (exactly_unique _ _ _ A X0); (destruct (H 1%nat) as [D|D]; [cbn; lia| |]; pose proof (exactly_unique _ _ _ D X1); lia).
Qed.

(** ** C51: preserve_sparsity is shared by all layers of a class *)
Definition C51_claim : Prop := forall ls f vs i k df w v, cp_build_model (true, true) ls = Ok (f, vs) -> nth_error ls i = Some (k, df, w) -> nth_error vs i = Some v ->
  (forall k' df' w', In (k', df', w') ls -> kernel k' w') -> forall y v', cp_call k df (flag_of f k) true v = Ok (y, v') -> forall orig, like w orig -> forall y2 v2,
  cp_call k df (flag_of f k) true (cp_assign v (cp_kernel v) orig (match cp_cluster v with Some c => cc_cents c | None => Flat [] end)) = Ok (y2, v2) -> zeros_kept w y2.
(** One Dense layer without zeros switches the protection off for all Dense layers, also those built before it. *)
Theorem C51_refuted : ~ C51_claim.
Proof.
  intros H. pose (ls := [(KDense, ChannelsLast, t22 [0; 0; 1; 1]); (KDense, ChannelsLast, t22 [1; 1; 2; 2])]).
  assert (B : exists vs, cp_build_model (true, true) ls = Ok ((false, true), vs)) by (eexists; vm_compute; reflexivity). destruct B as (vs & B). pose proof B as B'. vm_compute in B'. injection B' as B'.
  destruct vs as [|v [|v2 [|]]]; try discriminate. injection B' as Ev Ev2.
  assert (C : exists y v', cp_call KDense ChannelsLast false true v = Ok (y, v')) by (rewrite <- Ev; do 2 eexists; vm_compute; reflexivity). destruct C as (y & v' & C).
  assert (C2 : exists y2 v2', cp_call KDense ChannelsLast false true (cp_assign v (cp_kernel v) (t22 [1; 0; 1; 1]) (match cp_cluster v with Some c => cc_cents c | None => Flat [] end)) = Ok (y2, v2') /\ map Qred (data y2) = [1; 0; 1; 1] /\ shape y2 = [2; 2]%nat) by (rewrite <- Ev; do 2 eexists; split; [vm_compute; reflexivity|split; vm_compute; reflexivity]).
  destruct C2 as (y2 & v2' & C2 & E & S2).
  assert (Z : zeros_kept (t22 [0; 0; 1; 1]) y2).
  { apply (H ls (false, true) [v; v2] 0%nat KDense ChannelsLast (t22 [0; 0; 1; 1]) v B eq_refl eq_refl) with (y := y) (v' := v') (orig := t22 [1; 0; 1; 1]) (v2 := v2'); auto.
    - intros k' df' w' [X|[X|[]]]; injection X as <- <- <-; kernel_tac.
    - split; reflexivity. }
  destruct Z as [_ Z]. specialize (Z [0; 0]%nat). assert (V : valid [2; 2]%nat [0; 0]%nat) by (repeat constructor). specialize (Z V). unfold tget in Z. rewrite S2 in Z. cbn in Z. specialize (Z (Qeq_refl 0)).
  destruct (data y2) as [|a [|b [|c [|d [|]]]]]; try discriminate. cbn in E, Z. injection E as Ea _ _ _. rewrite <- (Qred_correct a), Ea in Z. discriminate.
Qed.
(** Exactly when the flag survives: all layers of the class have a zero. *)
Theorem C51_exactly : forall ls f f' vs, cp_build_model f ls = Ok (f', vs) -> forall k, flag_of f' k = true <->
  flag_of f k = true /\ forall df w, In (k, df, w) ls -> exists x, In x (data w) /\ x == 0.
Proof. exact model_flags. Qed.
(** Then every layer of that class keeps its zeros, whatever happens. *)
Theorem C51_zeros_partial : forall ls f f' vs, cp_build_model f ls = Ok (f', vs) -> forall k, flag_of f k = true -> (forall df w, In (k, df, w) ls -> exists x, In x (data w) /\ x == 0) ->
  forall i df w v0, nth_error ls i = Some (k, df, w) -> nth_error vs i = Some v0 -> kernel k w ->
  forall evs v y v', Forall (cp_fits w v0) evs -> cp_run k df (flag_of f' k) v0 evs = Ok v -> cp_call k df (flag_of f' k) true v = Ok (y, v') -> zeros_kept w y.
Proof.
  intros ls f f' vs B k Fk Hz i df w v0 Hi Hv K evs v y v' F R C. assert (E : flag_of f' k = true) by (apply (C51_exactly ls f f' vs B k); auto). rewrite E in *.
  destruct (model_entries ls f f' vs B i k df w v0 Hi Hv) as (g & fb & Bi & _). apply (C50_zeros k df g w v0 v y v'); auto. split; auto. exists fb, evs. auto.
Qed.
Example C51_ex : exists f' vs, cp_build_model (true, true) [(KDense, ChannelsLast, t22 [0; 0; 1; 1]); (KConv2D, ChannelsLast, w_even); (KDense, ChannelsLast, t22 [3; 0; 4; 4])] = Ok (f', vs) /\ flag_of f' KDense = true /\ flag_of f' KConv2D = false.
Proof. do 2 eexists. split; [vm_compute; reflexivity|]. split; reflexivity. Qed.

(** ** C88: the first training pass does not change the weights *)
Definition C88_claim : Prop := forall k df flag w fb v0 y v', kernel k w -> regular k df -> in_range w -> cp_build k df flag w = Ok (fb, v0) -> cp_call k df fb true v0 = Ok (y, v') -> same_values w (cp_kernel v').
Theorem C88_first_pass_partial : forall k df flag w fb v0 y v', kernel k w -> regular k df -> in_range w -> cp_build k df flag w = Ok (fb, v0) -> cp_call k df fb true v0 = Ok (y, v') ->
  (flag = false \/ (forall x, In x (data w) -> ~ x == 0) \/ k = KDense \/ ~ evenly_clustered w \/ channel_zeros w) -> same_values w (cp_kernel v').
Proof.
  intros k df flag w fb v0 y v' K Rg Ra B C H. eapply first_pass; eauto. pose proof (build_flag _ _ _ _ _ _ B) as E. destruct H as [->|[H|H]]; [left; exact E| |right; exact H]. left. rewrite E.
  destruct (has_zero_entry w) eqn:Z; [|apply andb_false_r]. apply has_zero_iff in Z as (x & I & X). destruct (H x I X).
Qed.
(** A Conv2D whose channels have two values each, {0,1} and {2,3}: preserve_sparsity turns the 2s into 0s, that is 3s. *)
Definition w_mixed := t4 [1; 1; 2; 2]%nat [0; 2; 1; 3].
Theorem C88_first_pass_refuted : ~ C88_claim.
Proof.
  intros H. assert (B : exists v0, cp_build KConv2D ChannelsLast true w_mixed = Ok (true, v0)) by (eexists; vm_compute; reflexivity). destruct B as (v0 & B). pose proof B as B'. vm_compute in B'. injection B' as B'.
  assert (C : exists y v', cp_call KConv2D ChannelsLast true true v0 = Ok (y, v') /\ map Qred (data (cp_kernel v')) = [0; 3; 1; 3] /\ shape (cp_kernel v') = [1; 1; 2; 2]%nat) by (rewrite <- B'; do 2 eexists; split; [|split]; vm_compute; reflexivity). destruct C as (y & v' & C & E & S).
  assert (Z : same_values w_mixed (cp_kernel v')).
  { apply (H KConv2D ChannelsLast true w_mixed true v0 y v'); auto; [kernel_tac|now right|]. intros x I. cbn in I. repeat (destruct I as [<-|I]; [reflexivity|]). destruct I. }
  destruct Z as [_ Z]. specialize (Z [0; 0; 0; 1]%nat). assert (V : valid (shape w_mixed) [0; 0; 0; 1]%nat) by (repeat constructor). specialize (Z V). unfold tget in Z. rewrite S in Z. cbn in Z.
  destruct (data (cp_kernel v')) as [|a [|b [|c [|d [|]]]]]; try discriminate. cbn in E, Z. injection E as _ Eb _ _. rewrite <- (Qred_correct b), Eb in Z. discriminate.
Qed.
Example C88_ex : exists v0 y v', cp_build KConv2D ChannelsLast true (t4 [1; 1; 2; 2]%nat [0; 0; 1; 3]) = Ok (true, v0) /\ cp_call KConv2D ChannelsLast true true v0 = Ok (y, v') /\ channel_zeros (t4 [1; 1; 2; 2]%nat [0; 0; 1; 3]).
Proof.
  do 3 eexists. split; [vm_compute; reflexivity|]. split; [vm_compute; reflexivity|]. intros c L. change (filters _) with 2%nat in L.
  destruct c as [|[|c]]; [exists 0; split; [cbn; auto|reflexivity]..|lia].
Qed.

(** ** C89: which layers get a preserving quantizer *)
Open Scope nat_scope.
Definition C89_claim : Prop := forall gen ik ueq n prefix already tr m, model_ok m -> fresh_naming gen (layer_names_of m) -> forall ps st l,
  preserve_apply gen ik ueq n prefix already tr m = Some (Ok (ps, st)) ->
  In (l, Some None) (am_layers m) -> In (lc_class l) ["Conv2D"; "Dense"] -> already (lc_name l) = false -> tr (lc_name l) = true ->
  exists l' c, In (PWrapped (prefix ++ lc_name l) l' (Preserving c)) ps.
(** Without annotated ReLU, Activation and Concatenate layers it is so. *)
Theorem C89_annotated_partial : forall gen ik ueq n prefix already tr m, model_ok m -> fresh_naming gen (layer_names_of m) -> forall ps st l,
  preserve_apply gen ik ueq n prefix already tr m = Some (Ok (ps, st)) ->
  (forall r, annotated m r -> lc_class r <> "ReLU" /\ lc_class r <> "Activation" /\ lc_class r <> "Concatenate") ->
  In (l, Some None) (am_layers m) -> In (lc_class l) ["Conv2D"; "Dense"] -> already (lc_name l) = false -> tr (lc_name l) = true ->
  exists l', In (PWrapped (prefix ++ lc_name l) l' (Preserving (Use (registry_config l')))) ps /\ carried_over m st l l'.
Proof. exact preserve_annotated. Qed.
(** No other layer does: only trainable Conv2D and Dense layers, annotated or made by the layout transform. *)
Theorem C89_only : forall gen ik ueq n prefix already tr m, model_ok m -> fresh_naming gen (layer_names_of m) -> forall ps st nm l u,
  preserve_apply gen ik ueq n prefix already tr m = Some (Ok (ps, st)) -> In (PWrapped nm l (Preserving u)) ps ->
  In (lc_class l) ["Conv2D"; "Dense"] /\ tr (lc_name l) = true /\ already (lc_name l) = false /\ u = Use (registry_config l) /\ meta_config (get_meta st (lc_name l)) = None /\
  ((exists l0 c, In (l0, Some c) (am_layers m) /\ lc_name l0 = lc_name l /\ lc_class l0 = lc_class l) \/ ~ In (lc_name l) (layer_names_of m)).
Proof. exact preserving_only. Qed.
(** Everything else is as in the default scheme. *)
Theorem C89_otherwise_default : forall gen ik ueq n prefix already tr m ps st, preserve_apply gen ik ueq n prefix already tr m = Some (Ok (ps, st)) ->
  exists ls, quantize_apply EightBit gen ik ueq n prefix already m = Some (Ok (ls, st)) /\ Forall2 (same_but_output tr) ps ls.
Proof. exact preserve_as_default. Qed.
(** Layers with weights. *)
Definition wt (s : string) : bool := inb s ["k"; "a"; "b"].
Definition pout n (pfx : string) m := match preserve_apply genx (fun _ => true) false n pfx (fun _ => false) wt m with Some (Ok (ls, _)) => ls | _ => [] end.
(** A Dense layer feeding an annotated ReLU, and one feeding an annotated Concatenate, lose their zeros and clusters: their
    weights are not quantized at all, or quantized by the plain quantizer. *)
Theorem C89_relu_refuted : ~ C89_claim.
Proof.
  intros H. assert (E : exists st, preserve_apply genx (fun _ => true) false 60 "quant_" (fun _ => false) wt m_dense_relu = Some (Ok (pout 60 "quant_" m_dense_relu, st))) by (eexists; vm_compute; reflexivity).
  destruct E as (st & E). specialize (H _ _ _ _ _ _ _ _ (okb_ok m_dense_relu eq_refl) (genx_freshb (layer_names_of m_dense_relu) eq_refl) _ _ (ly "Dense" "k" lin ["in"]) E). clear E. destruct H as (l' & u & H).
  - cbn. auto.
  - cbn. auto.
  - reflexivity.
  - reflexivity.
  - vm_compute in H. repeat destruct H as [H|H]; try discriminate; auto.
Qed.
Definition m_cat := mkAM Functional [tin; ann (ly "Dense" "a" lin ["in"]); ann (ly "Dense" "b" lin ["in"]); ann (ly "Concatenate" "cat" [] ["a"; "b"])] [cn "cat"] [] true.
Theorem C89_concatenate_refuted : ~ C89_claim.
Proof.
  intros H. assert (E : exists st, preserve_apply genx (fun _ => true) false 60 "quant_" (fun _ => false) wt m_cat = Some (Ok (pout 60 "quant_" m_cat, st))) by (eexists; vm_compute; reflexivity).
  destruct E as (st & E). specialize (H _ _ _ _ _ _ _ _ (okb_ok m_cat eq_refl) (genx_freshb (layer_names_of m_cat) eq_refl) _ _ (ly "Dense" "a" lin ["in"]) E). clear E. destruct H as (l' & u & H).
  - cbn. auto.
  - cbn. auto.
  - reflexivity.
  - reflexivity.
  - vm_compute in H. repeat destruct H as [H|H]; try discriminate; auto.
Qed.
Definition m_two := mkAM Functional [tin; ann (ly "Dense" "a" lin ["in"]); ann (ly "Conv2D" "b" lin ["a"])] [cn "b"] [] true.
Example C89_ex : exists st, preserve_apply genx (fun _ => true) false 60 "quant_" (fun _ => false) wt m_two = Some (Ok (pout 60 "quant_" m_two, st)) /\
  (forall r, annotated m_two r -> lc_class r <> "ReLU" /\ lc_class r <> "Activation" /\ lc_class r <> "Concatenate") /\ model_ok m_two /\ fresh_naming genx (layer_names_of m_two).
Proof.
  eexists. split; [vm_compute; reflexivity|]. split; [|split; [apply okb_ok; reflexivity|apply genx_freshb; reflexivity]]. intros r (c & R). cbn in R. destruct R as [R|[R|[R|[]]]]; try discriminate; injection R as <-; cbn; repeat split; discriminate.
Qed.

(** ** C90: quantize_apply with a preserving scheme works whenever the default scheme works *)
Definition C90_claim : Prop := forall gen ik ueq n prefix already tr m ls st, model_ok m -> fresh_naming gen (layer_names_of m) ->
  quantize_apply EightBit gen ik ueq n prefix already m = Some (Ok (ls, st)) -> exists ps, preserve_apply gen ik ueq n prefix already tr m = Some (Ok (ps, st)).
(** Exactly two kinds of layers prevent it. *)
Theorem C90_exactly : forall gen ik ueq n prefix already tr m ls st, quantize_apply EightBit gen ik ueq n prefix already m = Some (Ok (ls, st)) ->
  (exists ps, preserve_apply gen ik ueq n prefix already tr m = Some (Ok (ps, st))) <->
  forall l, In l (s_layers st) -> lc_class l <> "InputLayer" -> lc_class l <> "QuantizeLayer" -> already (lc_name l) = false ->
    ~ (In (lc_name l) (requires_output_quantize m) /\ supports l = false /\ tr (lc_name l) = false) /\
    ~ (~ In (lc_name l) (requires_output_quantize m) /\ assoc (lc_name l) (s_meta st) <> None /\ meta_config (get_meta st (lc_name l)) = None /\ tr (lc_name l) = true /\ ~ In (lc_class l) preserved_classes).
Proof.
  intros gen ik ueq n prefix already tr m ls st Q. rewrite (preserve_ok_iff gen ik ueq n prefix already tr m ls st Q). unfold fails_req, fails_class. split; intros H l I; [intros A B C; specialize (H l I)|specialize (H l I)]; tauto.
Qed.
(** An annotated Conv2DTranspose with trainable weights. *)
Definition m_transpose := mkAM Functional [tin; ann (ly "Conv2DTranspose" "t" lin ["in"])] [cn "t"] [] true.
Theorem C90_class_refuted : ~ C90_claim.
Proof.
  intros H. assert (E : exists st, quantize_apply EightBit genx (fun _ => true) false 60 "quant_" (fun _ => false) m_transpose = Some (Ok (out EightBit 60 "quant_" m_transpose, st))) by (eexists; vm_compute; reflexivity).
  destruct E as (st & E). destruct (H _ _ _ _ _ _ (fun _ => true) _ _ _ (okb_ok m_transpose eq_refl) (genx_freshb (layer_names_of m_transpose) eq_refl) E) as (ps & P). vm_compute in P. discriminate.
Qed.
(** A Lambda layer as only input of an annotated layer. *)
Definition m_lambda := mkAM Functional [tin; plain (ly "Lambda" "f" [] ["in"]); ann (ly "Dense" "d" lin ["f"])] [cn "d"] [] true.
Theorem C90_producer_refuted : ~ C90_claim.
Proof.
  intros H. assert (E : exists st, quantize_apply EightBit genx (fun _ => true) false 60 "quant_" (fun _ => false) m_lambda = Some (Ok (out EightBit 60 "quant_" m_lambda, st))) by (eexists; vm_compute; reflexivity).
  destruct E as (st & E). destruct (H _ _ _ _ _ _ (fun s => String.eqb s "d") _ _ _ (okb_ok m_lambda eq_refl) (genx_freshb (layer_names_of m_lambda) eq_refl) E) as (ps & P). vm_compute in P. discriminate.
Qed.

(** ** C91: a prune-preserving model can be saved, reloaded and trained on *)
Open Scope Q_scope.
(** Reloading builds the quantizer with freshly initialised weights [w_init] and then sets all variables to the saved values;
    the mask is no variable. *)
Definition reload (k : kclass) (w_init : tensor Q) (saved : ppvars) : res ppvars := do v <- pp_build k w_init ;; Ok (mkPP (pp_mask v) (pp_range saved)).
Definition C91_claim : Prop := forall k w_init w v0 v x y v', kernel k w -> like w w_init -> pp_build k w = Ok v0 -> reload k w_init v0 = Ok v -> like w x -> pp_call k true v x = Ok (y, v') -> zeros_kept w y.
Theorem C91_reload_refuted : ~ C91_claim.
Proof.
  intros H. assert (B : exists v0, pp_build KDense (t22 [0; 1; 2; 0]) = Ok v0) by (eexists; vm_compute; reflexivity). destruct B as (v0 & B). pose proof B as B'. vm_compute in B'. injection B' as B'.
  assert (R : exists v, reload KDense (t22 [1; 1; 1; 1]) v0 = Ok v) by (rewrite <- B'; eexists; vm_compute; reflexivity). destruct R as (v & R). pose proof R as R'. rewrite <- B' in R'. vm_compute in R'. injection R' as R'.
  assert (C : exists y v', pp_call KDense true v (t22 [1; 1; 1; 1]) = Ok (y, v') /\ map Qred (data y) = [1; 1; 1; 1] /\ shape y = [2; 2]%nat) by (rewrite <- R'; do 2 eexists; split; [|split]; vm_compute; reflexivity). destruct C as (y & v' & C & E & Sy).
  assert (Z : zeros_kept (t22 [0; 1; 2; 0]) y) by (apply (H KDense (t22 [1; 1; 1; 1]) (t22 [0; 1; 2; 0]) v0 v (t22 [1; 1; 1; 1]) y v'); auto; [kernel_tac|split; reflexivity|split; reflexivity]).
  destruct Z as [_ Z]. specialize (Z [0; 0]%nat). assert (V : valid [2; 2]%nat [0; 0]%nat) by (repeat constructor). specialize (Z V). unfold tget in Z. rewrite Sy in Z. cbn in Z. specialize (Z (Qeq_refl 0)).
  destruct (data y) as [|a [|b [|c [|d [|]]]]]; try discriminate. cbn in E, Z. injection E as Ea _ _ _. rewrite <- (Qred_correct a), Ea in Z. discriminate.
Qed.
(** What a reloaded model keeps at zero are the zeros of the freshly initialised weights. *)
Theorem C91_reload_partial : forall k w_init saved v, wf w_init -> (exists r0 calls, build (default_weights_quantizer k) (Some (shape w_init)) = Ok r0 /\ run (default_weights_quantizer k) r0 calls = Ok (pp_range saved)) ->
  reload k w_init saved = Ok v -> forall tr x y v', like w_init x -> pp_call k tr v x = Ok (y, v') -> zeros_kept w_init y.
Proof.
  intros k w_init saved v W (r0 & calls & Bu & Ru) R tr x y v' L C. unfold reload in R. destruct (pp_build k w_init) as [u|] eqn:B; [|discriminate]. cbn [bind] in R. injection R as <-. destruct (pp_build_inv _ _ _ B) as [M _]. cbn [pp_range pp_mask] in *.
  unfold pp_call in C. cbn [pp_mask pp_range] in C. rewrite M, product_ok in C by apply L. cbn [bind] in C. destruct (call _ tr (pp_range saved) _) as [[y' r']|] eqn:Q; [|discriminate]. cbn [bind] in C. injection C as <- <-.
  destruct (base_call_zero _ _ _ _ _ _ _ _ _ Bu Ru Q) as (_ & Sy & N & Z). apply (zeros_from_flat w_init (tmap2 Qmult x (sparsity_mask w_init))); auto using masked_like.
  intros idx V E0. rewrite masked_get by auto. apply Qeq_bool_iff in E0. now rewrite E0.
Qed.

Print Assumptions C49_zeros.
Print Assumptions C49_like_plain.
Print Assumptions C49_never_fails.
Print Assumptions C50_dense.
Print Assumptions C50_conv_channels.
Print Assumptions C50_conv_whole.
Print Assumptions C50_zeros.
Print Assumptions C50_inference.
Print Assumptions C50_never_fails.
Print Assumptions C50_conv_whole_refuted.
Print Assumptions C50_channels_first_fails.
Print Assumptions C51_refuted.
Print Assumptions C51_exactly.
Print Assumptions C51_zeros_partial.
Print Assumptions C88_first_pass_partial.
Print Assumptions C88_first_pass_refuted.
Print Assumptions C89_annotated_partial.
Print Assumptions C89_only.
Print Assumptions C89_otherwise_default.
Print Assumptions C89_relu_refuted.
Print Assumptions C90_exactly.
Print Assumptions C90_class_refuted.
Print Assumptions C91_reload_refuted.
Print Assumptions C91_reload_partial.
Print Assumptions C50_channels_first_refuted.
Print Assumptions C89_concatenate_refuted.
Print Assumptions C90_producer_refuted.

(** As quantize_apply, it refuses a model without annotations or that is not built. *)
Theorem C89_arguments : forall gen ik ueq n prefix already tr m, ((forall l c, ~ In (l, Some c) (am_layers m)) \/ am_built m = false) -> preserve_apply gen ik ueq n prefix already tr m = Some (Err ValueError).
Proof.
  intros gen ik ueq n prefix already tr m H. unfold preserve_apply. destruct (annotated_names m) as [|x r] eqn:E; auto. destruct H as [H|H]; [|now rewrite H].
  exfalso. assert (I : In x (annotated_names m)) by (rewrite E; now left). apply L_QuantizeApply.annotated_names_iff in I as (l & (c & I) & _). exact (H l c I).
Qed.
Print Assumptions C89_arguments.
