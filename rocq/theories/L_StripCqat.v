(** Lemmas about strip_clustering_cqat. *)
From Coq Require Import String.
From Verif Require Import Base M_Num M_Tensor M_Quant M_Cluster M_ClusterWrapper M_Preserve M_Tools L_Tools M_StripCqat S_StripCqat.
Open Scope string_scope.
Open Scope nat_scope.

Lemma contains_occurs sub s : contains sub s = true <-> occurs_in sub s.
Proof. exact (contains_spec sub s). Qed.
Lemma app_assoc_s (a b c : string) : ((a ++ b) ++ c = a ++ (b ++ c))%string.
Proof. induction a as [|x a IH]; cbn; [reflexivity|]. now rewrite IH. Qed.
Lemma occ (pre sub post scope s : string) : s = (scope ++ (pre ++ sub ++ post))%string -> occurs_in sub s.
Proof. intros ->. exists (scope ++ pre)%string, post. now rewrite app_assoc_s. Qed.
Section node_ind.
  Variable P : node -> Prop.
  Hypothesis Hg : forall ch, Forall P ch -> P (NGraph ch).
  Hypothesis Hs : forall m, (forall ch, m = Some ch -> Forall P ch) -> P (NSubclassed m).
  Hypothesis Hw : forall k n a b, P (NWrap k n a b).
  Hypothesis Hl : forall i, P (NLayer i).
  Hypothesis Ht : forall i, P (NThing i).
  Fixpoint node_ind' (n : node) : P n :=
    match n with
    | NGraph ch => Hg ch ((fix go l : Forall P l := match l with [] => Forall_nil P | a :: r => Forall_cons a (node_ind' a) (go r) end) ch)
    | NSubclassed None => Hs None (fun ch E => match E with end)
    | NSubclassed (Some ch) => Hs (Some ch) (fun c E => match E in _ = o return match o with Some c => Forall P c | None => True end with eq_refl => (fix go l : Forall P l := match l with [] => Forall_nil P | a :: r => Forall_cons a (node_ind' a) (go r) end) ch end)
    | NWrap k n a b => Hw k n a b
    | NLayer i => Hl i
    | NThing i => Ht i
    end.
End node_ind.
Lemma strip_graph ch : strip_ops (NGraph ch) = do ch' <- mapM strip_ops ch ;; Ok (NGraph ch').
Proof.
  cbn [strip_ops]. f_equal. induction ch as [|a r IH]; [reflexivity|]. cbn [mapM]. destruct (strip_ops a); cbn [bind]; [|reflexivity]. now rewrite IH.
Qed.
Lemma removed_filter (f : cvariable -> bool) P l : (forall v, In v l -> (f v = false <-> P v)) -> removed P l (filter f l).
Proof.
  induction l as [|v l IH]; intros H; [constructor|]. cbn [filter]. assert (H' : removed P l (filter f l)) by (apply IH; intros u I; apply H; now right).
  pose proof (H v (or_introl eq_refl)) as E. destruct (f v).
  - apply rm_keep; [intros p; apply E in p; discriminate|exact H'].
  - apply rm_drop; [now apply E|exact H'].
Qed.
Lemma usual_strips n : usual n -> exists n', strip_ops n = Ok n' /\ stripped n n'.
Proof.
  induction n using node_ind'; intros U; inversion U; subst.
  - assert (E : exists ch', mapM strip_ops ch = Ok ch' /\ Forall2 stripped ch ch').
    { clear U. induction ch as [|a ch IH]; [exists []; split; [reflexivity|constructor]|]. inversion H; subst. inversion H1; subst. destruct (H3 H5) as (a' & Ea & Sa). destruct (IH H4 H6) as (ch' & Ec & Sc).
      exists (a' :: ch'). cbn [mapM]. rewrite Ea. cbn [bind]. rewrite Ec. split; [reflexivity|now constructor]. }
    destruct E as (ch' & E & F). exists (NGraph ch'). rewrite strip_graph, E. split; [reflexivity|now constructor].
  - rename a into tw, b into ntw. match goal with H : ~ occurs_in "depthwise" _ |- _ => rename H into ND end.
    match goal with H : as_added _ _ |- _ => destruct H as (At & An) end. match goal with H : plain_names tw |- _ => rename H into Pt end. match goal with H : plain_names ntw |- _ => rename H into Pn end.
    cbn [strip_ops]. unfold strip_vars. destruct (contains "depthwise" n) eqn:D; [apply contains_occurs in D; contradiction|].
    assert (R1 : removed clustering_variable tw (filter (fun v => negb (contains "cluster_centroids_tf" (v_name v) || contains "ori_weights_vars_tf" (v_name v))) tw)).
    { apply removed_filter. intros v I. rewrite negb_false_iff, orb_true_iff, !contains_occurs. split.
      - intros M. destruct (Pt v I) as [C|N]; [exact C|]. exfalso. apply N. unfold marker. tauto.
      - intros (scope & [E|[E|E]]).
        + left. apply (occ "/" "cluster_centroids_tf" ":0" scope _ E).
        + right. apply (occ "/" "ori_weights_vars_tf" ":0" scope _ E).
        + exfalso. apply (At v I). exists scope, "". rewrite E. reflexivity. }
    assert (R2 : removed clustering_variable ntw (filter (fun v => negb (contains "pulling_indices_tf" (v_name v))) ntw)).
    { apply removed_filter. intros v I. rewrite negb_false_iff, !contains_occurs. split.
      - intros M. destruct (Pn v I) as [C|N]; [exact C|]. exfalso. apply N. unfold marker. tauto.
      - intros (scope & [E|[E|E]]).
        + exfalso. apply (proj1 (An v I)). apply (occ "/" "cluster_centroids_tf" ":0" scope _ E).
        + exfalso. apply (proj2 (An v I)). apply (occ "/" "ori_weights_vars_tf" ":0" scope _ E).
        + apply (occ "/" "pulling_indices_tf" ":0" scope _ E). }
    destruct k; eexists; (split; [reflexivity|]).
    + apply st_wrap; [discriminate|exact R1|exact R2].
    + apply st_wrap; [discriminate|exact R1|exact R2].
    + apply st_other.
  - exists (NLayer i). split; [reflexivity|constructor].
  - exists (NThing i). split; [reflexivity|constructor].
Qed.
Theorem strip_usual n : usual n -> (forall i, n <> NThing i) -> exists n', strip_clustering_cqat n = Ok n' /\ stripped n n'.
Proof. intros U N. destruct n; try exact (usual_strips _ U); [inversion U|]. exfalso. now apply (N id). Qed.
Theorem strip_subclassed ch : Forall usual ch -> exists ch', strip_clustering_cqat (NSubclassed (Some ch)) = Ok (NGraph ch') /\ Forall2 stripped ch ch'.
Proof.
  intros U. destruct (usual_strips (NGraph ch) (us_graph ch U)) as (n' & E & S1). rewrite strip_graph in E. inversion S1; subst. exists ch'. cbn [strip_clustering_cqat].
  destruct (mapM strip_ops ch) as [x|]; cbn [bind] in *; [|discriminate]. injection E as ->. split; [reflexivity|assumption].
Qed.
(** A removed list has no clustering variable left and keeps every other one, in order. *)
Lemma removed_none P l l' : removed P l l' -> forall v, In v l' -> ~ P v /\ In v l.
Proof. induction 1; intros u I; [destruct I| |]; cbn [In] in *; [destruct (IHremoved u I); auto|]. destruct I as [<-|I]; [auto|]. destruct (IHremoved u I). auto. Qed.
Lemma removed_all P l l' : removed P l l' -> forall v, In v l -> ~ P v -> In v l'.
Proof. induction 1; intros u I N; [destruct I| |]; cbn [In] in *; destruct I as [<-|I]; auto; contradiction. Qed.
(** The argument of the call is changed in the same way. *)
Theorem strip_in_place n n' : usual n -> strip_clustering_cqat n = Ok n' -> strip_effect n = n'.
Proof.
  intros U E. assert (K : forall n, usual n -> forall n', strip_ops n = Ok n' -> strip_effect n = n').
  { clear. intros n. induction n using node_ind'; intros U n' E; inversion U; subst.
    - rewrite strip_graph in E. destruct (mapM strip_ops ch) as [c|] eqn:M; cbn [bind] in E; [|discriminate]. injection E as <-. cbn [strip_effect]. f_equal. clear U. revert c M.
      induction ch as [|a ch IH]; intros c M; cbn [mapM] in M; [injection M as <-; reflexivity|]. inversion H; subst. inversion H1; subst. destruct (strip_ops a) as [a'|] eqn:Ea; cbn [bind] in M; [|discriminate].
      destruct (mapM strip_ops ch) as [r|] eqn:Er; cbn [bind] in M; [|discriminate]. injection M as <-. cbn [map]. f_equal; [now apply H3|]. now apply IH.
    - cbn [strip_ops] in E. cbn [strip_effect]. destruct (strip_vars k n a b) as [x y]. injection E as <-. reflexivity.
    - injection E as <-. reflexivity.
    - injection E as <-. reflexivity. }
  destruct n; try (apply K; assumption); [inversion U|discriminate].
Qed.
(** * Behaviour *)
Theorem stripped_inference k df flag v y v' : cp_call k df flag false v = Ok (y, v') ->
  cp_call k df false false (plain_qat v) = Ok (y, plain_qat v').
Proof.
  unfold cp_call, plain_qat. cbn [cp_kernel cp_range cp_smask cp_cluster bind]. destruct (call (base_quantizer k) false (cp_range v) (cp_kernel v)) as [[y1 r]|e]; cbn [bind]; [|discriminate].
  now intros [= <- <-].
Qed.
(** Training passes recompute the kernel from the clustering variables: with these fixed, the kernel is fixed. *)
Lemma train_kernel k df v w r y v' y2 v2 c : cp_cluster v = Some c -> cp_call k df false true v = Ok (y, v') ->
  forall c', cc_cents c' = cc_cents c -> cc_orig c' = cc_orig c -> cp_call k df false true (mkCPV w (cp_smask v) (Some c') r) = Ok (y2, v2) ->
  cp_kernel v2 = cp_kernel v' /\ exists c2, cp_cluster v2 = Some c2 /\ cc_cents c2 = cc_cents c /\ cc_orig c2 = cc_orig c /\ cp_smask v2 = cp_smask v.
Proof.
  intros Ec C c' E1 E2 C2. unfold cp_call in C, C2. rewrite Ec in C. cbn [bind cp_cluster cp_smask cp_range cc_cents cc_orig cc_idx] in C, C2. rewrite E1, E2 in C2.
  destruct (pull df (cc_cents c) (cc_orig c)) as [p|] eqn:Ep; cbn [bind] in C, C2; [|discriminate].
  destruct (negb (same_shape p (cc_idx c))); [discriminate|]. destruct (negb (same_shape p (cc_idx c'))); [discriminate|].
  destruct (clustered df (cc_cents c) p (cc_orig c)) as [out|] eqn:Eo; cbn [bind cp_range] in C, C2; [|discriminate].
  destruct (call (base_quantizer k) true (cp_range v) out) as [[? ?]|]; cbn [bind] in C; [|discriminate].
  destruct (call (base_quantizer k) true r out) as [[? ?]|]; cbn [bind] in C2; [|discriminate].
  injection C as <- <-. injection C2 as <- <-. cbn [cp_kernel cp_cluster]. split; [reflexivity|]. eexists. split; [reflexivity|]. now rewrite <- E1, <- E2.
Qed.
Theorem stripped_training k df v y v' evs v1 : cp_cluster v <> None -> cp_call k df false true v = Ok (y, v') -> s_run k df false v' evs = Ok v1 ->
  forall y2 v2, cp_call k df false true v1 = Ok (y2, v2) -> cp_kernel v2 = cp_kernel v'.
Proof.
  intros N C R. destruct (cp_cluster v) as [c|] eqn:Ec; [|congruence]. clear N.
  assert (I0 : exists c', cp_cluster v' = Some c' /\ cc_cents c' = cc_cents c /\ cc_orig c' = cc_orig c /\ cp_smask v' = cp_smask v).
  { destruct (train_kernel k df v (cp_kernel v) (cp_range v) y v' y v' c Ec C c eq_refl eq_refl) as (_ & X); [|exact X].
    destruct v as [kn sm cl rg]. cbn [cp_kernel cp_smask cp_range cp_cluster] in *. subst cl. exact C. }
  assert (K : forall evs va, (exists c', cp_cluster va = Some c' /\ cc_cents c' = cc_cents c /\ cc_orig c' = cc_orig c /\ cp_smask va = cp_smask v) -> forall vb, s_run k df false va evs = Ok vb ->
    exists c', cp_cluster vb = Some c' /\ cc_cents c' = cc_cents c /\ cc_orig c' = cc_orig c /\ cp_smask vb = cp_smask v).
  { clear R I0 evs. intros evs. induction evs as [|e evs IH]; intros va Hva vb R; [injection R as <-; exact Hva|]. cbn [s_run] in R. destruct (s_step k df false va e) as [vm|] eqn:Es; cbn [bind] in R; [|discriminate].
    apply (IH vm); [|exact R]. destruct e as [tr|w]; cbn [s_step] in Es.
    - destruct (cp_call k df false tr va) as [[y' v'']|] eqn:Ea; cbn [bind] in Es; [|discriminate]. injection Es as <-. destruct Hva as (c' & H1 & H2 & H3 & H4). destruct tr.
      + destruct va as [kn sm cl rg]. cbn [cp_cluster cp_smask] in *. subst cl sm. destruct (train_kernel k df v kn rg y v' y' v'' c Ec C c' H2 H3 Ea) as (_ & X). exact X.
      + unfold cp_call in Ea. cbn [bind] in Ea. destruct (call (base_quantizer k) false (cp_range va) (cp_kernel va)) as [[? ?]|]; cbn [bind] in Ea; [|discriminate]. injection Ea as <- <-. cbn. eauto.
    - injection Es as <-. cbn. exact Hva. }
  intros y2 v2 C2. destruct (K evs v' I0 v1 R) as (c' & H1 & H2 & H3 & H4). destruct v1 as [kn sm cl rg]. cbn [cp_cluster cp_smask] in *. subst cl sm.
  exact (proj1 (train_kernel k df v kn rg y v' y2 v2 c Ec C c' H2 H3 C2)).
Qed.
