(** strip_clustering (C30), argument validation (C31), config (C32), failures (C77-C80). *)
From Coq Require Import String.
From Verif Require Import Base M_Tensor M_Num M_Stages M_Cluster M_ClusterWrapper S_Cluster S_ClusterWrapper L_Num L_Tensor L_Stages L_Cluster L_Cluster2 L_Cluster3 L_Cluster4 L_Cluster5 L_Cluster6 L_Cluster7.
Open Scope Q_scope.
Notation length := List.length.

(** ** strip *)
Definition isin (l : list nat) (v : nat) : bool := existsb (Nat.eqb v) l.
Lemma isin_iff l v : isin l v = true <-> In v l.
Proof. unfold isin. rewrite existsb_exists. split; [intros (x & H & E); apply Nat.eqb_eq in E; now subst|]. intros H. exists v. split; [exact H|apply Nat.eqb_refl]. Qed.
Lemma filter_none {A} (f : A -> bool) l : (forall a, In a l -> f a = false) -> filter f l = [].
Proof. induction l as [|a l IH]; intros H; cbn; [reflexivity|]. rewrite H by now left. apply IH. intros; apply H; now right. Qed.
Lemma filter_ext_in' {A} (f g : A -> bool) l : (forall a, In a l -> f a = g a) -> filter f l = filter g l.
Proof. apply filter_ext_in. Qed.
Lemma insert_exact {A} (a b : list A) x : insert_at (length a) x (a ++ b) = (a ++ x :: b)%list.
Proof.
  unfold insert_at. rewrite firstn_app, Nat.sub_diag, firstn_all, firstn_O, app_nil_r. rewrite skipn_app, Nat.sub_diag, skipn_all. reflexivity.
Qed.
(** Splitting a filtered list at one of its elements. *)
Lemma filter_split (f : nat -> bool) names C1 v C2 : NoDup names -> filter f names = (C1 ++ v :: C2)%list -> exists A B, names = (A ++ v :: B)%list /\ filter f A = C1 /\ filter f B = C2.
Proof.
  revert C1. induction names as [|a names IH]; intros C1 Nd E; [destruct C1; discriminate|]. inversion Nd; subst. cbn in E. destruct (f a) eqn:Fa.
  - destruct C1 as [|c C1]; cbn in E; injection E as E1 E2.
    + subst a. exists [], names. auto.
    + subst c. destruct (IH C1 H2 E2) as (A & B & -> & EA & EB). exists (a :: A), B. cbn. rewrite Fa, EA. auto.
  - destruct (IH C1 H2 E) as (A & B & -> & EA & EB). exists (a :: A), B. cbn. rewrite Fa. auto.
Qed.

Section Strip.
  Variables (names cl : list nat) (val : nat -> tensor Q).
  Hypothesis Nd : NoDup names.
  Hypothesis Ord : cl = filter (isin cl) names.
  Lemma strip_loop : forall C2 C1 vars, cl = (C1 ++ C2)%list -> Forall2 (fun v x => cv_attr x = Some (val v) /\ nth_error names (cv_pos x) = Some v) C2 vars ->
    insert_all (map val (filter (fun u => negb (isin C2 u)) names)) vars = Ok (map val names).
  Proof.
    induction C2 as [|v C2 IH]; intros C1 [|x vars'] E F; try (exfalso; inversion F; fail); cbn [insert_all].
    - rewrite filter_all by (intros; reflexivity). reflexivity.
    - inversion_clear F as [|? ? ? ? (Ha & Hp) F']. rewrite Ha. pose proof Ord as Ord'. rewrite E in Ord' at 1. symmetry in Ord'. destruct (filter_split _ _ _ _ _ Nd Ord') as (A & B & En & EA & EB).
      assert (NA : ~ In v A /\ ~ In v B). { rewrite En in Nd. apply NoDup_remove_2 in Nd. split; intros H; apply Nd, in_or_app; auto. }
      assert (Pv : cv_pos x = length A). { rewrite En in Hp. rewrite En in Nd.
        assert (Hl : nth_error (A ++ v :: B) (length A) = Some v) by (rewrite nth_error_app2, Nat.sub_diag by lia; reflexivity).
        apply (proj1 (NoDup_nth_error _) Nd); [apply nth_error_Some; congruence|congruence]. }
      assert (DA : forall u, In u A -> ~ In u (v :: C2)).
      { intros u Hu [<-|Hc]; [tauto|]. rewrite <- EB in Hc. apply filter_In in Hc. destruct Hc as [Hc _]. rewrite En in Nd. clear - Nd Hu Hc. induction A as [|a A IHA]; [destruct Hu|]. cbn in Nd. inversion Nd; subst.
        destruct Hu as [->|Hu]; [apply H1, in_or_app; right; now right|]. now apply IHA. }
      assert (F1 : filter (fun u => negb (isin (v :: C2) u)) names = (A ++ filter (fun u => negb (isin (v :: C2) u)) B)%list).
      { rewrite En, filter_app. cbn [filter]. replace (isin (v :: C2) v) with true by (symmetry; apply isin_iff; now left). cbn [negb]. f_equal. apply filter_all. intros u Hu. apply Bool.negb_true_iff. destruct (isin (v :: C2) u) eqn:Ei; [|reflexivity]. apply isin_iff in Ei. exfalso. eapply DA; eassumption. }
      rewrite F1, map_app. rewrite Pv. replace (length A) with (length (map val A)) by apply map_length. rewrite insert_exact.
      rewrite <- (IH (C1 ++ [v])%list vars'); [|rewrite <- app_assoc; exact E|exact F']. f_equal.
      rewrite En, filter_app. cbn [filter]. replace (isin C2 v) with false.
      2:{ symmetry. destruct (isin C2 v) eqn:Ei; [|reflexivity]. apply isin_iff in Ei. rewrite <- EB in Ei. apply filter_In in Ei. tauto. }
      cbn [negb]. rewrite map_app. cbn [map]. f_equal; [|f_equal].
      + f_equal. symmetry. apply filter_all. intros u Hu. apply Bool.negb_true_iff. destruct (isin C2 u) eqn:Ei; [|reflexivity]. apply isin_iff in Ei. exfalso. eapply DA; [exact Hu|now right].
      + f_equal. apply filter_ext_in. intros u Hu. f_equal. cbn. destruct (Nat.eqb_spec u v) as [->|]; [tauto|reflexivity].
  Qed.
End Strip.

Lemma find_name l v x (vars : list cvar) : Forall2 (fun u y => cv_name y = u) l vars -> NoDup l -> forall i, nth_error l i = Some v -> nth_error vars i = Some x -> find (fun y => Nat.eqb (cv_name y) v) vars = Some x.
Proof.
  induction 1 as [|u y l vars E F IH]; intros Nd i Hv Hx; [destruct i; discriminate|]. inversion Nd; subst. cbn [find]. destruct i as [|i]; cbn in Hv, Hx.
  - injection Hx as <-. injection Hv as <-. now rewrite Nat.eqb_refl.
  - destruct (Nat.eqb_spec (cv_name y) v) as [Ev|Ne]; [exfalso; apply H1; rewrite Ev; eapply nth_error_In; eassumption|]. eapply IH; eassumption.
Qed.
Lemma find_name_none (vars : list cvar) l v : Forall2 (fun u y => cv_name y = u) l vars -> ~ In v l -> find (fun y => Nat.eqb (cv_name y) v) vars = None.
Proof.
  induction 1 as [|u y l vars E F IH]; intros Ni; [reflexivity|]. cbn [find]. destruct (Nat.eqb_spec (cv_name y) v) as [Ev|Ne]; [exfalso; apply Ni; left; congruence|]. apply IH. intros H. apply Ni. now right.
Qed.
Lemma find_rest (rest : list (nat * tensor Q)) v t : NoDup (map fst rest) -> In (v, t) rest -> find (fun p => Nat.eqb (fst p) v) rest = Some (v, t).
Proof.
  induction rest as [|(u, s) rest IH]; intros Nd H; [destruct H|]. cbn in Nd. inversion Nd; subst. cbn [find fst]. destruct H as [[= -> ->]|H]; [now rewrite Nat.eqb_refl|].
  destruct (Nat.eqb_spec u v) as [->|]; [exfalso; apply H2, in_map_iff; exists (v, t); auto|]. now apply IH.
Qed.
Lemma map_filter_fst (f : nat -> bool) (l : list (nat * tensor Q)) : map fst (filter (fun p => f (fst p)) l) = filter f (map fst l).
Proof. induction l as [|(u, t) l IH]; [reflexivity|]. cbn. destruct (f u); cbn; now rewrite IH. Qed.

Lemma nth_Forall2 {A B} (R : A -> B -> Prop) : forall l m, length l = length m -> (forall i a b, nth_error l i = Some a -> nth_error m i = Some b -> R a b) -> Forall2 R l m.
Proof.
  induction l as [|a l IH]; intros [|b m] E H; try discriminate; constructor; [now apply (H 0%nat)|]. apply IH; [cbn in E; lia|]. intros i x y Hx Hy. now apply (H (S i)).
Qed.
Lemma strip_restores cfg l w0 evs : accepted cfg -> proper_layer l -> registered_in_order l -> build cfg l = Ok w0 -> Forall (fits w0) evs ->
  exists w1 w2 ws, run w0 evs = Ok w1 /\ step w1 Forward = Ok w2 /\ strip w1 = Ok ws /\ map Some ws = map (effective_value w2) (map fst (l_weights l)).
Proof.
  intros Ac Pl Ord H F. destruct (build_built cfg l w0 Ac Pl H) as (E1 & E2 & E3). destruct (history_full cfg l w0 evs Ac Pl H F) as (w1 & w2 & H1 & H2 & Er & Er0 & Ln & Hv).
  destruct Pl as (P1 & P2 & P3 & P4). pose proof H2 as H2'. cbn [step] in H2'. exists w1, w2.
  set (val := fun v => match effective_value w2 v with Some t => t | None => mkT [] [] end).
  assert (Fn : Forall2 (fun u y => cv_name y = u) (l_clusterable l) (cw_vars w2)).
  { apply nth_Forall2; [now rewrite Ln|]. intros i v x2 Hi Hx. destruct (Hv i v Hi) as (t0 & x1 & x2' & _ & _ & Hx2 & Hn & _). congruence. }
  assert (Nr : map fst (cw_rest w2) = filter (fun u => negb (isin (l_clusterable l) u)) (map fst (l_weights l))).
  { rewrite Er, Er0, E3. apply (map_filter_fst (fun u => negb (isin (l_clusterable l) u))). }
  assert (NdR : NoDup (map fst (cw_rest w2))) by (rewrite Nr; now apply NoDup_filter).
  assert (Fv : Forall2 (fun v x => cv_attr x = Some (val v) /\ nth_error (map fst (l_weights l)) (cv_pos x) = Some v) (l_clusterable l) (cw_vars w2)).
  { apply nth_Forall2; [now rewrite Ln|]. intros i v x2 Hi Hx. destruct (Hv i v Hi) as (t0 & x1 & x2' & _ & _ & Hx2 & Hn & Hp & _ & _ & _ & (t & Ht & _)). assert (x2' = x2) by congruence. subst x2'. split.
    - unfold val, effective_value. rewrite (find_name _ v x2 _ Fn P2 i Hi Hx), Ht. reflexivity.
    - rewrite nth_error_map, Hp. reflexivity. }
  assert (Vr : map snd (cw_rest w2) = map val (filter (fun u => negb (isin (l_clusterable l) u)) (map fst (l_weights l)))).
  { rewrite <- Nr, map_map. apply map_ext_in. intros (u, t) Hin. cbn [fst snd]. unfold val, effective_value. rewrite (find_name_none _ _ u Fn).
    - rewrite (find_rest _ u t NdR Hin). reflexivity.
    - assert (Hu : In u (map fst (cw_rest w2))) by (apply in_map_iff; exists (u, t); auto). rewrite Nr in Hu. apply filter_In in Hu. destruct Hu as [_ Hu]. apply Bool.negb_true_iff in Hu. intros Hc. apply isin_iff in Hc. congruence. }
  exists (map val (map fst (l_weights l))). split; [exact H1|]. split; [exact H2|]. split.
  - unfold strip. rewrite H2'. cbn [bind]. rewrite Vr. apply (strip_loop (map fst (l_weights l)) (l_clusterable l) val P1 Ord (l_clusterable l) [] (cw_vars w2) eq_refl Fv).
  - rewrite (map_map val). apply map_ext_in. intros v Hin. unfold val. destruct (effective_value w2 v) as [t|] eqn:Ev; [reflexivity|exfalso]. unfold effective_value in Ev.
    destruct (in_dec Nat.eq_dec v (l_clusterable l)) as [Ic|Nc].
    + apply In_nth_error in Ic. destruct Ic as [i Hi]. destruct (Hv i v Hi) as (t0 & x1 & x2 & _ & _ & Hx2 & _ & _ & _ & _ & _ & (t & Ht & _)). rewrite (find_name _ v x2 _ Fn P2 i Hi Hx2), Ht in Ev. discriminate.
    + rewrite (find_name_none _ _ v Fn Nc) in Ev. assert (Hu : In v (map fst (cw_rest w2))). { rewrite Nr. apply filter_In. split; [exact Hin|]. apply Bool.negb_true_iff. destruct (isin _ v) eqn:Ei; [|reflexivity]. apply isin_iff in Ei. contradiction. }
      apply in_map_iff in Hu. destruct Hu as ((u, t) & Eu & Hu). cbn in Eu. subst u. rewrite (find_rest _ v t NdR Hu) in Ev. discriminate.
Qed.

(** ** Argument validation *)
Lemma construct_spec cls (conv sup : bool) n (s pc : bool) :
  (forall z, valid_count n s z -> sup = true -> construct cls conv sup n s pc = Ok (Wrap cls z s (conv && pc))) /\
  ((sup = false \/ forall z, ~ valid_count n s z) -> construct cls conv sup n s pc = Err ValueError).
Proof.
  unfold construct, valid_count. split.
  - intros z [-> L] ->. cbn [negb]. destruct (Z.leb_spec z (if s then 2 else 1)); [destruct s; lia|]. destruct conv; reflexivity.
  - intros [->|H]; [reflexivity|]. destruct sup; [|reflexivity]. cbn [negb]. destruct n as [z| |]; try reflexivity. destruct (Z.leb_spec z (if s then 2 else 1)); [reflexivity|]. exfalso. apply (H z). split; [reflexivity|]. destruct s; lia.
Qed.
Lemma conv_no_bias_last (sup : bool) kernel n (s : bool) : (0 < kernel)%nat -> (1 <= n)%Z -> add_clustering_wrapper (Conv sup kernel [kernel] ChannelsLast) (PInt n) s true = Ok AsIs.
Proof.
  intros K N. cbn. assert (P : 0 < inject_Z (Z.of_nat kernel)) by (apply inject_pos; lia).
  assert (E : Qle_bool (inject_Z (Z.of_nat kernel) / inject_Z (Z.of_nat kernel)) (inject_Z n) = true).
  { apply Qle_bool_iff. setoid_replace (inject_Z (Z.of_nat kernel) / inject_Z (Z.of_nat kernel)) with (inject_Z 1) by (field; lra). now apply inj_le. }
  rewrite E. reflexivity.
Qed.
Lemma conv_bias (sup : bool) kernel channels df n (s pc : bool) : (0 < channels)%nat ->
  let units := if pc then inject_Z (Z.of_nat kernel) / inject_Z (Z.of_nat channels) else inject_Z (Z.of_nat kernel) in
  (units <= inject_Z n -> add_clustering_wrapper (Conv sup kernel [kernel; channels] df) (PInt n) s pc = Ok AsIs) /\
  (inject_Z n < units -> add_clustering_wrapper (Conv sup kernel [kernel; channels] df) (PInt n) s pc = construct ClusterWeights true sup (PInt n) s pc).
Proof.
  intros C units. unfold units. split; intros H; destruct df; cbn [add_clustering_wrapper has_enough nth_error last bind le_pynum].
  1-2: rewrite (proj2 (Qle_bool_iff _ _) H); reflexivity.
  1-2: rewrite (proj2 (Qle_bool_false _ _) H); reflexivity.
Qed.

(** ** Config *)
Lemma config_roundtrip w : constructible w -> from_config (ws_class w) (get_config w) = Ok w.
Proof.
  destruct w as [c n i s a p cv nm ly]. intros [Hn Hp]. unfold from_config, get_config, dict_pop. cbn -[init_of_value construct String.eqb init_value]. cbn in Hn, Hp.
  cbn [String.eqb Ascii.eqb Bool.eqb negb find filter fst].
  cbn -[init_of_value construct init_value]. assert (Ei : init_of_value (init_value i) = Ok i) by (destruct i; reflexivity). rewrite Ei. cbn -[construct].
  destruct (construct_spec c cv true (PInt n) s p) as [C _]. rewrite (C n); [|split; [reflexivity|exact Hn]|reflexivity]. cbn. destruct cv; [reflexivity|]. rewrite (Hp eq_refl). reflexivity.
Qed.

(** ** MHA *)
Lemma get_set_same l k v : get_attr (set_attr l k v) k = Ok v.
Proof. unfold get_attr, set_attr. cbn. now rewrite String.eqb_refl. Qed.
Lemma get_set_other l k k' v : k <> k' -> get_attr (set_attr l k' v) k = get_attr l k.
Proof.
  intros N. unfold get_attr, set_attr. cbn. destruct (String.eqb_spec k k') as [|_]; [contradiction|]. f_equal. induction l as [|(u, x) l IH]; [reflexivity|]. cbn.
  destruct (String.eqb_spec k' u) as [->|Nu]; cbn.
  - destruct (String.eqb_spec k u); [congruence|]. exact IH.
  - destruct (String.eqb k u); [reflexivity|]. exact IH.
Qed.
Lemma mha_update_get (cw : list (string * tensor Q)) : forall m k t, NoDup (map fst cw) -> In (k, t) cw -> get_attr (m_sub (mha_update m cw)) k = Ok (Tens t).
Proof.
  induction cw as [|(k0, t0) cw IH]; intros m k t Nd H; [destruct H|]. cbn in Nd. inversion Nd; subst. unfold mha_update. cbn [fold_left fst snd]. fold (mha_update (mkMha (set_attr (m_sub m) k0 (Tens t0)) (m_own m)) cw).
  destruct H as [[= -> ->]|H]; [|now apply IH]. clear IH Nd.
  assert (G : forall cw m, ~ In k (map fst cw) -> get_attr (m_sub (mha_update m cw)) k = get_attr (m_sub m) k).
  { clear. induction cw as [|(k1, t1) cw IH]; intros m Ni; [reflexivity|]. unfold mha_update. cbn [fold_left fst snd]. fold (mha_update (mkMha (set_attr (m_sub m) k1 (Tens t1)) (m_own m)) cw).
    rewrite IH by (intros Hi; apply Ni; now right). cbn [m_sub]. apply get_set_other. intros ->. apply Ni. now left. }
  rewrite G by assumption. cbn [m_sub]. apply get_set_same.
Qed.
Lemma mha_strip_sub originals : forall st m st' m', mha_strip st m originals = Ok (st', m') -> m_sub m' = m_sub m.
Proof.
  induction originals as [|(k, v) r IH]; intros st m st' m' H; cbn in H; [now injection H as <- <-|]. destruct (get_attr (m_sub m) k); [|discriminate]. cbn [bind] in H. apply IH in H. exact H.
Qed.
Lemma mha_strip_ok originals : forall st m, (forall k v, In (k, v) originals -> exists a, get_attr (m_sub m) k = Ok a) -> exists st' m', mha_strip st m originals = Ok (st', m').
Proof.
  induction originals as [|(k, v) r IH]; intros st m H; cbn [mha_strip]; [eauto|]. destruct (H k v (or_introl eq_refl)) as [a ->]. cbn [bind]. apply IH. cbn [m_sub]. intros k' v' Hi. apply (H k' v'). now right.
Qed.

(** ** Ragged centroids *)
Lemma slice_In df (w : tensor Q) a b h o c x : shape w = [a; b; h; o] -> (c < nchan df b o)%nat -> In x (data (the_slice 0 df w a b h o c)) <-> exists idx, valid (shape w) idx /\ slice_of df idx = c /\ tget 0 w idx = x.
Proof.
  intros E Hc. pose (p := mkT [a; b; h; o] ([] : list nat)). pose proof (slice_members df p a b h o c 0 eq_refl Hc) as [_ M].
  assert (Z : forall idx, tget 0%nat p idx = 0%nat) by (intros idx; unfold tget, p; cbn [data]; now destruct (ravel _ _)).
  rewrite slice_data, in_map_iff. split.
  - intros (idx & <- & Hi). exists idx. assert (G : In idx (filter (fun idx => Nat.eqb (tget 0%nat p idx) 0) (map (fun n => match unravel (sdims df a b h o) n with [i; j; k] => kidx df c i j k | _ => [] end) (seq 0 (prod (sdims df a b h o)))))).
    { apply filter_In. split; [exact Hi|]. now rewrite Z. }
    apply M in G. rewrite E. cbn [p shape] in G. tauto.
  - intros (idx & V & S0 & <-). exists idx. split; [reflexivity|]. rewrite E in V. assert (G := proj2 (M idx) (conj V (conj S0 (Z idx)))). apply filter_In in G. tauto.
Qed.
Lemma ragged_fails init n df w a b h o c1 c2 : sound_initialiser init -> (3 <= n)%Z -> shape w = [a; b; h; o] -> (c1 < nchan df b o)%nat ->
  (forall idx, valid (shape w) idx -> slice_of df idx = c1 -> tget 0 w idx == 0) ->
  (exists idx, valid (shape w) idx /\ slice_of df idx = c2 /\ ~ tget 0 w idx == 0) ->
  forall cs, get_cluster_centroids init n true true df w <> Ok cs.
Proof.
  intros Si Hn E H1 Z1 (idx & V & S2 & NZ) cs H. unfold get_cluster_centroids in H. apply per_channel_rows in H. destruct H as (rows & a' & b' & h' & o' & -> & E' & Hc & Lr & Hf & Eq).
  rewrite E in E'. injection E' as <- <- <- <-. assert (H2 : (c2 < nchan df b o)%nat) by (rewrite <- S2; apply (slice_lt df a b h o); now rewrite <- E).
  pose proof (Hf c1 H1) as F1. pose proof (Hf c2 H2) as F2.
  rewrite zero_init_all_zero in F1. 2:{ intros x Hx. apply (slice_In df w a b h o c1 x E H1) in Hx. destruct Hx as (i & Vi & Si1 & <-). now apply Z1. }
  injection F1 as F1. apply zero_init_spec in F2; auto. 2:{ exists (tget 0 w idx). split; [|exact NZ]. apply (slice_In df w a b h o c2 _ E H2). exists idx. auto. }
  destruct F2 as (nc & pc & _ & L & _). assert (L1 : length (nth c1 rows []) = length (nth c2 rows [])) by (apply Eq; apply nth_In; lia). rewrite <- F1 in L1. cbn in L1. lia.
Qed.

Lemma mha_strip_store originals : forall st m st' m', mha_strip st m originals = Ok (st', m') -> NoDup (map snd originals) ->
  (forall k v, In (k, v) originals -> exists t, get_attr (m_sub m) k = Ok (Tens t)) ->
  (forall k v t, In (k, v) originals -> get_attr (m_sub m) k = Ok (Tens t) -> st' v = t) /\ forall u, ~ In u (map snd originals) -> st' u = st u.
Proof.
  induction originals as [|(k, v) r IH]; intros st m st' m' H Nd Ht; cbn [mha_strip] in H.
  - injection H as <- <-. split; [intros k v t []|reflexivity].
  - destruct (Ht k v (or_introl eq_refl)) as [t Et]. rewrite Et in H. cbn [bind read] in H. inversion Nd as [|? ? Nv Nr]; subst.
    destruct (IH _ _ _ _ H Nr) as [A B].
    { intros k' v' Hi. cbn [m_sub]. apply (Ht k' v'). now right. }
    cbn [m_sub] in A. split.
    + intros k' v' t' [[= <- <-]|Hi] E'.
      * rewrite (B v Nv), Nat.eqb_refl. congruence.
      * exact (A k' v' t' Hi E').
    + intros u Nu. cbn [map snd In] in Nu. rewrite B by tauto. destruct (Nat.eqb_spec u v); [subst; tauto|reflexivity].
Qed.
Lemma conv_other (sup : bool) kernel channels df n (s pc : bool) : (0 < channels)%nat -> (forall z, n <> PInt z) ->
  let units := if pc then inject_Z (Z.of_nat kernel) / inject_Z (Z.of_nat channels) else inject_Z (Z.of_nat kernel) in
  (forall q, n = PFloat q -> units <= q -> add_clustering_wrapper (Conv sup kernel [kernel; channels] df) n s pc = Ok AsIs) /\
  (forall q, n = PFloat q -> q < units -> add_clustering_wrapper (Conv sup kernel [kernel; channels] df) n s pc = Err ValueError) /\
  (n = POther -> add_clustering_wrapper (Conv sup kernel [kernel; channels] df) n s pc = Err TypeError).
Proof.
  intros C NI units. unfold units. split; [|split].
  - intros q -> H. destruct df; cbn [add_clustering_wrapper has_enough nth_error last bind le_pynum]; rewrite (proj2 (Qle_bool_iff _ _) H); reflexivity.
  - intros q -> H. assert (B : Qle_bool (if pc then inject_Z (Z.of_nat kernel) / inject_Z (Z.of_nat channels) else inject_Z (Z.of_nat kernel)) q = false).
    { destruct (Qle_bool _ q) eqn:E; [|reflexivity]. apply Qle_bool_iff in E. exfalso. apply (Qlt_not_le _ _ H E). }
    destruct df; cbn [add_clustering_wrapper has_enough nth_error last bind le_pynum]; rewrite B; cbn [negb bind construct]; destruct sup; reflexivity.
  - intros ->. destruct df; reflexivity.
Qed.
