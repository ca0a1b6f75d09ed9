(** Histories and stripping of an RNN wrapper (C129, C130). *)
From Coq Require Import String Ascii.
From Verif Require Import Base M_Tensor M_Num M_Stages M_Cluster M_ClusterWrapper M_Compat M_ClusterRnn S_Cluster S_ClusterWrapper S_ClusterRnn L_Num L_Tensor L_Stages L_Cluster L_Cluster2 L_Cluster3 L_Cluster4 L_Cluster5 L_Cluster6 L_Cluster7 L_Cluster8 L_Cluster9 L_Compat L_ClusterRnn L_ClusterRnn2.
Open Scope string_scope.
Open Scope list_scope.
Open Scope nat_scope.
Notation length := List.length.

Definition val (w : cwrapper) (v : nat) : tensor Q := match effective_value w v with Some t => t | None => mkT [] [] end.
Lemma vals_of w kr0 : NoDup kr0 -> map cv_name (cw_vars w) = kr0 -> (forall x, In x (cw_vars w) -> exists t, cv_attr x = Some t) -> Forall2 (fun v x => cv_attr x = Some (val w v)) kr0 (cw_vars w).
Proof.
  intros Nd En Hs. apply nth_Forall2; [now rewrite <- En, map_length|]. intros i v x Hv Hx. destruct (Hs x (nth_error_In _ _ Hx)) as (t & Ht).
  assert (F : Forall2 (fun u y => cv_name y = u) kr0 (cw_vars w)) by (rewrite <- En; clear; induction (cw_vars w); constructor; auto).
  unfold val, effective_value. rewrite (find_name kr0 v x _ F Nd i Hv Hx). rewrite Ht. reflexivity.
Qed.
Lemma update_some cfg x x' : update_var cfg x = Ok x' -> exists t, cv_attr x' = Some t.
Proof.
  unfold update_var. destruct (cv_mask x); destruct (pull _ _ _) as [p|]; try discriminate; cbn [bind]; destruct (clustered _ _ _ _) as [c|]; try discriminate; cbn [bind]; intros [= <-]; eexists; reflexivity.
Qed.
Lemma forward_some w w' : step w Forward = Ok w' -> forall x, In x (cw_vars w') -> exists t, cv_attr x = Some t.
Proof.
  cbn. unfold update. destruct (mapM _ _) as [vs|] eqn:M; [|discriminate]. cbn [bind]. intros [= <-] x Hx. cbn in Hx. apply mapM_inv in M. destruct (Forall2_in_r _ _ _ M x Hx) as (y & _ & E). eapply update_some, E.
Qed.
Lemma wrel_names w0 w : wrel w0 w -> map cv_name (cw_vars w) = map cv_name (cw_vars w0).
Proof. intros (_ & F & _). induction F as [|x0 x l0 l1 (E & _) F IH]; [reflexivity|]. cbn. now rewrite E, IH. Qed.

Section Run.
  Variables (h : heap) (l : rlayer).
  Hypothesis KL : keras_layer h l.
  Let cells := get_rnn_cells h l.
  Variables (w0 : cwrapper).
  Hypothesis N0 : map cv_name (cw_vars w0) = kr h l.
  Hypothesis J0 : Forall (fun x0 => J (cw_cfg w0) (cv_orig x0) x0) (cw_vars w0).
  Lemma forward_sim h' w w' : sames h l h' -> wrel w0 w -> step w Forward = Ok w' -> wrel w0 w' ->
    exists h2, rnn_step (mkRW h' l (names h l) w) Forward = Ok (mkRW h2 l (names h l) w') /\ sames h l h2 /\
      (forall c, In c cells -> c_attrs (h2 c) = ("kernel", Tens (val w' (kvar h c))) :: ("recurrent_kernel", Tens (val w' (rvar h c))) :: rest_attrs h c).
  Proof.
    intros Sm R E R'. cbn [rnn_step]. unfold rnn_update. cbn [r_w r_heap r_layer r_names]. pose proof E as E'. cbn [step] in E'. rewrite E'. cbn [bind].
    assert (F : Forall2 (fun v x => cv_attr x = Some (val w' v)) (kr h l) (cw_vars w')) by (apply vals_of; [now apply kr_nodup|now rewrite (wrel_names w0 w' R')|now apply (forward_some w)]).
    destruct (set_all_cells h l KL (val w') cells (cw_vars w') h' (incl_refl _) (cells_distinct h l KL) Sm F) as (h2 & Eq & S2 & At & _).
    exists h2. split; [|split; [exact S2|exact At]]. unfold names. cbv zeta in Eq. fold cells. cbn [bind] in *. fold cells in Eq. now rewrite Eq.
  Qed.
  Lemma run_sim evs : Forall (fits w0) evs -> forall h' w w', sames h l h' -> wrel w0 w -> run w evs = Ok w' ->
    exists h2, rnn_run (mkRW h' l (names h l) w) evs = Ok (mkRW h2 l (names h l) w') /\ sames h l h2 /\ wrel w0 w'.
  Proof.
    induction 1 as [|e evs He Hevs IH]; intros h' w w' Sm R E; cbn [run rnn_run] in *; [injection E as <-; eauto|].
    destruct (step_ok w0 w e J0 R He) as (w1 & E1 & R1). rewrite E1 in E. cbn [bind] in E.
    destruct e as [|origs cents rest].
    - destruct (forward_sim h' w w1 Sm R E1 R1) as (h1 & -> & S1 & _). cbn [bind]. now apply IH.
    - cbn [rnn_step]. cbn [r_w r_heap r_layer r_names]. rewrite E1. cbn [bind]. now apply IH.
  Qed.
End Run.

(** ** Stripping *)
Lemma rnn_insert_sim s : forall ns vars acc, (forall n x, In (n, x) (combine ns vars) -> exists t, cv_attr x = Some t /\ get_weight_from_layer (r_heap s) (r_layer s) n = Ok (Tens t)) -> length ns = length vars ->
  rnn_insert s acc (combine ns vars) = insert_all acc vars.
Proof.
  induction ns as [|n ns IH]; intros [|x vars] acc H E; try discriminate; [reflexivity|]. cbn. destruct (H n x) as (t & Ht & ->); [now left|]. cbn. rewrite Ht. apply IH; [|cbn in E; lia]. intros; apply H; now right.
Qed.
Lemma fill_rows : forall (rows : list (list (string * tensor Q))), fill (map (map fst) rows) (List.concat (map (map snd) rows)) = Ok rows.
Proof.
  induction rows as [|r rows IH]; [reflexivity|]. cbn [map List.concat fill]. rewrite app_length, !map_length. destruct (Nat.ltb_spec (length r + length (List.concat (map (map snd) rows))) (length r)); [lia|].
  assert (E : skipn (length r) (map snd r ++ List.concat (map (map snd) rows)) = List.concat (map (map snd) rows)) by (rewrite skipn_app, skipn_all2, map_length, Nat.sub_diag by (rewrite map_length; lia); reflexivity).
  rewrite E, IH. cbn [bind]. f_equal. f_equal. clear. generalize (List.concat (map (map snd) rows)). induction r as [|(a, t) r IH]; intros ws; [reflexivity|]. cbn. now rewrite IH.
Qed.
Lemma F2_combine_in {A B} (P : A -> B -> Prop) : forall l m, Forall2 P l m -> forall a b, In (a, b) (combine l m) -> P a b.
Proof. induction 1; cbn; intros a b Hin; [destruct Hin|]. destruct Hin as [[= <- <-]|Hin]; auto. Qed.

Lemma kc_vars h c k r bias : keras_cell h c k r bias -> kvar h c = k /\ rvar h c = r /\ rest_attrs h c = map (fun b => ("bias", Var b)) bias.
Proof. intros (_ & _ & E). unfold kvar, rvar, rest_attrs. rewrite E. auto. Qed.

Section Strip.
  Variables (h : heap) (l : rlayer).
  Hypothesis KL : keras_layer h l.
  Let cells := get_rnn_cells h l.
  Variable w2 : cwrapper.
  Variable h2 : heap.
  Hypothesis S2 : sames h l h2.
  Hypothesis At : forall c, In c cells -> c_attrs (h2 c) = ("kernel", Tens (val w2 (kvar h c))) :: ("recurrent_kernel", Tens (val w2 (rvar h c))) :: rest_attrs h c.
  Hypothesis Nm : map cv_name (cw_vars w2) = kr h l.
  Hypothesis Sv : forall x, In x (cw_vars w2) -> exists t, cv_attr x = Some t.
  Hypothesis Rs : map fst (cw_rest w2) = filter (fun u => negb (isin (kr h l) u)) (layer_weights h l).
  Lemma leaf2 : leaf_cells h2 l = cells.
  Proof. transitivity (get_rnn_cells h2 l); [|exact (sames_cells h l KL h2 S2)]. destruct (kind h l KL) as [(b & d & ->)|(f & b & ->)]; reflexivity. Qed.
  Lemma rest_vars_only c : In c cells -> forall a x, In (a, x) (rest_attrs h c) -> exists v, x = Var v /\ In v (var_ids (rest_attrs h c)).
  Proof.
    intros Hc a x Hin. destruct (cell_form h l KL c Hc) as (_ & (bias & E) & _). rewrite E in *. apply in_map_iff in Hin. destruct Hin as (b & [= <- <-] & Hb). exists b. split; [reflexivity|]. unfold var_ids. apply in_flat_map. exists ("bias", Var b). split; [apply in_map_iff; eauto|now left].
  Qed.
  Lemma lw2 : layer_weights h2 l = map fst (cw_rest w2).
  Proof.
    rewrite Rs, (lw_eq h l KL). unfold layer_weights. rewrite leaf2. fold cells.
    assert (E : forall cs, incl cs cells -> flat_map (fun c => var_ids (c_attrs (h2 c))) cs = filter (fun u => negb (isin (kr h l) u)) (flat_map (fun c => kvar h c :: rvar h c :: var_ids (rest_attrs h c)) cs)).
    { induction cs as [|c cs IH]; intros Sub; [reflexivity|]. assert (Hc : In c cells) by (apply Sub; now left). cbn [flat_map]. rewrite filter_app, IH by (intros x Hx; apply Sub; now right). f_equal. rewrite (At c Hc).
      change (var_ids (("kernel", Tens (val w2 (kvar h c))) :: ("recurrent_kernel", Tens (val w2 (rvar h c))) :: rest_attrs h c)) with (var_ids (rest_attrs h c)). cbn [filter].
      assert (Kc : isin (kr h l) (kvar h c) = true) by (apply isin_iff; unfold kr; apply in_flat_map; exists c; split; [exact Hc|now left]).
      assert (Rc : isin (kr h l) (rvar h c) = true) by (apply isin_iff; unfold kr; apply in_flat_map; exists c; split; [exact Hc|right; now left]).
      rewrite Kc, Rc. cbn [negb]. symmetry. rewrite filter_all; [reflexivity|]. intros v Hv. apply Bool.negb_true_iff. destruct (isin (kr h l) v) eqn:Ei; [|reflexivity]. exfalso. apply isin_iff in Ei. eapply rest_not_kr; eassumption. }
    rewrite (E cells (incl_refl _)). apply nodup_fixed_point, NoDup_filter. unfold cells. rewrite <- (lw_eq h l KL). apply lw_nodup.
  Qed.
  Lemma vv_rest v : In v (map fst (cw_rest w2)) -> var_value w2 v = val w2 v.
  Proof.
    intros Hv. unfold var_value, val, effective_value. rewrite (find_name_none (cw_vars w2) (kr h l) v).
    - destruct (find _ (cw_rest w2)); reflexivity.
    - rewrite <- Nm. clear. induction (cw_vars w2); constructor; auto.
    - rewrite Rs in Hv. apply filter_In in Hv. destruct Hv as [_ Hv]. apply Bool.negb_true_iff in Hv. intros Hc. apply isin_iff in Hc. congruence.
  Qed.
  Lemma rest_value c a x : In c cells -> In (a, x) (rest_attrs h c) -> exists v, x = Var v /\ var_value w2 v = val w2 v.
  Proof.
    intros Hc Hin. destruct (rest_vars_only c Hc a x Hin) as (v & -> & Hv). exists v. split; [reflexivity|]. apply vv_rest. rewrite Rs. apply filter_In. split.
    - rewrite (lw_eq h l KL). apply in_flat_map. exists c. split; [exact Hc|]. right. now right.
    - apply Bool.negb_true_iff. destruct (isin (kr h l) v) eqn:Ei; [|reflexivity]. exfalso. apply isin_iff in Ei. eapply rest_not_kr; eassumption.
  Qed.
  Definition row (c : nat) : list (string * tensor Q) := map (fun p => (fst p, read (var_value w2) (snd p))) (c_attrs (h2 c)).
  Lemma row_values c : In c cells -> map snd (row c) = map (val w2) (kvar h c :: rvar h c :: var_ids (rest_attrs h c)).
  Proof.
    intros Hc. unfold row. rewrite map_map. cbn [snd]. rewrite (At c Hc). cbn [map snd read]. f_equal. f_equal.
    pose proof (rest_value c) as RV. revert RV. generalize (rest_attrs h c). induction l0 as [|(a, x) r IH]; intros RV; [reflexivity|].
    destruct (RV a x Hc) as (v & -> & E); [now left|]. cbn. rewrite E. f_equal. apply IH. intros a' x' H1 H2. apply (RV a' x' H1). now right.
  Qed.
  Lemma names_get n x : In (n, x) (combine (names h l) (cw_vars w2)) -> exists t, cv_attr x = Some t /\ get_weight_from_layer h2 l n = Ok (Tens t).
  Proof.
    assert (F : Forall2 (fun v x => cv_attr x = Some (val w2 v)) (kr h l) (cw_vars w2)) by (apply vals_of; [now apply kr_nodup|exact Nm|exact Sv]).
    assert (G : forall cs vars, incl cs cells -> Forall2 (fun v x => cv_attr x = Some (val w2 v)) (flat_map (fun c => [kvar h c; rvar h c]) cs) vars ->
      Forall2 (fun n x => exists t, cv_attr x = Some t /\ get_weight_from_layer h2 l n = Ok (Tens t)) (flat_map (fun c => [indexed "kernel" (index_of c cells); indexed "recurrent_kernel" (index_of c cells)]) cs) vars).
    { induction cs as [|c cs IH]; intros vars Sub F'; [inversion F'; constructor|]. cbn [flat_map app] in *. inversion F' as [|? x1 ? v1 E1 F1]; subst. inversion F1 as [|? x2 ? v2 E2 F2]; subst. assert (Hc : In c cells) by (apply Sub; now left).
      constructor; [|constructor].
      - eexists. split; [exact E1|]. unfold get_weight_from_layer. pose proof (sames_resolve h l KL h2 c "kernel" S2 ca_kernel Hc) as Rv. cbv beta in Rv. fold cells in Rv. rewrite Rv. cbn [bind]. rewrite (At c Hc). reflexivity.
      - eexists. split; [exact E2|]. unfold get_weight_from_layer. pose proof (sames_resolve h l KL h2 c "recurrent_kernel" S2 ca_recurrent Hc) as Rv. cbv beta in Rv. fold cells in Rv. rewrite Rv. cbn [bind]. rewrite (At c Hc). reflexivity.
      - apply IH; [|exact F2]. intros y Hy. apply Sub. now right. }
    intros Hin. specialize (G cells (cw_vars w2) (incl_refl _) F). exact (F2_combine_in _ _ _ G n x Hin).
  Qed.
  Lemma strip_sim ws : map snd (cw_rest w2) = map (val w2) (map fst (cw_rest w2)) -> insert_all (map snd (cw_rest w2)) (cw_vars w2) = Ok ws -> ws = map (val w2) (layer_weights h l) ->
    (do ws <- rnn_insert (mkRW h2 l (names h l) w2) (map (var_value w2) (layer_weights h2 l)) (combine (names h l) (cw_vars w2)) ;;
     fill (map (fun c => map fst (c_attrs (h2 c))) (leaf_cells h2 l)) ws) = Ok (map row cells).
  Proof.
    intros Ev Ei Ew. rewrite rnn_insert_sim.
    - rewrite lw2. replace (map (var_value w2) (map fst (cw_rest w2))) with (map snd (cw_rest w2)) by (rewrite Ev; apply map_ext_in; intros v Hv; symmetry; now apply vv_rest).
      rewrite Ei. cbn [bind]. rewrite Ew, leaf2. rewrite <- (fill_rows (map row cells)). f_equal.
      + rewrite map_map. apply map_ext_in. intros c Hc. unfold row. rewrite map_map. reflexivity.
      + rewrite (lw_eq h l KL). fold cells. rewrite map_map. rewrite flat_map_concat_map, concat_map, map_map. f_equal. apply map_ext_in. intros c Hc. symmetry. now apply row_values.
    - intros n x Hin. cbn [r_heap r_layer]. now apply names_get.
    - rewrite (names_kr h l), <- Nm. now rewrite map_length.
  Qed.
End Strip.
