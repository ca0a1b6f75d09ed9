(** The RNN wrapper refines the generic wrapper (C129, C130). *)
From Coq Require Import String Ascii.
From Verif Require Import Base M_Tensor M_Num M_Stages M_Cluster M_ClusterWrapper M_Compat M_ClusterRnn S_Cluster S_ClusterWrapper S_ClusterRnn L_Num L_Tensor L_Cluster L_Cluster7 L_Cluster8 L_Cluster9 L_Compat L_ClusterRnn.
Open Scope string_scope.
Open Scope list_scope.
Open Scope nat_scope.
Notation length := List.length.

Lemma in_flat_map' {A B} (f : A -> list B) l b : In b (flat_map f l) <-> exists a, In a l /\ In b (f a).
Proof. apply in_flat_map. Qed.
Lemma nodup_flat_map {A B} (f : A -> list B) : forall l, (forall a, In a l -> NoDup (f a)) -> (forall i j a b x, nth_error l i = Some a -> nth_error l j = Some b -> In x (f a) -> In x (f b) -> i = j) -> NoDup (flat_map f l).
Proof.
  induction l as [|a l IH]; intros H1 H2; cbn; [constructor|]. assert (Nl : NoDup (flat_map f l)).
  { apply IH; [intros; apply H1; now right|]. intros i j c d x Hi Hj Hc Hd. assert (S i = S j) by (apply (H2 (S i) (S j) c d x); auto). congruence. }
  assert (Na : NoDup (f a)) by (apply H1; now left).
  assert (Dis : forall x, In x (f a) -> ~ In x (flat_map f l)). { intros x Hx Hl. apply in_flat_map in Hl. destruct Hl as (b & Hb & Hxb). apply In_nth_error in Hb. destruct Hb as [j Hj]. assert (0 = S j) by (apply (H2 0 (S j) a b x); auto). discriminate. }
  clear - Nl Na Dis. induction (f a) as [|x r IH]; cbn; [assumption|]. inversion Na; subst. constructor.
  - intros H. apply in_app_or in H. destruct H as [H|H]; [contradiction|]. apply (Dis x); [now left|assumption].
  - apply IH; [assumption|]. intros y Hy. apply Dis. now right.
Qed.
Lemma nodup_app_disj {A} (a b : list A) : NoDup (a ++ b) -> forall x, In x a -> In x b -> False.
Proof. induction a as [|y a IH]; intros Nd x Ha Hb; [destruct Ha|]. cbn in Nd. inversion Nd as [|? ? M1 M2]; subst. destruct Ha as [->|Ha]; [apply M1, in_or_app; now right|]. eapply IH; eassumption. Qed.
Lemma nodup_app_r {A} (a b : list A) : NoDup (a ++ b) -> NoDup b.
Proof. induction a as [|y a IH]; intros Nd; [exact Nd|]. cbn in Nd. inversion Nd; subst. now apply IH. Qed.
Lemma dict_put_fresh {A} (l : list (string * A)) k v : ~ In k (map fst l) -> dict_put l k v = l ++ [(k, v)].
Proof.
  induction l as [|(j, x) l IH]; intros H; [reflexivity|]. cbn in *. destruct (String.eqb_spec k j) as [->|N]; [exfalso; apply H; now left|]. rewrite IH by tauto. reflexivity.
Qed.
Lemma fold_dict {A} : forall (p d : list (string * A)), NoDup (map fst (d ++ p)) -> fold_left (fun d p => dict_put d (fst p) (snd p)) p d = d ++ p.
Proof.
  induction p as [|(k, v) p IH]; intros d H; cbn; [now rewrite app_nil_r|]. rewrite dict_put_fresh.
  - rewrite IH; rewrite <- app_assoc; [reflexivity|exact H].
  - rewrite map_app in H. cbn in H. apply NoDup_remove_2 in H. intros Hin. apply H. apply in_or_app. now left.
Qed.
Lemma map_fst_combine {A B} : forall (l : list A) (m : list B), length l = length m -> map fst (combine l m) = l.
Proof. induction l as [|a l IH]; intros [|b m] E; try discriminate; [reflexivity|]. cbn. now rewrite IH by (cbn in E; lia). Qed.
Lemma map_snd_combine {A B} : forall (l : list A) (m : list B), length l = length m -> map snd (combine l m) = m.
Proof. induction l as [|a l IH]; intros [|b m] E; try discriminate; [reflexivity|]. cbn. now rewrite IH by (cbn in E; lia). Qed.
Lemma F2_length {A B} (R : A -> B -> Prop) l m : Forall2 R l m -> length l = length m.
Proof. induction 1; cbn; congruence. Qed.
Lemma find_var_st st v : forall (l : list nat) i p w, find_var v i (map (fun v => (v, st v)) l) = Ok (p, w) -> w = st v.
Proof.
  induction l as [|u l IH]; intros i p w H; cbn in H; [discriminate|]. destruct (Nat.eqb_spec u v) as [->|]; [now injection H as _ <-|]. eapply IH; eassumption.
Qed.
Lemma build_var_name cfg L v x : build_var cfg L v = Ok x -> cv_name x = v.
Proof.
  unfold build_var. destruct (find_var _ _ _) as [(p, w)|]; [|discriminate]. cbn [bind]. destruct (get_cluster_centroids _ _ _ _ _ _) as [cs|]; [|discriminate]. cbn [bind]. destruct (pull _ _ _) as [q|]; [|discriminate]. cbn [bind].
  destruct (preserve_sparsity cfg); [destruct (clustered _ _ _ _) as [cl|]; [|discriminate]; cbn [bind]|]; intros [= <-]; reflexivity.
Qed.
Lemma mapM_ext_in {A B} (f g : A -> res B) : forall l, (forall a, In a l -> f a = g a) -> mapM f l = mapM g l.
Proof. induction l as [|a l IH]; intros H; [reflexivity|]. cbn. rewrite (H a) by now left. rewrite IH by (intros; apply H; now right). reflexivity. Qed.
Lemma mapM_of_map {A B C} (f : B -> res C) (g : A -> B) : forall l, mapM f (map g l) = mapM (fun a => f (g a)) l.
Proof. induction l as [|a l IH]; [reflexivity|]. cbn. now rewrite IH. Qed.

Definition kvar (h : heap) (c : nat) : nat := match c_attrs (h c) with (_, Var k) :: _ => k | _ => 0 end.
Definition rvar (h : heap) (c : nat) : nat := match c_attrs (h c) with _ :: (_, Var r) :: _ => r | _ => 0 end.
Definition rest_attrs (h : heap) (c : nat) : list (string * aval) := skipn 2 (c_attrs (h c)).

Section Layer.
  Variables (h : heap) (l : rlayer).
  Hypothesis KL : keras_layer h l.
  Let cells := get_rnn_cells h l.
  Let idx (c : nat) := index_of c cells.
  Let K := kvar h.
  Let R := rvar h.
  Let rest := rest_attrs h.

  Lemma kind : (exists b d, l = RnnLayer b d) \/ (exists f b, l = Bidirectional f b).
  Proof. destruct KL as ([(c & ->)|(f & b & ->)] & _); [left|right]; eauto. Qed.
  Lemma library : library_layer l.
  Proof. intros c ws E0. destruct kind as [(b & d & E)|(f & b & E)]; congruence. Qed.
  Lemma cell_form c : In c cells -> c_attrs (h c) = ("kernel", Var (K c)) :: ("recurrent_kernel", Var (R c)) :: rest c /\
    (exists bias, rest c = map (fun b => ("bias", Var b)) bias) /\ supported_cell (c_class (h c)) = true.
  Proof.
    intros Hc. apply In_nth_error in Hc. destruct Hc as [i Hi]. apply (has_cell_nth h l i c kind) in Hi. destruct KL as (_ & HK & _). destruct (HK i c Hi) as (k & r & bias & Hcl & _ & E).
    unfold K, R, rest, kvar, rvar, rest_attrs. rewrite E. split; [reflexivity|]. split; [exists bias; reflexivity|]. destruct Hcl as [-> | [-> | ->]]; reflexivity.
  Qed.
  Lemma var_attr c a v : In v (var_ids a) -> c_attrs (h c) = a -> exists p n, nth_error (c_attrs (h c)) p = Some (n, Var v).
  Proof.
    intros Hv ->. unfold var_ids in Hv. apply in_flat_map in Hv. destruct Hv as ((n, x) & Hin & Hx). destruct x as [u|t]; [|destruct Hx]. destruct Hx as [<-|[]]. apply In_nth_error in Hin. destruct Hin as [p Hp]. exists p, n. exact Hp.
  Qed.
  Lemma var_ids_nodup a : (forall p q n m v, nth_error a p = Some (n, Var v) -> nth_error a q = Some (m, Var v) -> p = q) -> NoDup (var_ids a).
  Proof.
    clear. intros H. unfold var_ids. apply nodup_flat_map.
    - intros (n, [v|t]) _; repeat constructor; auto.
    - intros i j (n, [u|t]) (m, [w|t']) x Hi Hj Hx Hy; cbn in Hx, Hy; try tauto. destruct Hx as [<-|[]], Hy as [<-|[]]. eapply H; eassumption.
  Qed.
  Lemma vars_nodup : NoDup (flat_map (fun c => var_ids (c_attrs (h c))) cells).
  Proof.
    destruct KL as (_ & _ & D). apply nodup_flat_map.
    - intros c Hc. apply In_nth_error in Hc. destruct Hc as [i Hi]. apply (has_cell_nth h l i c kind) in Hi. apply var_ids_nodup. intros p q n m v Hp Hq. now destruct (D i i c c p q n m v Hi Hi Hp Hq).
    - intros i j c d v Hi Hj Hc Hd. apply (has_cell_nth h l _ _ kind) in Hi. apply (has_cell_nth h l _ _ kind) in Hj. destruct (var_attr c _ v Hc eq_refl) as (p & n & Hp). destruct (var_attr d _ v Hd eq_refl) as (q & m & Hq). now destruct (D i j c d p q n m v Hi Hj Hp Hq).
  Qed.
  Lemma cells_distinct : NoDup cells.
  Proof.
    apply cells_nodup; [exact kind|]. intros i j c Hi Hj. destruct KL as (_ & HK & D). destruct (HK i c Hi) as (k & r & bias & _ & _ & E).
    destruct (D i j c c 0 0 "kernel" "kernel" k Hi Hj); rewrite ?E; auto.
  Qed.
  Definition kr : list nat := flat_map (fun c => [K c; R c]) cells.
  Definition names : list string := flat_map (fun c => [indexed "kernel" (idx c); indexed "recurrent_kernel" (idx c)]) cells.
  Lemma cell_weights_eq c : In c cells -> cell_weights h c (idx c) = Ok [(indexed "kernel" (idx c), Var (K c)); (indexed "recurrent_kernel" (idx c), Var (R c))].
  Proof. intros Hc. destruct (cell_form c Hc) as (E & _ & Sp). unfold cell_weights. rewrite Sp, E. reflexivity. Qed.
  Lemma listed_eq : get_clusterable_weights h l = Ok (flat_map (fun c => [(indexed "kernel" (idx c), Var (K c)); (indexed "recurrent_kernel" (idx c), Var (R c))]) cells).
  Proof.
    assert (E : get_clusterable_weights h l = if 1 <? length cells then do ws <- mapM (fun c => cell_weights h c (idx c)) cells ;; Ok (List.concat ws) else match cells with [] => Ok [] | c :: _ => cell_weights h c 0 end).
    { destruct kind as [(b & d & ->)|(f & b & ->)]; reflexivity. }
    rewrite E. clear E. assert (M : mapM (fun c => cell_weights h c (idx c)) cells = Ok (map (fun c => [(indexed "kernel" (idx c), Var (K c)); (indexed "recurrent_kernel" (idx c), Var (R c))]) cells)).
    { assert (H : forall cs, incl cs cells -> mapM (fun c => cell_weights h c (idx c)) cs = Ok (map (fun c => [(indexed "kernel" (idx c), Var (K c)); (indexed "recurrent_kernel" (idx c), Var (R c))]) cs)); [|apply H, incl_refl].
      induction cs as [|c cs IH]; intros Sub; [reflexivity|]. cbn. rewrite cell_weights_eq by (apply Sub; now left). cbn [bind]. rewrite IH by (intros x Hx; apply Sub; now right). reflexivity. }
    rewrite flat_map_concat_map. destruct (Nat.ltb_spec 1 (length cells)) as [Lt|Le]; [now rewrite M|].
    assert (C : cells = [] \/ exists c, cells = [c]) by (clear - Le; destruct cells as [|c [|d cs]]; [now left|right; now exists c|cbn in Le; lia]).
    destruct C as [Ec|(c & Ec)]; rewrite Ec; [reflexivity|].
    assert (Hc : In c cells) by (rewrite Ec; now left). pose proof (cell_weights_eq c Hc) as W. assert (Ei : idx c = 0) by (unfold idx; rewrite Ec; cbn; now rewrite Nat.eqb_refl).
    cbn [map List.concat app]. rewrite <- W, Ei. reflexivity.
  Qed.
  Lemma listed_pairs : flat_map (fun c => [(indexed "kernel" (idx c), Var (K c)); (indexed "recurrent_kernel" (idx c), Var (R c))]) cells = combine names (map Var kr).
  Proof. unfold names, kr. generalize idx. intros f. generalize cells. induction cells0 as [|c cs IH]; [reflexivity|]. cbn [flat_map app map combine List.length]. now rewrite IH. Qed.
  Lemma names_kr : length names = length kr.
  Proof. unfold names, kr. generalize idx. intros f. generalize cells. induction cells0 as [|c cs IH]; [reflexivity|]. cbn [flat_map app map combine List.length]. now rewrite IH. Qed.
  Lemma names_nodup : NoDup names.
  Proof.
    assert (D : distinct_cells h l). { intros i j c Hi Hj. apply (has_cell_nth h l _ _ kind) in Hi. apply (has_cell_nth h l _ _ kind) in Hj. apply (proj1 (NoDup_nth_error _) cells_distinct); [apply nth_error_Some; unfold cells; congruence|unfold cells; congruence]. }
    pose proof (names_distinct h l _ library D listed_eq) as H. rewrite listed_pairs, map_fst_combine in H; [exact H|]. now rewrite map_length, names_kr.
  Qed.
  Lemma lw_eq : layer_weights h l = flat_map (fun c => K c :: R c :: var_ids (rest c)) cells.
  Proof.
    unfold layer_weights. rewrite nodup_fixed_point; [|fold cells]; replace (leaf_cells h l) with cells by (destruct kind as [(b & d & ->)|(f & b & ->)]; reflexivity); [|apply vars_nodup].
    assert (H : forall cs, incl cs cells -> flat_map (fun c => var_ids (c_attrs (h c))) cs = flat_map (fun c => K c :: R c :: var_ids (rest c)) cs); [|apply H, incl_refl].
    induction cs as [|c cs IH]; intros Sub; [reflexivity|]. cbn. destruct (cell_form c) as (E & _); [apply Sub; now left|]. rewrite E, IH by (intros x Hx; apply Sub; now right). reflexivity.
  Qed.
  Lemma lw_nodup : NoDup (layer_weights h l).
  Proof. unfold layer_weights. apply NoDup_nodup. Qed.
  Lemma kr_in v : In v kr -> In v (layer_weights h l).
  Proof. rewrite lw_eq. unfold kr. rewrite !in_flat_map. intros (c & Hc & [<-|[<-|[]]]); exists c; split; auto; cbn; auto. Qed.
  Lemma rest_not_kr c v : In c cells -> In v (var_ids (rest c)) -> ~ In v kr.
  Proof.
    intros Hc Hv Hk. unfold kr in Hk. apply in_flat_map in Hk. destruct Hk as (d & Hd & Hk). pose proof lw_nodup as Nd. rewrite lw_eq in Nd.
    assert (G : forall cs, NoDup (flat_map (fun c => K c :: R c :: var_ids (rest c)) cs) -> In c cs -> In d cs -> False); [|now apply (G cells)].
    clear Nd Hc Hd. induction cs as [|e cs IH]; intros Nd H1 H2; [destruct H1|]. cbn [flat_map app] in Nd. inversion Nd as [|? ? N1 Nd1]; subst. inversion Nd1 as [|? ? N2 Nd2]; subst.
    assert (App : forall x, In x (var_ids (rest e)) -> In x (flat_map (fun c => K c :: R c :: var_ids (rest c)) cs) -> False).
    { intros x. now apply nodup_app_disj. }
    destruct H1 as [->|H1], H2 as [->|H2].
    - destruct Hk as [<-|[<-|[]]]; [apply N1; right; apply in_or_app; now left|apply N2; apply in_or_app; now left].
    - apply (App v Hv). apply in_flat_map. exists d. split; [exact H2|]. destruct Hk as [<-|[<-|[]]]; cbn; auto.
    - assert (Hc : In v (flat_map (fun c => K c :: R c :: var_ids (rest c)) cs)) by (apply in_flat_map; exists c; split; [exact H1|cbn; auto]).
      destruct Hk as [<-|[<-|[]]]; [apply N1; right; apply in_or_app; now right|apply N2; apply in_or_app; now right].
    - apply IH; auto. eapply nodup_app_r, Nd2.
  Qed.
  Lemma kr_nodup : NoDup kr.
  Proof.
    pose proof lw_nodup as Nd. rewrite lw_eq in Nd. unfold kr. revert Nd. generalize cells. induction cells0 as [|c cs IH]; intros Nd; [constructor|]. cbn [flat_map app] in *. inversion Nd as [|? ? N1 Nd1]; subst. inversion Nd1 as [|? ? N2 Nd2]; subst.
    assert (Sub : forall x, In x (flat_map (fun c => [K c; R c]) cs) -> In x (flat_map (fun c => K c :: R c :: var_ids (rest c)) cs)) by (intros x; rewrite !in_flat_map; intros (d & Hd & [<-|[<-|[]]]); exists d; cbn; auto).
    constructor; [|constructor].
    - intros [Q|Q]; [apply N1; left; exact Q|]. apply N1. right. apply in_or_app. right. now apply Sub.
    - intros Q. apply N2. apply in_or_app. right. now apply Sub.
    - apply IH. eapply nodup_app_r, Nd2.
  Qed.

  (** ** Building *)
  Section Build.
    Variables (cfg : ccfg) (st : nat -> tensor Q).
    Definition as_layer : clayer := mkCL (map (fun v => (v, st v)) (layer_weights h l)) kr.
    Lemma as_layer_names : map fst (l_weights as_layer) = layer_weights h l.
    Proof. cbn. rewrite map_map. cbn. apply List.map_id. Qed.
    Lemma as_proper : (forall v, wf (st v)) -> proper_layer as_layer.
    Proof.
      intros W. unfold proper_layer. rewrite as_layer_names. split; [exact lw_nodup|]. split; [exact kr_nodup|]. split; [|exact kr_in]. intros v t Hin. cbn in Hin. apply in_map_iff in Hin. destruct Hin as (u & [= <- <-] & _). apply W.
    Qed.
    Lemma as_in_order : registered_in_order as_layer.
    Proof.
      unfold registered_in_order. rewrite as_layer_names. cbn [as_layer l_clusterable]. rewrite lw_eq.
      assert (H : forall cs, incl cs cells -> filter (fun v => existsb (Nat.eqb v) kr) (flat_map (fun c => K c :: R c :: var_ids (rest c)) cs) = flat_map (fun c => [K c; R c]) cs); [|symmetry; apply H, incl_refl].
      induction cs as [|c cs IH]; intros Sub; [reflexivity|]. cbn [flat_map app filter]. assert (Hc : In c cells) by (apply Sub; now left).
      assert (Kc : existsb (Nat.eqb (K c)) kr = true) by (apply (isin_iff kr); unfold kr; apply in_flat_map; exists c; split; [exact Hc|now left]).
      assert (Rc : existsb (Nat.eqb (R c)) kr = true) by (apply (isin_iff kr); unfold kr; apply in_flat_map; exists c; split; [exact Hc|right; now left]).
      cbn [app filter]. rewrite Kc, Rc, filter_app, IH by (intros x Hx; apply Sub; now right). rewrite filter_none; [reflexivity|].
      intros v Hv. destruct (existsb (Nat.eqb v) kr) eqn:E; [|reflexivity]. exfalso. apply (isin_iff kr) in E. eapply rest_not_kr; eassumption.
    Qed.
    Lemma build_one n v : In (n, v) (combine names kr) -> build_rvar cfg st h l (n, Var v) = build_var cfg as_layer v.
    Proof.
      intros Hin. assert (G : get_weight_from_layer h l n = Ok (Var v)).
      { eapply names_resolve; [exact library|exact listed_eq|]. rewrite listed_pairs. clear - Hin. revert Hin. generalize kr. induction names as [|m ms IH]; intros [|u us] Hin; cbn in *; try tauto. destruct Hin as [[= -> ->]|Hin]; [now left|right; now apply IH]. }
      unfold build_rvar. cbn [fst snd]. rewrite G. cbn [bind read]. unfold build_var. cbn [as_layer l_weights]. destruct (find_var v 0 _) as [(p, w)|] eqn:E; [|reflexivity]. cbn [bind]. apply find_var_st in E. subst w. reflexivity.
    Qed.
    Lemma accepted_layer : accepts h l = true.
    Proof.
      destruct KL as (Hk & _). destruct Hk as [(c & E)|(f & b & E)]; [|now rewrite E]. assert (A : forallb (fun c => supported_cell (c_class (h c))) cells = true) by (apply forallb_forall; intros d Hd; now apply cell_form).
      unfold cells in A. rewrite E in *. exact A.
    Qed.
    Lemma mapM_F2 : forall ns vs xs, length ns = length vs -> (forall n v, In (n, v) (combine ns vs) -> build_rvar cfg st h l (n, Var v) = build_var cfg as_layer v) ->
      mapM (build_rvar cfg st h l) (combine ns (map Var vs)) = xs <-> mapM (build_var cfg as_layer) vs = xs.
    Proof.
      intros ns vs xs E H. enough (Q : mapM (build_rvar cfg st h l) (combine ns (map Var vs)) = mapM (build_var cfg as_layer) vs) by now rewrite Q.
      revert vs E H. induction ns as [|n ns IH]; intros [|v vs] E H; try discriminate; [reflexivity|]. cbn. rewrite H by now left. rewrite IH; [reflexivity|cbn in E; lia|]. intros; apply H; now right.
    Qed.
    Lemma build_len vs : mapM (build_var cfg as_layer) kr = Ok vs -> length kr = length vs /\ map cv_name vs = kr.
    Proof.
      intros M. apply mapM_inv in M. split; [eapply F2_length, M|]. clear - M. induction M as [|v x vs xs E F IH]; [reflexivity|]. cbn. rewrite IH. f_equal. eapply build_var_name, E.
    Qed.
    Lemma build_sim : rnn_build cfg st h l = (do w <- build cfg as_layer ;; Ok (mkRW h l names w)).
    Proof.
      unfold rnn_build. rewrite accepted_layer. cbn [negb]. rewrite listed_eq. cbn [bind]. rewrite listed_pairs. unfold build. cbn [as_layer l_clusterable].
      assert (Q : mapM (build_rvar cfg st h l) (combine names (map Var kr)) = mapM (build_var cfg as_layer) kr) by (apply (mapM_F2 names kr _ names_kr build_one); reflexivity).
      rewrite Q. destruct (mapM (build_var cfg as_layer) kr) as [vs|] eqn:M; [|reflexivity]. cbn [bind]. destruct (build_len vs M) as [Ln En].
      rewrite map_fst_combine by (now rewrite map_length, names_kr). rewrite fold_dict by (cbn; rewrite map_fst_combine by (rewrite names_kr; exact Ln); exact names_nodup). cbn [app].
      rewrite map_fst_combine, map_snd_combine by (rewrite names_kr; exact Ln). rewrite En. reflexivity.
    Qed.
  End Build.

  (** ** Updates *)
  (** The heaps that occur: only the two attributes of the layer's cells have changed. *)
  Definition sames (h' : heap) : Prop := (forall c, c_class (h' c) = c_class (h c)) /\ (forall c, ~ In c cells -> h' c = h c) /\
    forall c, In c cells -> exists a b, c_attrs (h' c) = ("kernel", a) :: ("recurrent_kernel", b) :: rest c.
  Lemma sames_refl : sames h.
  Proof. split; [reflexivity|]. split; [reflexivity|]. intros c Hc. destruct (cell_form c Hc) as (E & _). eauto. Qed.
  Lemma sames_cells h' : sames h' -> get_rnn_cells h' l = cells.
  Proof. intros (Cl & _). unfold cells. destruct kind as [(b & d & ->)|(f & b & ->)]; cbn; [now rewrite Cl|reflexivity]. Qed.
  Lemma sames_resolve h' c a : sames h' -> clusterable_attr a -> In c cells -> resolve h' l (indexed a (idx c)) = Ok (c, a).
  Proof.
    intros Sm Ha Hc. apply resolve_indexed; [exact Ha|]. apply has_cell_nth; [exact kind|]. rewrite (sames_cells h' Sm). unfold idx. now apply index_of_nth.
  Qed.
  Lemma set_all_cells val : forall cs vars h', incl cs cells -> NoDup cs -> sames h' ->
    Forall2 (fun v x => cv_attr x = Some (val v)) (flat_map (fun c => [K c; R c]) cs) vars ->
    exists h2, set_all h' l (combine (flat_map (fun c => [indexed "kernel" (idx c); indexed "recurrent_kernel" (idx c)]) cs) vars) = Ok h2 /\ sames h2 /\
      (forall c, In c cs -> c_attrs (h2 c) = ("kernel", Tens (val (K c))) :: ("recurrent_kernel", Tens (val (R c))) :: rest c) /\ (forall c, ~ In c cs -> h2 c = h' c).
  Proof.
    induction cs as [|c cs IH]; intros vars h' Sub Nd Sm F.
    - exists h'. inversion F; subst. cbn. split; [reflexivity|]. split; [exact Sm|]. split; [intros ? []|reflexivity].
    - cbn [flat_map app] in *. inversion F as [|? x ? vars1 E1 F1]; subst. inversion F1 as [|? y ? vars2 E2 F2]; subst. inversion Nd; subst. assert (Hc : In c cells) by (apply Sub; now left).
      cbn [combine set_all]. rewrite E1. unfold set_weight_to_layer at 1. rewrite (sames_resolve h' c "kernel" Sm) by (auto; constructor). cbn [bind].
      set (h1 := setattr_cell h' c "kernel" (Tens (val (K c)))).
      assert (S1 : sames h1 /\ exists b, c_attrs (h1 c) = ("kernel", Tens (val (K c))) :: ("recurrent_kernel", b) :: rest c).
      { destruct Sm as (Cl & Out & At). destruct (At c Hc) as (a & b & Ea). assert (A1 : c_attrs (h1 c) = ("kernel", Tens (val (K c))) :: ("recurrent_kernel", b) :: rest c) by (unfold h1, setattr_cell; rewrite Nat.eqb_refl; cbn; rewrite Ea; reflexivity).
        split; [|exists b; exact A1]. split; [|split].
        - intros d. unfold h1, setattr_cell. destruct (Nat.eqb d c); apply Cl.
        - intros d Hd. unfold h1, setattr_cell. destruct (Nat.eqb_spec d c) as [->|]; [contradiction|]. now apply Out.
        - intros d Hd. destruct (Nat.eq_dec d c) as [->|N]; [eauto|]. unfold h1, setattr_cell. destruct (Nat.eqb_spec d c); [contradiction|]. now apply At. }
      destruct S1 as (S1 & b & A1). rewrite E2. unfold set_weight_to_layer at 1. rewrite (sames_resolve h1 c "recurrent_kernel" S1) by (auto; constructor). cbn [bind].
      set (h2 := setattr_cell h1 c "recurrent_kernel" (Tens (val (R c)))).
      assert (A2 : c_attrs (h2 c) = ("kernel", Tens (val (K c))) :: ("recurrent_kernel", Tens (val (R c))) :: rest c) by (unfold h2, setattr_cell; rewrite Nat.eqb_refl; cbn [c_attrs]; rewrite A1; reflexivity).
      assert (S2 : sames h2).
      { destruct S1 as (Cl & Out & At). split; [|split].
        - intros d. unfold h2, setattr_cell. destruct (Nat.eqb d c); apply Cl.
        - intros d Hd. unfold h2, setattr_cell. destruct (Nat.eqb_spec d c) as [->|]; [contradiction|]. now apply Out.
        - intros d Hd. destruct (Nat.eq_dec d c) as [->|N]; [eauto|]. unfold h2, setattr_cell. destruct (Nat.eqb_spec d c); [contradiction|]. now apply At. }
      destruct (IH vars2 h2) as (h3 & Eq & S3 & In3 & Out3); auto. { intros x0 Hx. apply Sub. now right. }
      exists h3. split; [exact Eq|]. split; [exact S3|]. split.
      + intros d [<-|Hd]; [|now apply In3]. rewrite Out3 by assumption. exact A2.
      + intros d Hd. rewrite Out3 by (intros Q; apply Hd; now right). unfold h2, h1, setattr_cell. destruct (Nat.eqb_spec d c) as [->|]; [exfalso; apply Hd; now left|]. reflexivity.
  Qed.
End Layer.
