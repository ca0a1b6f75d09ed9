From Coq Require Import String Ascii.
From Verif Require Import Base M_Tensor M_Num M_Stages M_Cluster M_Compress S_Cluster S_Compress L_Tensor L_Cluster L_Cluster4 L_Compress L_Compress2 L_Compress3.
Open Scope string_scope.
Open Scope list_scope.
Open Scope nat_scope.

Lemma ck_different svd rk : compresses_kernel (different_svd svd rk).
Proof. split. apply stable_different. reflexivity. Qed.
Lemma ck_periodical svd rk f wm : compresses_kernel (periodical_svd svd rk f wm).
Proof. split. apply stable_periodical. reflexivity. Qed.
Lemma ck_same svd rk : svd_shapes svd -> compresses_kernel (same_svd svd rk).
Proof. split. now apply stable_same. reflexivity. Qed.
Lemma ck_wc init n : sound_initialiser init -> compresses_kernel (weight_clustering init n).
Proof. split. now apply stable_wc. reflexivity. Qed.

(** ** C65 *)
Lemma kernel_bias_carried a y k b ts w w' : compresses_kernel a -> kernel_and_bias y k b -> a_init a (lw_value k) = Ok ts ->
  create_layer_for_training a y = Ok w -> trained w w' ->
  exists ts' b', tw_training w' = [("kernel", ts')] /\ tw_rest w' = [("bias", b')] /\
    forall cs kv, a_compress a ts' = Ok cs -> a_decompress a cs = Ok kv ->
      exists iw, create_layer_for_inference a w' = Ok iw /\ iw_get_weights iw = cs ++ [b'] /\
        infer_call a iw = Ok [("kernel", kv); ("bias", b')].
Proof.
  intros Ha H Hi Hc Ht. rewrite (kb_create a y k b ts Ha H Hi) in Hc. injection Hc as <-.
  apply trained_kb in Ht as (ts' & b' & -> & _ & Hb). exists ts', b'. split; auto. split; auto.
  intros cs kv Ec Ed. exists (mkIW y [("kernel", cs)] [("bias", b')]). split; [|split].
  - apply kb_infer with (k := k) (b := b); auto. destruct Hb as (E & _). rewrite <- E. eapply kb_shape; eauto.
  - unfold iw_get_weights. cbn. now rewrite app_nil_r.
  - unfold infer_call. cbn [iw_compressed iw_rest mapM fst snd]. rewrite Ed. reflexivity.
Qed.

Lemma kernel_only_raises a y k ts w w' : compresses_kernel a -> kernel_only y k -> a_init a (lw_value k) = Ok ts -> ts <> [] ->
  create_layer_for_training a y = Ok w -> trained w w' -> forall iw, create_layer_for_inference a w' <> Ok iw.
Proof.
  intros Ha H Hi Hne Hc Ht iw. rewrite (ko_create a y k ts Ha H Hi) in Hc. injection Hc as <-.
  apply trained_ko in Ht as (ts' & -> & Hts).
  destruct (a_compress a ts') as [cs|e] eqn:E.
  - rewrite (ko_infer a y k ts' cs); auto. discriminate. inversion Hts; subst; congruence.
  - unfold create_layer_for_inference, infer_build. cbn [tw_layer tw_training mapM fst snd]. rewrite E. discriminate.
Qed.
Lemma kernel_only_index a y k ts w w' ts' cs : compresses_kernel a -> kernel_only y k -> a_init a (lw_value k) = Ok ts -> ts <> [] ->
  create_layer_for_training a y = Ok w -> trained w w' -> tw_training w' = [("kernel", ts')] -> a_compress a ts' = Ok cs ->
  create_layer_for_inference a w' = Err IndexError.
Proof.
  intros Ha H Hi Hne Hc Ht E1 E2. rewrite (ko_create a y k ts Ha H Hi) in Hc. injection Hc as <-.
  apply trained_ko in Ht as (ts2 & -> & Hts). cbn in E1. injection E1 as ->.
  apply (ko_infer a y k ts' cs); auto. inversion Hts; subst; congruence.
Qed.

Lemma bias_create y k b t : kernel_and_bias y k b -> lw_value b = VF t ->
  create_layer_for_training bias_only y =
  Ok (mkTW y [("bias", [VF (mkT [] [mean t]); VI (mkT [List.length (shape t)] (map Z.of_nat (shape t)))])] [("kernel", lw_value k)]).
Proof.
  intros (Hp & Hk & Hw & Nk & Nb) Hb.
  assert (E : a_compressible bias_only y = [Some "bias"]).
  { cbn [a_compressible bias_only]. unfold bias_of, attr_or_none, find_weight. rewrite Hw. cbn [find]. rewrite Nk, Nb.
    cbn. rewrite Nb. destruct Hk as [-> | ->]; reflexivity. }
  assert (Sk : selected bias_only y k = false) by (unfold selected; rewrite E; cbn [existsb]; rewrite Nk; reflexivity).
  assert (Sb : selected bias_only y b = true) by (unfold selected; rewrite E; cbn [existsb]; rewrite Nb; reflexivity).
  assert (Esel : filter (selected bias_only y) (y_weights y) = [b]) by (rewrite Hw; cbn [filter]; rewrite Sk, Sb; reflexivity).
  assert (Eoth : filter (fun w => negb (selected bias_only y w)) (y_weights y) = [k])
    by (rewrite Hw; cbn [filter]; rewrite Sk, Sb; reflexivity).
  rewrite (train_create bias_only y Hp Hk) with
    (initv := fun _ => [VF (mkT [] [mean t]); VI (mkT [List.length (shape t)] (map Z.of_nat (shape t)))]).
  - rewrite Esel, Eoth. cbn [map]. now rewrite Nk, Nb.
  - rewrite Esel, E. cbn [map]. now rewrite Nb.
  - rewrite E. discriminate.
  - rewrite Esel. intros w [<- | []]. rewrite Hb. reflexivity.
  - apply stable_bias.
Qed.
Lemma bias_only_raises y k b t w w' : kernel_and_bias y k b -> lw_value b = VF t ->
  create_layer_for_training bias_only y = Ok w -> trained w w' -> create_layer_for_inference bias_only w' = Err ValueError.
Proof.
  intros H Hb Hc Ht. rewrite (bias_create y k b t H Hb) in Hc. injection Hc as <-.
  destruct Ht as (E & F & G). cbn [tw_layer tw_training tw_rest] in *.
  apply Forall2_one in F as ([n ts'] & F & En & Hts). apply Forall2_one in G as ([n' b'] & G & En' & Hb').
  cbn [fst snd] in *. destruct w' as [y' tr' rs']. cbn [tw_layer tw_training tw_rest] in *. subst.
  inversion Hts as [|? m ? ts1 Hm Hts1]; subst. inversion Hts1 as [|? s ? ts2 Hs Hts2]; subst. inversion Hts2; subst.
  apply (bias_infer y k b); auto.
  - destruct Hm as (Em & _). symmetry. exact Em.
  - destruct Hs as (Em & _). rewrite <- Em. cbn. discriminate.
Qed.

Lemma fresh_outcome a y w w' : y_built y = true -> a_compressible a y = [] -> create_layer_for_training a y = Ok w ->
  trained w w' ->
  create_layer_for_inference a w' =
  match y_weights y with
  | [] => Ok (mkIW y [] [])
  | [_] => Err IndexError
  | [_; _] => Ok (mkIW y [] (tw_rest w'))
  | _ => Err ValueError
  end.
Proof.
  intros Hb Hn Hc Ht. rewrite train_create_none in Hc by auto. injection Hc as <-.
  destruct Ht as (E & F & G). cbn [tw_layer tw_training tw_rest] in *.
  destruct w' as [y' tr' rs']. cbn [tw_layer tw_training tw_rest] in *. subst. inversion F; subst.
  assert (K : exists vs, rs' = combine (map lw_name (y_weights y)) vs /\ List.length vs = List.length (y_weights y) /\
              map vshape vs = map (fun w => vshape (lw_init w)) (y_weights y)).
  { unfold fresh_weights in G. clear - G. remember (y_weights y) as l. clear Heql y. revert rs' G.
    induction l as [|x l IH]; intros rs G; cbn in G; inversion G as [|? p ? ps A B]; subst.
    - exists []. auto.
    - destruct (IH ps B) as (vs & -> & L & S0). destruct p as [n v]. cbn [fst snd] in A. destruct A as (-> & A & _).
      exists (v :: vs). cbn. split; [auto|]. split; congruence. }
  destruct K as (vs & -> & L & S0). rewrite none_infer by auto.
  destruct (y_weights y) as [|x [|x2 [|x3 l]]], vs as [|v [|v2 [|v3 vs]]]; cbn in L; try lia; reflexivity.
Qed.

(** ** C66 *)
Lemma other_weights_kept a y w : proper y -> dense_or_conv2d y -> shape_stable a ->
  (exists sel, a_compressible a y = map (fun x => Some (lw_name x)) (filter sel (y_weights y))) -> a_compressible a y <> [] ->
  (forall x, In x (y_weights y) -> exists vs, a_init a (lw_value x) = Ok vs) ->
  create_layer_for_training a y = Ok w ->
  forall x, In x (y_weights y) -> ~ In (Some (lw_name x)) (a_compressible a y) -> In (lw_name x, lw_value x) (tw_rest w).
Proof.
  intros Hp Hk Hst (sel & Hsel) Hne Hi Hc x Hx Hnot.
  assert (Hs : forall z, In z (y_weights y) -> selected a y z = sel z).
  { intros z Hz. unfold selected. rewrite Hsel. destruct Hp as (_ & Hnd & _).
    destruct (sel z) eqn:E.
    - apply existsb_exists. exists (Some (lw_name z)). split; [|apply String.eqb_refl].
      apply in_map_iff. exists z. split; auto. apply filter_In. auto.
    - destruct (existsb _ _) eqn:F; auto. exfalso. apply existsb_exists in F as (o & Ho & Eo).
      apply in_map_iff in Ho as (z' & <- & Hz'). apply String.eqb_eq in Eo. apply filter_In in Hz' as [Hz' E'].
      pose proof (find_weight_In y z Hnd Hz) as F1. pose proof (find_weight_In y z' Hnd Hz') as F2.
      rewrite Eo in F2. congruence. }
  assert (Hf : filter sel (y_weights y) = filter (selected a y) (y_weights y)).
  { apply filter_ext_in. intros z Hz. symmetry. auto. }
  rewrite Hf in Hsel.
  rewrite (train_create a y Hp Hk Hsel Hne (fun z => match a_init a (lw_value z) with Ok vs => vs | Err _ => [] end)) in Hc; auto.
  - injection Hc as <-. cbn [tw_rest]. apply in_map_iff. exists x. split; auto. apply filter_In. split; auto.
    destruct (selected a y x) eqn:E; auto. exfalso. apply Hnot. rewrite Hsel. apply in_map_iff. exists x. split; auto.
    apply filter_In. auto.
  - intros z Hz. apply filter_In in Hz as [Hz _]. destruct (Hi z Hz) as (vs & ->). reflexivity.
Qed.

Lemma fresh_reset a y : y_built y = true -> a_compressible a y = [] ->
  exists w, create_layer_for_training a y = Ok w /\ train_call a w = Ok (fresh_weights y, w) /\
            tw_get_weights w = map lw_init (y_weights y).
Proof.
  intros Hb Hn. exists (mkTW y [] (fresh_weights y)). split; [now apply train_create_none|]. split; [reflexivity|].
  unfold tw_get_weights, fresh_weights. cbn. now rewrite map_map.
Qed.
