From Coq Require Import String Ascii.
From Verif Require Import Base M_Tensor M_Num M_Cluster M_Compress S_Cluster S_Compress L_Compress.
Open Scope string_scope.
Open Scope list_scope.
Open Scope nat_scope.

Lemma Forall2_one {A B} (R : A -> B -> Prop) x l : Forall2 R [x] l -> exists z, l = [z] /\ R x z.
Proof. intros H. inversion H as [|? z ? ? H1 H2]; subst. inversion H2; subst. eauto. Qed.

Lemma kb_selected a y k b : kernel_and_bias y k b -> a_compressible a y = kernel_of y ->
  a_compressible a y = [Some "kernel"] /\ selected a y k = true /\ selected a y b = false.
Proof.
  intros (Hp & Hk & Hw & Nk & Nb) Hc.
  assert (E : kernel_of y = [Some "kernel"]).
  { unfold kernel_of, attr_or_none, find_weight. rewrite Hw. cbn [find]. rewrite Nk.
    cbn. rewrite Nk. destruct Hk as [-> | ->]; reflexivity. }
  rewrite Hc, E. split; auto. unfold selected. rewrite Hc, E. cbn [existsb]. rewrite Nk, Nb. auto.
Qed.

Lemma kb_create a y k b ts : compresses_kernel a -> kernel_and_bias y k b -> a_init a (lw_value k) = Ok ts ->
  create_layer_for_training a y = Ok (mkTW y [("kernel", ts)] [("bias", lw_value b)]).
Proof.
  intros [Hs Hc] H Hi. destruct (kb_selected a y k b H (Hc y)) as (E & Sk & Sb).
  destruct H as (Hp & Hk & Hw & Nk & Nb).
  assert (Esel : filter (selected a y) (y_weights y) = [k]) by (rewrite Hw; cbn [filter]; rewrite Sk, Sb; reflexivity).
  assert (Eoth : filter (fun w => negb (selected a y w)) (y_weights y) = [b])
    by (rewrite Hw; cbn [filter]; rewrite Sk, Sb; reflexivity).
  rewrite (train_create a y Hp Hk) with (initv := fun _ => ts).
  - rewrite Esel, Eoth. cbn [map]. now rewrite Nk, Nb.
  - rewrite Esel, E. cbn [map]. now rewrite Nk.
  - rewrite E. discriminate.
  - rewrite Esel. intros w [<- | []]. exact Hi.
  - exact Hs.
Qed.

Lemma ko_create a y k ts : compresses_kernel a -> kernel_only y k -> a_init a (lw_value k) = Ok ts ->
  create_layer_for_training a y = Ok (mkTW y [("kernel", ts)] []).
Proof.
  intros [Hs Hc] (Hp & Hk & Hw & Nk) Hi.
  assert (E : a_compressible a y = [Some "kernel"]).
  { rewrite Hc. unfold kernel_of, attr_or_none, find_weight. rewrite Hw. cbn [find]. rewrite Nk.
    cbn. rewrite Nk. destruct Hk as [-> | ->]; reflexivity. }
  assert (Sk : selected a y k = true) by (unfold selected; rewrite E; cbn [existsb]; rewrite Nk; reflexivity).
  assert (Esel : filter (selected a y) (y_weights y) = [k]) by (rewrite Hw; cbn [filter]; rewrite Sk; reflexivity).
  rewrite (train_create a y Hp Hk) with (initv := fun _ => ts).
  - rewrite Esel, Hw. cbn [filter map]. rewrite Sk. cbn [negb map]. now rewrite Nk.
  - rewrite Esel, E. cbn [map]. now rewrite Nk.
  - rewrite E. discriminate.
  - rewrite Esel. intros w [<- | []]. exact Hi.
  - exact Hs.
Qed.

Lemma trained_kb y ts b w' : trained (mkTW y [("kernel", ts)] [("bias", b)]) w' ->
  exists ts' b', w' = mkTW y [("kernel", ts')] [("bias", b')] /\ Forall2 stepped ts ts' /\ stepped b b'.
Proof.
  intros (E & F & G). cbn [tw_layer tw_training tw_rest] in *.
  apply Forall2_one in F as ([n ts'] & F & En & Hts). apply Forall2_one in G as ([n' b'] & G & En' & Hb).
  cbn [fst snd] in *. exists ts', b'. split; auto. destruct w'; cbn in *. congruence.
Qed.
Lemma trained_ko y ts w' : trained (mkTW y [("kernel", ts)] []) w' ->
  exists ts', w' = mkTW y [("kernel", ts')] [] /\ Forall2 stepped ts ts'.
Proof.
  intros (E & F & G). cbn [tw_layer tw_training tw_rest] in *.
  apply Forall2_one in F as ([n ts'] & F & En & Hts). inversion G; subst.
  cbn [fst snd] in *. exists ts'. split; auto. destruct w'; cbn in *. congruence.
Qed.

Lemma kb_rest y k b : kernel_and_bias y k b -> rest_of ["kernel"] y = [("bias", lw_init b)].
Proof.
  intros (Hp & Hk & Hw & Nk & Nb). unfold rest_of. rewrite Hw. cbn [filter]. rewrite Nk, Nb. cbn. now rewrite Nb.
Qed.
Lemma ko_rest y k : kernel_only y k -> rest_of ["kernel"] y = [].
Proof. intros (Hp & Hk & Hw & Nk). unfold rest_of. rewrite Hw. cbn [filter]. rewrite Nk. reflexivity. Qed.
Lemma kb_shape y k b : kernel_and_bias y k b -> vshape (lw_value b) = vshape (lw_init b).
Proof. intros ((_ & _ & Hall) & _ & Hw & _). apply (Hall b). rewrite Hw. cbn. auto. Qed.

Lemma kb_infer a y k b ts bv cs : kernel_and_bias y k b -> vshape bv = vshape (lw_init b) -> a_compress a ts = Ok cs ->
  create_layer_for_inference a (mkTW y [("kernel", ts)] [("bias", bv)]) = Ok (mkIW y [("kernel", cs)] [("bias", bv)]).
Proof.
  intros H Hb Hc. unfold create_layer_for_inference, infer_build, tw_get_weights.
  cbn [tw_layer tw_training tw_rest mapM map fst snd]. rewrite Hc. cbn [bind]. rewrite (kb_rest y k b H).
  cbn [List.concat]. rewrite app_nil_r.
  destruct (ts ++ [bv]) as [|x l] eqn:Ew; [now destruct ts|]. rewrite <- Ew. clear x l Ew.
  unfold map_to_inference_weights. cbn [map_loop assoc]. cbn [String.eqb Ascii.eqb Bool.eqb].
  rewrite Hc. cbn [bind]. rewrite Nat.add_0_l, nth_error_app2, Nat.sub_diag by lia. cbn [nth_error bind].
  unfold iw_set_weights, iw_get_weights. cbn [iw_layer iw_compressed iw_rest map fst snd List.concat]. rewrite app_nil_r.
  rewrite same_shapes_eq.
  - replace (cs ++ [bv]) with (List.concat [cs] ++ [bv]) by (cbn; now rewrite app_nil_r).
    rewrite refill_app; [reflexivity|]. constructor; auto.
  - rewrite !map_app. cbn [map]. now rewrite Hb.
Qed.
Lemma kb_infer_err a y k b ts bv e : kernel_and_bias y k b -> a_compress a ts = Err e ->
  create_layer_for_inference a (mkTW y [("kernel", ts)] [("bias", bv)]) = Err e.
Proof.
  intros H Hc. unfold create_layer_for_inference, infer_build.
  cbn [tw_layer tw_training tw_rest mapM map fst snd]. rewrite Hc. reflexivity.
Qed.

(** use_bias=False. *)
Lemma ko_infer a y k ts cs : kernel_only y k -> ts <> [] -> a_compress a ts = Ok cs ->
  create_layer_for_inference a (mkTW y [("kernel", ts)] []) = Err IndexError.
Proof.
  intros H Hne Hc. unfold create_layer_for_inference, infer_build, tw_get_weights.
  cbn [tw_layer tw_training tw_rest mapM map fst snd]. rewrite Hc. cbn [bind List.concat app]. rewrite !app_nil_r.
  destruct ts as [|x l] eqn:Ew; [congruence|]. rewrite <- Ew.
  unfold map_to_inference_weights. cbn [map_loop assoc]. cbn [String.eqb Ascii.eqb Bool.eqb].
  rewrite <- Ew in Hc. rewrite Hc. cbn [bind]. rewrite Nat.add_0_l.
  replace (nth_error ts (List.length ts)) with (@None cv); [reflexivity|].
  symmetry. apply nth_error_None. lia.
Qed.

(** Layers without compressible weights: only layers with no weight or exactly two weights get through. *)
Lemma rest_of_nil y : rest_of [] y = fresh_weights y.
Proof. unfold rest_of, fresh_weights. f_equal. induction (y_weights y); cbn; auto. f_equal; auto. Qed.

Lemma none_infer a y vs : List.length vs = List.length (y_weights y) ->
  map vshape vs = map (fun w => vshape (lw_init w)) (y_weights y) ->
  create_layer_for_inference a (mkTW y [] (combine (map lw_name (y_weights y)) vs)) =
  match vs with
  | [] => Ok (mkIW y [] [])
  | [_] => Err IndexError
  | [v1; v2] => Ok (mkIW y [] (combine (map lw_name (y_weights y)) vs))
  | _ => Err ValueError
  end.
Proof.
  intros Hl Hs. unfold create_layer_for_inference, infer_build, tw_get_weights.
  cbn [tw_layer tw_training tw_rest mapM map fst snd bind List.concat app]. rewrite rest_of_nil. unfold fresh_weights.
  destruct (y_weights y) as [|w1 [|w2 [|w3 ws]]], vs as [|v1 [|v2 [|v3 vs]]]; cbn [List.length] in Hl; try lia; cbn in *.
  - reflexivity.
  - reflexivity.
  - injection Hs as E1 E2. unfold iw_set_weights. rewrite same_shapes_eq; [reflexivity|]. cbn. congruence.
  - unfold iw_set_weights. destruct (same_shapes _ _) eqn:E; [|reflexivity]. exfalso.
    apply same_shapes_iff in E. discriminate E.
Qed.

(** BiasOnly. *)
Lemma bias_infer y k b m s kv : kernel_and_bias y k b -> vshape m = [] -> vshape s <> [] ->
  create_layer_for_inference bias_only (mkTW y [("bias", [m; s])] [("kernel", kv)]) = Err ValueError.
Proof.
  intros (Hp & Hk & Hw & Nk & Nb) Hm Hs. unfold create_layer_for_inference, infer_build, tw_get_weights.
  cbn [tw_layer tw_training tw_rest mapM map fst snd bias_only a_compress bind List.concat app].
  unfold map_to_inference_weights. cbn [map_loop assoc]. cbn [String.eqb Ascii.eqb Bool.eqb].
  cbn [nth_error bind a_compress bias_only app]. unfold rest_of. rewrite Hw. cbn [filter]. rewrite Nk, Nb.
  cbn [inb existsb]. cbn [String.eqb Ascii.eqb Bool.eqb orb negb].
  unfold iw_set_weights. destruct (same_shapes _ _) eqn:E; [|reflexivity]. exfalso.
  apply same_shapes_iff in E. unfold iw_get_weights in E. cbn [iw_compressed iw_rest map snd List.concat app] in E.
  injection E as E1 _. congruence.
Qed.
