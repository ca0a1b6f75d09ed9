From Coq Require Import String Ascii.
From Verif Require Import Base M_Tensor L_Tensor M_Num L_Num M_Compress S_Compress L_Compress L_Compress2 L_Compress4 M_Epr S_Epr L_Epr L_Epr2 L_Epr3.
Open Scope string_scope.
Open Scope list_scope.
Open Scope nat_scope.

Section Layers.
Variables (fast : bool) (o : epr_ops).
Let alg := algorithm fast o.

Lemma alg_compressible y : a_compressible alg y = epr_compressible y.
Proof. unfold alg. now destruct fast. Qed.

(** What init_training_weights makes of a float weight. *)
Lemma init_dense t : 1 <= rank t <= 2 -> a_init alg (VF t) = Ok (dense_weights fast t (fill [] (-4)) (fill [] (5 # 2))).
Proof.
  intros R. assert ((1 <=? rank t) && (rank t <=? 2) = true) as B by (apply andb_true_intro; split; apply Nat.leb_le; lia).
  unfold alg, dense_weights. destruct fast; cbn [a_init algorithm fast_epr epr]; unfold fast_init, epr_init, init_reparam; rewrite B; reflexivity.
Qed.
Definition latent (t : tensor Q) : tensor Q := tmap (fun x => (x / o_sqrt o (prod (lead (shape t))))%Q) (o_rfft o t).
Lemma init_conv t : rank t = 3 \/ rank t = 4 -> let pr := skipn 2 (shape (latent t)) in
  a_init alg (VF t) = Ok (conv_weights fast (latent t) (shape t) (fill pr (-4)) (fill pr (5 # 2))).
Proof.
  intros R. cbv zeta. assert ((1 <=? rank t) && (rank t <=? 2) = false /\ (3 <=? rank t) && (rank t <=? 4) = true) as [B1 B2] by (destruct R as [-> | ->]; split; reflexivity).
  unfold alg, conv_weights, latent. destruct fast; cbn [a_init algorithm fast_epr epr]; unfold fast_init, epr_init, init_reparam; rewrite B1, B2; reflexivity.
Qed.
Lemma init_inv v vs : a_init alg v = Ok vs -> exists t, v = VF t /\ (1 <= rank t <= 2 \/ rank t = 3 \/ rank t = 4).
Proof.
  intros H. destruct v as [t|t].
  - exists t. split; auto. destruct ((1 <=? rank t) && (rank t <=? 2)) eqn:B1.
    { apply andb_true_iff in B1 as [B1 B2]. apply Nat.leb_le in B1, B2. lia. }
    destruct ((3 <=? rank t) && (rank t <=? 4)) eqn:B2.
    { apply andb_true_iff in B2 as [B2 B3]. apply Nat.leb_le in B2, B3. lia. }
    exfalso. unfold alg in H. destruct fast; cbn [a_init algorithm fast_epr epr] in H; unfold fast_init, epr_init, init_reparam in H; rewrite B1, B2 in H; discriminate H.
  - unfold alg in H. destruct fast; discriminate H.
Qed.
Lemma zeros_wf s : wf (mkT s (repeat 0%Q (prod s))). Proof. unfold wf. cbn. apply repeat_length. Qed.
Lemma alg_stable : transform o -> shape_stable alg.
Proof.
  intros (T1 & _) v vs W H. destruct (init_inv v vs H) as (t & -> & R). cbn [vshape]. unfold zeros.
  set (z := mkT (shape t) (repeat 0%Q (prod (shape t)))). assert (Wz : wf z) by apply zeros_wf. assert (Rz : rank z = rank t) by reflexivity.
  destruct R as [R | R].
  - rewrite init_dense in H by exact R. injection H as <-. eexists. split; [apply init_dense; rewrite Rz; exact R|]. unfold dense_weights. destruct fast; reflexivity.
  - rewrite init_conv in H by exact R. injection H as <-. eexists. split; [apply init_conv; rewrite Rz; exact R|].
    destruct (T1 t W R) as [S1 _]. destruct (T1 z Wz R) as [S2 _]. unfold conv_weights, latent. change (shape z) with (shape t) in *.
    cbn [map vshape]. change (shape (tmap (fun x : Q => (x / o_sqrt o (prod (lead (shape t))))%Q) (o_rfft o z))) with (shape (o_rfft o z)).
    change (shape (tmap (fun x : Q => (x / o_sqrt o (prod (lead (shape t))))%Q) (o_rfft o t))) with (shape (o_rfft o t)). rewrite S1, S2. destruct fast; reflexivity.
Qed.

(** Layers with kernel and bias. *)
Lemma kb_both y k b : kernel_and_bias y k b -> a_compressible alg y = [Some "kernel"; Some "bias"] /\ selected alg y k = true /\ selected alg y b = true.
Proof.
  intros (Hp & Hk & Hw & Nk & Nb).
  assert (E : epr_compressible y = [Some "kernel"; Some "bias"]).
  { unfold epr_compressible, attr_or_none, find_weight. rewrite Hw. cbn [find]. rewrite Nk, Nb. cbn. rewrite Nk, Nb. destruct Hk as [-> | ->]; reflexivity. }
  rewrite alg_compressible, E. split; auto. unfold selected. rewrite alg_compressible, E. cbn [existsb]. rewrite Nk, Nb. auto.
Qed.
Lemma epr_create y k b ik ib : transform o -> kernel_and_bias y k b -> a_init alg (lw_value k) = Ok ik -> a_init alg (lw_value b) = Ok ib ->
  create_layer_for_training alg y = Ok (mkTW y [("kernel", ik); ("bias", ib)] []).
Proof.
  intros T H Ik Ib. destruct (kb_both y k b H) as (E & Sk & Sb). destruct H as (Hp & Hk & Hw & Nk & Nb).
  assert (Esel : filter (selected alg y) (y_weights y) = [k; b]) by (rewrite Hw; cbn [filter]; rewrite Sk, Sb; reflexivity).
  assert (Eoth : filter (fun w => negb (selected alg y w)) (y_weights y) = []) by (rewrite Hw; cbn [filter]; rewrite Sk, Sb; reflexivity).
  rewrite (train_create alg y Hp Hk) with (initv := fun w => if String.eqb (lw_name w) "kernel" then ik else ib).
  - rewrite Esel, Eoth. cbn [map]. rewrite Nk, Nb. reflexivity.
  - rewrite Esel, E. cbn [map]. now rewrite Nk, Nb.
  - rewrite E. discriminate.
  - rewrite Esel. intros w [<- | [<- | []]]; [rewrite Nk | rewrite Nb]; cbn; assumption.
  - now apply alg_stable.
Qed.
Lemma ko_only y k : kernel_only y k -> a_compressible alg y = [Some "kernel"] /\ selected alg y k = true.
Proof.
  intros (Hp & Hk & Hw & Nk). assert (E : epr_compressible y = [Some "kernel"]).
  { unfold epr_compressible, attr_or_none, find_weight. rewrite Hw. cbn [find]. rewrite Nk. cbn. rewrite Nk. destruct Hk as [-> | ->]; reflexivity. }
  rewrite alg_compressible, E. split; auto. unfold selected. rewrite alg_compressible, E. cbn [existsb]. rewrite Nk. auto.
Qed.
Lemma epr_create_ko y k ik : transform o -> kernel_only y k -> a_init alg (lw_value k) = Ok ik -> create_layer_for_training alg y = Ok (mkTW y [("kernel", ik)] []).
Proof.
  intros T H Ik. destruct (ko_only y k H) as (E & Sk). destruct H as (Hp & Hk & Hw & Nk).
  assert (Esel : filter (selected alg y) (y_weights y) = [k]) by (rewrite Hw; cbn [filter]; rewrite Sk; reflexivity).
  assert (Eoth : filter (fun w => negb (selected alg y w)) (y_weights y) = []) by (rewrite Hw; cbn [filter]; rewrite Sk; reflexivity).
  rewrite (train_create alg y Hp Hk) with (initv := fun _ => ik).
  - rewrite Esel, Eoth. cbn [map]. now rewrite Nk.
  - rewrite Esel, E. cbn [map]. now rewrite Nk.
  - rewrite E. discriminate.
  - rewrite Esel. intros w [<- | []]. exact Ik.
  - now apply alg_stable.
Qed.

(** Training keeps the form. *)
Lemma stepped_F t v : stepped (VF t) v -> exists t', v = VF t' /\ shape t' = shape t /\ wf t'.
Proof. intros (S & W & F & _). destruct v as [t'|t']; [|discriminate F]. exists t'. repeat split; auto. Qed.
Lemma stepped_dense w ls sc tw : Forall2 stepped (dense_weights fast w ls sc) tw ->
  exists w' ls' sc', tw = dense_weights fast w' ls' sc' /\ shape w' = shape w /\ wf w' /\ shape ls' = shape ls /\ wf ls'.
Proof.
  unfold dense_weights. intros H. inversion H as [|? a ? l A B]; subst. inversion B as [|? c ? l2 C D]; subst.
  apply stepped_F in A as (w' & -> & Sw & Ww). apply stepped_F in C as (ls' & -> & Sl & Wl). destruct fast.
  - inversion D; subst. exists w', ls', sc. auto.
  - inversion D as [|? e ? l3 E F]; subst. inversion F; subst. apply stepped_F in E as (sc' & -> & _ & _). exists w', ls', sc'. auto.
Qed.
Lemma stepped_conv r ks ls sc tw : Forall2 stepped (conv_weights fast r ks ls sc) tw ->
  exists r' ls' sc', tw = conv_weights fast r' ks ls' sc' /\ shape r' = shape r /\ wf r' /\ shape ls' = shape ls /\ wf ls'.
Proof.
  unfold conv_weights. intros H. inversion H as [|? a ? l A B]; subst. inversion B as [|? i ? l1 I B1]; subst. inversion B1 as [|? c ? l2 C D]; subst.
  destruct I as (_ & _ & _ & I). rewrite (I eq_refl) in *. clear I.
  apply stepped_F in A as (r' & -> & Sw & Ww). apply stepped_F in C as (ls' & -> & Sl & Wl). destruct fast.
  - inversion D; subst. exists r', ls', sc. auto.
  - inversion D as [|? e ? l3 E F]; subst. inversion F; subst. apply stepped_F in E as (sc' & -> & _ & _). exists r', ls', sc'. auto.
Qed.
(** Every well-scaled training form compresses and decompresses to what the forward pass uses. *)
Lemma weight_carried t iw tw : positive o -> transform o -> coder o -> wf t -> (rank t = 1 \/ rank t = 2 \/ conv_shape (shape t)) -> small (shape t) ->
  a_init alg (VF t) = Ok iw -> Forall2 stepped iw tw -> well_scaled fast o tw ->
  exists c v, a_project alg tw = Ok (v, tw) /\ a_compress alg tw = Ok c /\ a_decompress alg c = Ok v.
Proof.
  intros P T Cd W R Sm Hi Hs Ws. assert (R' : 1 <= rank t <= 2 \/ conv_shape (shape t)) by (destruct R as [R | [R | R]]; [left; lia|left; lia|right; exact R]). clear R.
  destruct R' as [R | R].
  - rewrite init_dense in Hi by exact R. injection Hi as <-. apply stepped_dense in Hs as (w' & ls' & sc' & -> & Sw & Ww & Sl & Wl).
    destruct (Ws w' ls') as [Rp M]; [left; eauto|].
    destruct (dense_round_trip fast o w' ls' sc' P Cd) as (v & c & v' & E1 & E2 & E3 & _ & _ & _ & E4);
      [unfold rank; rewrite Sw; exact R | rewrite Sw; exact Sm | exact Wl | rewrite Sl; reflexivity | exact M |].
    rewrite E4 in E3 by exact Rp. do 2 eexists. eauto.
  - assert (R3 : rank t = 3 \/ rank t = 4) by exact (proj1 R). rewrite init_conv in Hi by exact R3. injection Hi as <-.
    apply stepped_conv in Hs as (r' & ls' & sc' & -> & Sw & Ww & Sl & Wl). destruct (Ws r' ls') as [Rp M]; [right; eauto|].
    destruct T as (T1 & _). destruct (T1 t W R3) as (S1 & _).
    destruct (conv_round_trip fast o r' (shape t) ls' sc' P Cd R Sm) as (x & c & x' & E1 & E2 & E3 & _ & _ & _ & E4);
      [rewrite Sw; exact S1 | exact Wl | rewrite Sl; change (shape (latent t)) with (shape (o_rfft o t)); rewrite S1; reflexivity | exact M |].
    rewrite E4 in E3 by exact Rp. do 2 eexists. eauto.
Qed.
Lemma infer_both y k b tk tb ck cb : kernel_and_bias y k b -> a_compress alg tk = Ok ck -> a_compress alg tb = Ok cb -> tk <> [] ->
  create_layer_for_inference alg (mkTW y [("kernel", tk); ("bias", tb)] []) = Ok (mkIW y [("kernel", ck); ("bias", cb)] []).
Proof.
  intros (Hp & Hk & Hw & Nk & Nb) Ek Eb Ne. unfold create_layer_for_inference, infer_build. cbn [tw_layer tw_training mapM fst snd]. rewrite Ek, Eb. cbn [bind].
  assert (Er : rest_of (map fst [("kernel", tk); ("bias", tb)]) y = []) by (unfold rest_of; rewrite Hw; cbn [filter map fst]; rewrite Nk, Nb; reflexivity).
  rewrite Er. unfold tw_get_weights. cbn [tw_training tw_rest map snd]. destruct (List.concat [tk; tb] ++ []) as [|v l] eqn:El; [destruct tk; [congruence|discriminate El]|].
  rewrite <- El. unfold map_to_inference_weights. cbn [map_loop assoc String.eqb Ascii.eqb Bool.eqb]. rewrite Ek, Eb. cbn [bind]. unfold iw_set_weights, iw_get_weights. cbn [iw_compressed iw_rest iw_layer map snd fst].
  rewrite same_shapes_eq by (f_equal; cbn [List.concat]; rewrite !app_nil_r; reflexivity). cbn [refill].
  rewrite firstn_app, firstn_all, Nat.sub_diag, firstn_O, app_nil_r. rewrite skipn_app, skipn_all, Nat.sub_diag, skipn_O. cbn [app].
  rewrite firstn_app, firstn_all, Nat.sub_diag, firstn_O, app_nil_r. reflexivity.
Qed.

Theorem layer_carried y k b tk tb : positive o -> transform o -> coder o -> kernel_and_bias y k b ->
  lw_value k = VF tk -> lw_value b = VF tb -> (rank tk = 2 \/ conv_shape (shape tk)) -> rank tb = 1 -> small (shape tk) -> small (shape tb) ->
  exists w, create_layer_for_training alg y = Ok w /\
  forall w', trained w w' -> Forall (fun p => well_scaled fast o (snd p)) (tw_training w') ->
  exists iw fw, create_layer_for_inference alg w' = Ok iw /\ train_call alg w' = Ok (fw, w') /\ infer_call alg iw = Ok fw.
Proof.
  intros P T Cd H Vk Vb Rk Rb Smk Smb.
  assert (Wk : wf tk /\ wf tb). { destruct H as ((_ & _ & Hall) & _ & Hw & _). split; [pose proof (Hall k) as Q | pose proof (Hall b) as Q]; rewrite Hw in Q; destruct Q as (_ & _ & _ & Q); try (cbn; auto; fail); rewrite ?Vk, ?Vb in Q; exact Q. }
  destruct Wk as [Wk Wb].
  assert (Ik : exists ik, a_init alg (VF tk) = Ok ik). { destruct Rk as [Rk | Rk]; eexists; [apply init_dense; lia | apply init_conv; exact (proj1 Rk)]. }
  assert (Ib : exists ib, a_init alg (VF tb) = Ok ib) by (eexists; apply init_dense; lia).
  destruct Ik as (ik & Ik). destruct Ib as (ib & Ib).
  eexists. split; [apply (epr_create y k b ik ib T H); [rewrite Vk; exact Ik | rewrite Vb; exact Ib]|].
  intros w' Ht Hw.
  assert (Hform : exists ik' ib', w' = mkTW y [("kernel", ik'); ("bias", ib')] [] /\ Forall2 stepped ik ik' /\ Forall2 stepped ib ib').
  { destruct Ht as (E & F & G). cbn [tw_layer tw_training tw_rest] in *. inversion F as [|? [n a] ? l A B]; subst. apply Forall2_one in B as ([n2 b2] & -> & En2 & B).
    cbn [fst snd] in *. destruct A as [-> A]. subst n2. inversion G as [G0|]; subst. exists a, b2. split; auto. destruct w'; cbn in *. congruence. }
  destruct Hform as (ik' & ib' & -> & Sk & Sb). cbn [tw_training] in Hw. inversion Hw as [|? ? W1 W2]; subst. inversion W2 as [|? ? W3 _]; subst. cbn [snd] in *.
  destruct (weight_carried tk ik ik' P T Cd Wk ltac:(tauto) Smk Ik Sk W1) as (ck & vk & K1 & K2 & K3).
  destruct (weight_carried tb ib ib' P T Cd Wb ltac:(tauto) Smb Ib Sb W3) as (cb & vb & B1 & B2 & B3).
  assert (Ne : ik' <> []). { intros ->. inversion Sk; subst. clear -Ik. destruct (init_inv _ _ Ik) as (t & E & R). injection E as <-. destruct R as [R | R]; [rewrite init_dense in Ik by exact R | rewrite init_conv in Ik by exact R]; discriminate Ik. }
  exists (mkIW y [("kernel", ck); ("bias", cb)] []), [("kernel", vk); ("bias", vb)].
  split; [now apply (infer_both y k b)|]. split.
  - unfold train_call. cbn [tw_training tw_layer tw_rest mapM snd fst]. rewrite K1, B1. reflexivity.
  - unfold infer_call. cbn [iw_compressed iw_rest mapM snd fst]. rewrite K3, B3. reflexivity.
Qed.

Theorem no_bias_raises y k tk w w' : transform o -> kernel_only y k -> lw_value k = VF tk -> (rank tk = 2 \/ rank tk = 4) ->
  create_layer_for_training alg y = Ok w -> trained w w' -> create_layer_for_inference alg w' = Err IndexError.
Proof.
  intros T H Vk R Hc Ht. assert (Ik : exists ik, a_init alg (VF tk) = Ok ik /\ ik <> []).
  { destruct R as [R | R]; eexists; (split; [|]); [apply init_dense; lia | discriminate | apply init_conv; lia | discriminate]. }
  destruct Ik as (ik & Ik & Ne). rewrite (epr_create_ko y k ik T H) in Hc by (rewrite Vk; exact Ik). injection Hc as <-.
  apply trained_ko in Ht as (ts' & -> & Hs).
  assert (Cp : exists cs, a_compress alg ts' = Ok cs).
  { destruct R as [R | R].
    - rewrite init_dense in Ik by lia. injection Ik as <-. apply stepped_dense in Hs as (? & ? & ? & -> & _). eexists. apply compress_dense.
    - rewrite init_conv in Ik by lia. injection Ik as <-. apply stepped_conv in Hs as (? & ? & ? & -> & _). eexists. apply compress_conv. }
  destruct Cp as (cs & Cp). apply (ko_infer alg y k ts' cs); auto. intros ->. inversion Hs; subst; congruence.
Qed.

Theorem conv1d_raises y k : conv1d_layer y k -> forall w, create_layer_for_training alg y <> Ok w.
Proof.
  intros (Hp & Hk & Nk & Hw) w. unfold create_layer_for_training. destruct Hp as (Hb & Hnd & Hall). rewrite Hb. cbn [negb].
  destruct (compressible_names alg y) as [names|] eqn:En; [|discriminate]. cbn [bind].
  destruct (train_build alg names y) as [w0|] eqn:Eb; [|discriminate]. cbn [bind].
  assert (Ec : exists c r, a_compressible alg y = c :: r). { rewrite alg_compressible. unfold epr_compressible. rewrite Hk. eauto. }
  destruct Ec as (c & r & Ec). rewrite Ec. unfold map_to_training_weights. rewrite Hk. cbn [bind].
  unfold tw_set_weights. destruct (same_shapes (tw_get_weights w0) []) eqn:Es; [|discriminate]. exfalso. apply same_shapes_iff in Es. cbn in Es. apply map_eq_nil in Es.
  unfold train_build in Eb. destruct (mapM _ names) as [tr|] eqn:Em; [|discriminate Eb]. cbn [bind] in Eb. injection Eb as <-. unfold tw_get_weights in Es. cbn [tw_training tw_rest] in Es. apply app_eq_nil in Es as [Es _].
  unfold compressible_names in En. rewrite Ec in En. cbn [mapM] in En. destruct c as [attr|]; [|discriminate En]. destruct (find_weight y attr) as [x|]; [|discriminate En]. cbn [bind] in En.
  destruct (mapM _ r) as [ns|]; [|discriminate En]. cbn [bind] in En. injection En as <-. cbn [mapM] in Em.
  destruct (find_weight y (weight_name _ _)) as [x2|]; [|discriminate Em]. destruct (a_init alg _) as [vs|] eqn:Ei; [|discriminate Em]. cbn [bind] in Em. destruct (mapM _ ns) as [trs|]; [|discriminate Em]. cbn [bind] in Em. injection Em as <-.
  cbn [map snd List.concat] in Es. apply app_eq_nil in Es as [-> _]. destruct (init_inv _ _ Ei) as (t & E & R). rewrite E in Ei. destruct R as [R | R]; [rewrite init_dense in Ei by exact R | rewrite init_conv in Ei by exact R]; discriminate Ei.
Qed.
End Layers.
