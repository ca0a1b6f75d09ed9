(** Trees of stages with fixed structure have fixed structure. *)
From Coq Require Import Lia.
From Verif Require Import Base M_Encoder M_Dicts S_Dicts M_Gather S_Gather M_CoreTree S_CoreTree L_Encoder L_Dicts L_Gather3 L_CoreTree L_CoreTree2 L_CoreTree3.

(** Loops over dictionaries alike those of the frame. *)
Lemma loop_over {F A B} (fr : dict F) (dd : dict A) (R : F -> A -> Prop) (L : string -> A -> res B) (Q : F -> B -> Prop) :
  items R fr dd -> (forall k f a, dget k fr = Some f -> R f a -> exists b, L k a = Ok b /\ Q f b) -> exists r, kmapM L dd = Ok r /\ items Q fr r.
Proof.
  intros (N1 & N2 & G) H. destruct (kmapM_ok L dd N2) as [r E]. { intros k a D. specialize (G k). rewrite D in G. destruct (dget k fr) as [f|] eqn:Df; [|destruct G]. destruct (H k f a Df G) as (b & -> & _). eauto. }
  exists r. split; [exact E|]. split; [exact N1|]. split; [now rewrite (kmapM_keys _ _ _ E)|]. intros k. pose proof (kmapM_get _ _ _ E k) as X. specialize (G k). destruct (dget k dd) as [a|] eqn:D.
  - destruct (dget k fr) as [f|] eqn:Df; [|destruct G]. destruct X as (b & Eb & ->). destruct (H k f a Df G) as (b' & Eb' & Qb). congruence.
  - rewrite X. destruct (dget k fr); [destruct G|exact Logic.I].
Qed.
Lemma items_map_l {A F B} (g : F -> A) (fr : dict F) (d : dict B) (R : A -> B -> Prop) : items R (kmap (fun _ => g) fr) d -> items (fun f b => R (g f) b) fr d.
Proof. intros (N1 & N2 & G). rewrite dkeys_kmap in N1. split; [exact N1|]. split; [exact N2|]. intros k. specialize (G k). rewrite dget_kmap in G. destruct (dget k fr), (dget k d); cbn in G; auto. Qed.


Section Fixed.
Context {V Sp M W0 : Type} (spec : V -> Sp) (is_none : V -> bool) (none : V) (shape_of : V -> V).
Hypothesis Static : static_shapes spec is_none shape_of.
Hypothesis None_is_none : is_none none = true.
Notation dval := (dval V).
Notation aenc := (aenc V M W0).
Notation alike := (alike spec).
Notation frame := (@frame V).
Notation c_encode := (c_encode is_none none shape_of).
Notation c_params := (c_params is_none).
Notation c_before := (c_before is_none).
Notation c_after := (c_after is_none).
Notation c_update := (c_update is_none).
Notation c_split := (c_split none).

Record node_ok (prev : bool) (e : aenc) (sp : Sp) (f : frame) : Prop := {
  n_initial : alike (f_st f) (tensors (c_initial e));
  n_params : forall w st, alike (f_st f) st -> exists ep dp, c_params e w st = Ok (ep, dp) /\ alike (f_ep f) ep /\ alike (f_dp f) dp;
  n_split : forall dp, alike (f_dp f) dp -> exists bp ap, c_split PARAMS dp (c_commuting prev e) = Ok (bp, ap) /\ alike (f_bp f) bp /\ alike (f_ap f) ap;
  n_encode : forall w x ep, spec x = sp -> alike (f_ep f) ep -> exists enc upd sh, c_encode e w x ep = Ok (enc, upd, sh) /\ alike (f_enc f) enc /\ alike (f_upd f) upd /\ alike (f_sh f) sh;
  n_shapes : forall sh, alike (f_sh f) sh -> exists shb sha, c_split SHAPE sh (c_commuting prev e) = Ok (shb, sha) /\ alike (f_shb f) shb /\ alike (f_sha f) sha;
  n_before : forall enc bp shb, alike (f_enc f) enc -> alike (f_bp f) bp -> alike (f_shb f) shb -> exists p, c_before (negb prev) e enc bp shb = Ok p /\ alike (f_part f) p;
  n_part : (prev && match e with AEnc s _ => a_commutes s end)%bool = false -> exists y, f_part f = DTf y /\ spec y = sp;
  n_after : prev = true -> forall p ap n sha, alike (f_part f) p -> alike (f_ap f) ap -> alike (f_sha f) sha -> exists y, c_after e p ap n sha = Ok (DTf y) /\ spec y = sp;
  n_decode : forall enc dp sh, alike (f_enc f) enc -> alike (f_dp f) dp -> alike (f_sh f) sh -> exists y, c_before true e enc dp sh = Ok (DTf y) /\ spec y = sp;
  n_uni : forall v v' dp sh, alike (f_enc f) v -> alike (f_enc f) v' -> alike (f_dp f) dp -> alike (f_sh f) sh -> uni spec is_none e v v' dp sh;
  n_update : forall st u, alike (f_st f) st -> arranged (f_upd f) u -> exists st', c_update e st u = Ok st' /\ alike (f_st f) st';
  n_dicts : at_path [] (f_ep f) = ADict /\ at_path [] (f_dp f) = ADict /\ at_path [] (f_bp f) = ADict /\ at_path [] (f_ap f) = ADict /\ at_path [] (f_enc f) = ADict /\
            at_path [] (f_shb f) = ADict /\ at_path [] (f_sha f) = ADict /\ at_path [] (f_sh f) = ADict;
  n_tensors : only_tensors (f_st f) /\ only_tensors (f_enc f) /\ only_tensors (f_upd f) /\ only_tensors (f_part f);
  n_keys : slash_safe (f_enc f) /\ slash_safe (f_shb f) /\ slash_safe (f_part f) /\ slash_safe (f_dp f) /\ slash_safe (f_sh f) }.

(** The frame of a node, from the frame of its stage and the frames of its children. *)
Definition node key (x : dval) (g : frame -> dval) (fr : dict frame) : dval := DDict [(key, x); (CHILDREN, DDict (kmap (fun _ => g) fr))].
Section Node.
Context (s : astage V M W0) (kids : dict aenc) (sp : Sp) (sf : @stage_frame V) (at_key : string -> V) (prev : bool) (x0 : V) (fr : dict frame).
Let current := (prev && a_commutes s)%bool.
Hypothesis SF : stage_fixed spec is_none shape_of s sp sf.
Hypothesis N : NoDup (dkeys kids).
Hypothesis AT : forall k e, In (k, e) kids -> dget k (sf_enc sf) = Some (at_key k).
Hypothesis KS : forall k k' ch r, In k (dkeys kids) -> In k' (dkeys (sf_enc sf)) -> codes k' = codes k ++ ch :: r -> (47 < ch)%nat.
Hypothesis X0 : spec x0 = sp.
Hypothesis FK : dkeys fr = dkeys kids.
Hypothesis FR : forall k, match dget k kids, dget k fr with Some c, Some f => node_ok current c (spec (at_key k)) f | None, None => True | _, _ => False end.

Let base := kmap (fun _ x => DTf x) (sf_enc sf) : dict dval.
Let shv := DPy (if a_needs_shape s then shape_of x0 else none) : dval.
Let nop := DDict (kmap (fun _ _ => DPy none) (sf_dp sf)) : dval.
Definition node_frame : frame := mkFrame
  (node STATE (tensor_dict (sf_st sf)) f_st fr)
  (node PARAMS (leaves (sf_ep sf)) f_ep fr)
  (node PARAMS (leaves (sf_dp sf)) f_dp fr)
  (node PARAMS (if current then nop else leaves (sf_dp sf)) f_bp fr)
  (node PARAMS (if current then leaves (sf_dp sf) else nop) f_ap fr)
  (DDict (overlay f_enc base fr))
  (node TENSORS (tensor_dict (sf_upd sf)) f_upd fr)
  (node SHAPE shv f_sh fr)
  (node SHAPE (if current then DPy none else shv) f_shb fr)
  (node SHAPE (if current then shv else DPy none) f_sha fr)
  (if current then DDict (overlay f_part base fr) else DTf x0).

Lemma fr_kid k f : dget k fr = Some f -> exists c, dget k kids = Some c /\ node_ok current c (spec (at_key k)) f /\ dget k (sf_enc sf) = Some (at_key k).
Proof.
  intros D. specialize (FR k). rewrite D in FR. destruct (dget k kids) as [c|] eqn:K; [|destruct FR]. exists c. split; [reflexivity|]. split; [exact FR|]. apply (AT k c). now apply dget_in.
Qed.
Lemma kid_fr k c : dget k kids = Some c -> exists f, dget k fr = Some f /\ node_ok current c (spec (at_key k)) f /\ dget k (sf_enc sf) = Some (at_key k).
Proof.
  intros D. specialize (FR k). rewrite D in FR. destruct (dget k fr) as [f|] eqn:K; [|destruct FR]. exists f. split; [reflexivity|]. split; [exact FR|]. apply (AT k c). now apply dget_in.
Qed.
Lemma kid_node k c f : dget k kids = Some c -> dget k fr = Some f -> node_ok current c (spec (at_key k)) f.
Proof. intros D D'. destruct (kid_fr k c D) as (f' & E & H & _). congruence. Qed.
Lemma kid_none k : dget k kids = None -> dget k fr = None.
Proof. intros D. specialize (FR k). rewrite D in FR. destruct (dget k fr); [destruct FR|reflexivity]. Qed.
Lemma Nfr : NoDup (dkeys fr). Proof. now rewrite FK. Qed.

Lemma node_item key (x : dval) g v : alike (node key x g fr) v -> exists x', dict_item key v = Ok x' /\ alike x x'.
Proof. intros H. eapply item_alike; [exact H|]. apply item_node1. Qed.
Lemma node_child key (x : dval) g v k f : key <> CHILDREN -> alike (node key x g fr) v -> dget k fr = Some f -> exists w, child k v = Ok w /\ alike (g f) w.
Proof. intros K H D. eapply child_alike; [exact H|]. now apply child_node1. Qed.
Lemma anode_item key (x : dval) g v : arranged (node key x g fr) v -> exists x', dict_item key v = Ok x' /\ arranged x x'.
Proof. intros H. eapply (item_arranged spec); [exact H|]. apply item_node1. Qed.
Lemma anode_child key (x : dval) g v k f : key <> CHILDREN -> arranged (node key x g fr) v -> dget k fr = Some f -> exists w, child k v = Ok w /\ arranged (g f) w.
Proof. intros K H D. eapply (child_arranged spec); [exact H|]. now apply child_node1. Qed.

Lemma split_node key (x xe : dval) g gb ga v : key <> CHILDREN -> alike (node key x g fr) v ->
  (forall x', alike x x' -> alike xe (match x' with DDict dd => DDict (kmap (fun _ _ => DPy none) dd) | _ => DPy none end)) ->
  (forall k c f, dget k kids = Some c -> dget k fr = Some f -> forall w, alike (g f) w -> exists b a, c_split key w (c_commuting current c) = Ok (b, a) /\ alike (gb f) b /\ alike (ga f) a) ->
  exists b a, c_split key v (c_commuting prev (AEnc s kids)) = Ok (b, a) /\ alike (node key (if current then xe else x) gb fr) b /\ alike (node key (if current then x else xe) ga fr) a.
Proof.
  intros K H Em IH. pose proof H as H0. apply alike_dict_inv in H0 as (d & -> & _). rewrite split_unfold.
  destruct (node_item _ _ _ _ H) as (x' & E1 & A1). cbn [dict_item] in E1. rewrite E1. cbn [bind].
  assert (exists ch, dict_item CHILDREN (DDict d) = Ok ch /\ alike (DDict (kmap (fun _ => g) fr)) ch) as (ch & E2 & A2).
  { eapply item_alike; [exact H|]. cbn. unfold dindex. cbn [dget]. destruct (String.eqb_spec CHILDREN key) as [E|]; [congruence|]. now rewrite String.eqb_refl. }
  cbn [dict_item] in E2. rewrite E2. cbn [bind]. apply alike_dict_inv in A2 as (dd & -> & A2). apply items_map_l in A2.
  destruct (loop_over fr dd _ (fun k w => do ck <- dindex k (tkids (c_commuting prev (AEnc s kids))) ;; c_split key w ck) (fun f r => alike (gb f) (fst r) /\ alike (ga f) (snd r)) A2) as (ks & E3 & I3).
  { intros k f w D A. destruct (fr_kid k f D) as (c & Dc & _ & _). unfold dindex. cbn [c_commuting tkids]. rewrite dget_kmap, Dc. cbn [option_map bind]. fold current. destruct (IH k c f Dc D w A) as (b & a & -> & B1 & B2). exists (b, a). auto. }
  rewrite E3. cbn [bind]. cbv zeta. do 2 eexists. split; [reflexivity|]. cbn [c_commuting troot]. fold current. specialize (Em x' A1).
  split; apply node_alike; auto; try (now destruct current); eapply kids_alike; try exact I3; now intros f r [? ?].
Qed.
Lemma stage_decode_ok (d : dict dval) p n sh p0 : items (fun x w => exists y, w = DTf y /\ spec x = spec y) (sf_enc sf) d ->
  dict_item PARAMS p = Ok p0 -> alike (leaves (sf_dp sf)) p0 -> dict_item SHAPE sh = Ok shv -> exists y, stage_decode is_none s d p n sh = Ok (DTf y) /\ spec y = sp.
Proof.
  intros D E1 A1 E2. unfold stage_decode. rewrite E1, E2. cbn [bind]. destruct (convert_items is_none (same_spec spec) _ _ D) as (d1 & -> & D1). cbn [bind].
  destruct (convert_leaves spec is_none _ _ (proj2 (sx_usable _ _ _ _ _ _ SF)) A1) as (p1 & -> & P1). cbn [bind].
  assert (E3 : convert_shape is_none shv = Ok (if a_needs_shape s then Some (shape_of x0) else None)). { unfold shv. cbn. destruct (a_needs_shape s); [now rewrite (proj2 Static)|now rewrite None_is_none]. }
  rewrite E3. cbn [bind]. destruct (sx_decode _ _ _ _ _ _ SF d1 p1 n x0 D1 P1 X0) as (y & -> & Sy). cbn [bind]. eauto.
Qed.
Lemma sub_ok (F : aenc -> dval -> dval -> dval -> res dval) gv d p sh gp gs (Q : string -> dval -> Prop) : items alike (overlay gv base fr) d ->
  (forall k f, dget k fr = Some f -> exists pk, child k p = Ok pk /\ alike (gp f) pk) -> (forall k f, dget k fr = Some f -> exists pk, child k sh = Ok pk /\ alike (gs f) pk) ->
  (forall k c f, dget k kids = Some c -> dget k fr = Some f -> forall w pk shk, alike (gv f) w -> alike (gp f) pk -> alike (gs f) shk -> exists b, F c w pk shk = Ok b /\ Q k b) ->
  exists r, kmapM (fun k w => match dget k kids with Some c => do pk <- child k p ;; do shk <- child k sh ;; F c w pk shk | None => Ok w end) d = Ok r /\ NoDup (dkeys r) /\
    forall k, match dget k (sf_enc sf) with None => dget k r = None | Some x => exists b, dget k r = Some b /\ match dget k kids with Some _ => Q k b | None => alike (DTf x) b end end.
Proof.
  intros (_ & Nd & G) P1 P2 IH.
  assert (X : forall k w, dget k d = Some w -> exists b, match dget k kids with Some c => do pk <- child k p ;; do shk <- child k sh ;; F c w pk shk | None => Ok w end = Ok b /\
     exists x, dget k (sf_enc sf) = Some x /\ match dget k kids with Some _ => Q k b | None => alike (DTf x) b end).
  { intros k w D. specialize (G k). rewrite D, (overlay_get gv base fr k Nfr) in G. destruct (dget k kids) as [c|] eqn:Dk.
    - destruct (kid_fr k c Dk) as (f & Df & _ & De). rewrite Df in G. destruct (P1 k f Df) as (pk & -> & A1). destruct (P2 k f Df) as (shk & -> & A2). cbn [bind]. destruct (IH k c f Dk Df w pk shk G A1 A2) as (b & -> & Qb). eauto 6.
    - rewrite (kid_none k Dk) in G. unfold base in G. rewrite dget_kmap in G. destruct (dget k (sf_enc sf)) as [x|]; [|destruct G]. cbn in G. eauto 6. }
  destruct (kmapM_ok (fun k w => match dget k kids with Some c => do pk <- child k p ;; do shk <- child k sh ;; F c w pk shk | None => Ok w end) d Nd) as [r E]. { intros k w D. destruct (X k w D) as (b & Eb & _). eauto. }
  exists r. split; [exact E|]. split; [now rewrite (kmapM_keys _ _ _ E)|]. intros k. pose proof (kmapM_get _ _ _ E k) as Y. cbv beta in Y. specialize (G k). rewrite (overlay_get gv base fr k Nfr) in G. destruct (dget k d) as [w|] eqn:D.
  - destruct (X k w D) as (b & Eb & x & De & R). destruct Y as (b' & Eb' & Dr). rewrite De. exists b'. split; [exact Dr|]. assert (b' = b) as -> by congruence. exact R.
  - destruct (dget k (sf_enc sf)) as [x|] eqn:De; [|exact Y]. unfold base in G. rewrite dget_kmap, De in G. cbn in G. destruct (dget k fr); destruct G.
Qed.
(** ... when the children come out as tensors. *)
Lemma all_tensors r : NoDup (dkeys r) -> (forall k, match dget k (sf_enc sf) with None => dget k r = None
    | Some x => exists b, dget k r = Some b /\ match dget k kids with Some _ => exists y, b = DTf y /\ spec y = spec (at_key k) | None => alike (DTf x) b end end) ->
  items (fun x w => exists y, w = DTf y /\ spec x = spec y) (sf_enc sf) r.
Proof.
  intros Nr H. split; [apply (sx_keys _ _ _ _ _ _ SF)|]. split; [exact Nr|]. intros k. specialize (H k). destruct (dget k (sf_enc sf)) as [x|] eqn:De; [|now rewrite H]. destruct H as (b & -> & H).
  destruct (dget k kids) as [c|] eqn:Dk; [|now apply alike_tf in H]. destruct H as (y & -> & Sy). exists y. split; [reflexivity|]. destruct (kid_fr k c Dk) as (f & _ & _ & E). congruence.
Qed.
Lemma all_parts r : NoDup (dkeys r) -> (forall k, match dget k (sf_enc sf) with None => dget k r = None
    | Some x => exists b, dget k r = Some b /\ match dget k kids with Some _ => exists f, dget k fr = Some f /\ alike (f_part f) b | None => alike (DTf x) b end end) ->
  items alike (overlay f_part base fr) r.
Proof.
  intros Nr H. split; [apply overlay_nodup; unfold base; rewrite dkeys_kmap; apply (sx_keys _ _ _ _ _ _ SF)|]. split; [exact Nr|]. intros k. specialize (H k). rewrite (overlay_get _ _ _ _ Nfr). unfold base. rewrite dget_kmap.
  destruct (dget k (sf_enc sf)) as [x|] eqn:De.
  - destruct H as (b & -> & H). destruct (dget k kids) as [c|] eqn:Dk.
    + destruct H as (f & -> & A). exact A.
    + rewrite (kid_none k Dk). exact H.
  - rewrite H. destruct (dget k fr) as [f|] eqn:Df; [|exact Logic.I]. destruct (fr_kid k f Df) as (c & _ & _ & E). congruence.
Qed.
Lemma overlay_cases g k w : dget k (overlay g base fr) = Some w -> (exists f c, dget k fr = Some f /\ dget k kids = Some c /\ w = g f /\ node_ok current c (spec (at_key k)) f) \/ (exists x, w = DTf x) /\ dget k (sf_enc sf) <> None /\ dget k kids = None.
Proof.
  rewrite (overlay_get _ _ _ _ Nfr). destruct (dget k fr) as [f|] eqn:Df.
  - intros [= <-]. destruct (fr_kid k f Df) as (c & Dc & Nk & _). left. eauto 6.
  - unfold base. rewrite dget_kmap. destruct (dget k (sf_enc sf)) as [x|]; [|discriminate]. intros [= <-]. right. split; [eauto|]. split; [discriminate|]. specialize (FR k). rewrite Df in FR. now destruct (dget k kids).
Qed.
Lemma overlay_safe g : (forall c f k, node_ok current c (spec (at_key k)) f -> slash_safe (g f)) -> slash_safe (DDict (overlay g base fr)).
Proof.
  intros H. apply safe_dict.
  - intros k w D. destruct (overlay_cases g k w D) as [(f & c & _ & _ & -> & Nk)|[[x ->] _]]; [eauto|]. apply safe_leaf. discriminate.
  - intros k w k' w' ch r D A D' C. destruct (overlay_cases g k w D) as [(f & c & _ & Dk & -> & Nk)|[[x ->] _]]; [|discriminate]. apply (KS k k' ch r); [apply get_key; eauto| |exact C].
    destruct (overlay_cases g k' w' D') as [(f' & c' & _ & Dk' & _)|[_ [E _]]]; [|apply get_key; destruct (dget k' (sf_enc sf)); [eauto|congruence]]. apply get_key. destruct (kid_fr k' c' Dk') as (_ & _ & _ & E). eauto.
Qed.
Lemma node_safe key x g : In key [PARAMS; SHAPE; STATE; TENSORS] -> slash_safe x -> (forall c f k, node_ok current c (spec (at_key k)) f -> slash_safe (g f)) -> slash_safe (node key x g fr).
Proof.
  intros K Sx H. apply safe_node; [exact K|exact Sx|]. apply safe_dict.
  - intros k w D. rewrite dget_kmap in D. destruct (dget k fr) as [f|] eqn:Df; [|discriminate]. injection D as <-. destruct (fr_kid k f Df) as (c & _ & Nk & _). eauto.
  - intros k w k' w' ch r D _ D' C. rewrite dget_kmap in D, D'. destruct (dget k fr) as [f|] eqn:Df; [|discriminate]. destruct (dget k' fr) as [f'|] eqn:Df'; [|discriminate].
    destruct (fr_kid k f Df) as (c & Dc & _). destruct (fr_kid k' f' Df') as (c' & _ & _ & E). apply (KS k k' ch r); [apply get_key; eauto|apply get_key; eauto|exact C].
Qed.
Lemma node_only key x g : only_tensors x -> (forall c f k, node_ok current c (spec (at_key k)) f -> only_tensors (g f)) -> only_tensors (node key x g fr).
Proof.
  intros Ox H. apply only_dict. intros k w D. cbn in D. destruct (String.eqb k key); [now injection D as <-|]. destruct (String.eqb k CHILDREN); [|discriminate]. injection D as <-. apply only_dict. intros k2 w2 D2. rewrite dget_kmap in D2.
  destruct (dget k2 fr) as [f|] eqn:Df; [|discriminate]. injection D2 as <-. destruct (fr_kid k2 f Df) as (c & _ & Nk & _). eauto.
Qed.
Lemma tensor_only (d : dict V) : only_tensors (tensor_dict d).
Proof. apply only_dict. intros k w D. rewrite dget_kmap in D. destruct (dget k d); [|discriminate]. injection D as <-. apply only_tf. Qed.
Lemma overlay_only g : (forall c f k, node_ok current c (spec (at_key k)) f -> only_tensors (g f)) -> only_tensors (DDict (overlay g base fr)).
Proof. intros H. apply only_dict. intros k w D. destruct (overlay_cases g k w D) as [(f & c & _ & _ & -> & Nk)|[[x ->] _]]; [eauto|apply only_tf]. Qed.
Lemma tensors_dict (d : dict dval) : tensors (DDict d) = DDict (kmap (fun _ => tensors) d).
Proof. reflexivity. Qed.
Ltac ne := discriminate.
Lemma cur_cases : current = true \/ current = false.
Proof. destruct (Bool.bool_dec current true) as [E|E]; [now left|right]. now apply Bool.not_true_is_false. Qed.
Lemma fo_eq : (negb prev || negb (a_commutes s))%bool = negb current.
Proof. unfold current. now destruct prev, (a_commutes s). Qed.
Lemma initial_node : alike (f_st node_frame) (tensors (c_initial (AEnc s kids))).
Proof.
  cbn [c_initial]. rewrite tensors_dict. cbn [kmap node_frame f_st]. unfold node. apply node_alike; [ne| |].
  - unfold leaves. rewrite tensors_dict, kmap_kmap. apply alike_dict. destruct (sx_initial _ _ _ _ _ _ SF) as (N1 & N2 & G). split; [now rewrite dkeys_kmap|]. split; [now rewrite dkeys_kmap|].
    intros k. rewrite !dget_kmap. specialize (G k). destruct (dget k (sf_st sf)), (dget k (a_initial s)) as [[[|] y]|]; cbn in *; try tauto; now apply tf_alike.
  - rewrite tensors_dict, kmap_kmap. apply alike_dict. split; [rewrite dkeys_kmap; exact Nfr|]. split; [now rewrite dkeys_kmap|]. intros k. rewrite !dget_kmap. specialize (FR k). destruct (dget k kids), (dget k fr); cbn; try tauto. apply (n_initial _ _ _ _ FR).
Qed.
Lemma params_node w st : alike (f_st node_frame) st -> exists ep dp, c_params (AEnc s kids) w st = Ok (ep, dp) /\ alike (f_ep node_frame) ep /\ alike (f_dp node_frame) dp.
Proof.
  intros A. cbn [M_CoreTree.c_params]. destruct (node_item _ _ _ _ A) as (s0 & -> & A0). cbn [bind]. destruct (convert_tensors spec is_none _ _ A0) as (s1 & -> & A1). cbn [bind].
  destruct (sx_params _ _ _ _ _ _ SF (w []) s1 A1) as (ep & dp & -> & P1 & P2). cbn [bind].
  destruct (loop_alike kids fr (fun k c => do sk <- child k st ;; c_params c (fun p => w (k :: p)) sk) (fun f r => alike (f_ep f) (fst r) /\ alike (f_dp f) (snd r)) N FK) as (cs & -> & I3).
  { intros k c f Dc Df. destruct (node_child STATE _ _ _ k f ltac:(ne) A Df) as (sk & -> & Ak). cbn [bind]. destruct (n_params _ _ _ _ (kid_node k c f Dc Df) (fun p => w (k :: p)) sk Ak) as (e' & d' & -> & B1 & B2). exists (e', d'). auto. }
  cbn [bind]. do 2 eexists. split; [reflexivity|]. cbn [node_frame f_ep f_dp]. split; (apply node_alike; [ne|now apply leaves_alike|eapply kids_alike; [exact I3|now intros f r [? ?]]]).
Qed.
Lemma update_node st u : alike (f_st node_frame) st -> arranged (f_upd node_frame) u -> exists st', c_update (AEnc s kids) st u = Ok st' /\ alike (f_st node_frame) st'.
Proof.
  intros A U. cbn [M_CoreTree.c_update].
  destruct (loop_alike kids fr (fun k c => do sk <- child k st ;; do uk <- child k u ;; c_update c sk uk) (fun f r => alike (f_st f) r) N FK) as (cs & -> & I3).
  { intros k c f Dc Df. destruct (node_child STATE _ _ _ k f ltac:(ne) A Df) as (sk & -> & Ak). destruct (anode_child TENSORS _ _ _ k f ltac:(ne) U Df) as (uk & -> & Au). cbn [bind]. exact (n_update _ _ _ _ (kid_node k c f Dc Df) sk uk Ak Au). }
  cbn [bind]. destruct (node_item _ _ _ _ A) as (s0 & -> & A0). destruct (anode_item _ _ _ _ U) as (u0 & -> & U0). cbn [bind]. destruct (convert_tensors spec is_none _ _ A0) as (s1 & -> & A1). destruct (convert_arranged spec is_none _ _ U0) as (u1 & -> & U1). cbn [bind].
  destruct (sx_update _ _ _ _ _ _ SF s1 u1 A1 U1) as (st' & -> & Q). cbn [bind]. eexists. split; [reflexivity|]. cbn [node_frame f_st]. apply node_swap; [ne|now apply tensors_alike|].
  apply alike_dict. destruct I3 as (I1 & I2 & I3). split; [now rewrite dkeys_kmap|]. split; [exact I2|]. intros k. rewrite dget_kmap. specialize (I3 k). destruct (dget k fr), (dget k cs); cbn; tauto.
Qed.
Lemma encode_node w x ep : spec x = sp -> alike (f_ep node_frame) ep -> exists enc upd sh, c_encode (AEnc s kids) w x ep = Ok (enc, upd, sh) /\ alike (f_enc node_frame) enc /\ alike (f_upd node_frame) upd /\ alike (f_sh node_frame) sh.
Proof.
  intros Sx A. cbn [M_CoreTree.c_encode]. destruct (node_item _ _ _ _ A) as (p0 & -> & A0). cbn [bind]. destruct (convert_leaves spec is_none _ _ (proj1 (sx_usable _ _ _ _ _ _ SF)) A0) as (p1 & -> & A1). cbn [bind].
  destruct (sx_encode _ _ _ _ _ _ SF (w []) x p1 Sx A1) as (enc & upd & -> & E1 & U1). cbn [bind].
  destruct (loop_alike kids fr (fun k c => do y <- dindex k enc ;; do pk <- child k ep ;; c_encode c (fun q => w (k :: q)) y pk) (fun f r => alike (f_enc f) (fst (fst r)) /\ alike (f_upd f) (snd (fst r)) /\ alike (f_sh f) (snd r)) N FK) as (cs & E3 & I3).
  { intros k c f Dc Df. destruct (node_child PARAMS _ _ _ k f ltac:(ne) A Df) as (pk & -> & Ak). destruct (kid_fr k c Dc) as (f' & Df' & Nk & De). assert (f' = f) as -> by congruence.
    pose proof (proj2 (proj2 E1) k) as G. rewrite De in G. unfold dindex. destruct (dget k enc) as [y|]; [|destruct G]. cbn [bind]. destruct (n_encode _ _ _ _ Nk (fun q => w (k :: q)) y pk (eq_sym G) Ak) as (e' & u' & s' & -> & B1 & B2 & B3). exists (e', u', s'). auto. }
  rewrite E3. cbn [bind]. do 3 eexists. split; [reflexivity|]. cbn [node_frame f_enc f_upd f_sh]. assert (Ncs : NoDup (dkeys cs)) by (rewrite (kmapM_keys _ _ _ E3); exact N).
  split; [|split].
  - apply alike_dict. split; [apply overlay_nodup; unfold base; rewrite dkeys_kmap; apply (sx_keys _ _ _ _ _ _ SF)|]. split; [apply (fold_dset_nodup (fun r => fst (fst r))); rewrite dkeys_kmap; apply E1|].
    intros k. rewrite (fold_dset (fun r => fst (fst r))) by exact Ncs. rewrite (overlay_get _ _ _ _ Nfr). pose proof (proj2 (proj2 I3) k) as G. destruct (dget k fr), (dget k cs); cbn in G; try tauto.
    unfold base. rewrite !dget_kmap. pose proof (proj2 (proj2 E1) k) as G2. destruct (dget k (sf_enc sf)), (dget k enc); cbn; try tauto. now apply tf_alike.
  - apply node_alike; [ne|now apply tensors_alike|]. eapply kids_alike; [exact I3|]. intros f r H. apply H.
  - apply node_alike; [ne| |eapply kids_alike; [exact I3|]; intros f r H; apply H]. assert (Hs : forall b : bool, alike (DPy (if b then shape_of x0 else none)) (if b then DPy (shape_of x) else DPy none)) by (intros [|]; [rewrite (proj1 Static x x0) by congruence|]; apply py_alike). exact (Hs _).
Qed.
Lemma child_of key x g v : key <> CHILDREN -> alike (node key x g fr) v -> forall k f, dget k fr = Some f -> exists w, child k v = Ok w /\ alike (g f) w.
Proof. intros K A k f D. eapply node_child; eauto. Qed.
Lemma before_node enc bp shb : alike (f_enc node_frame) enc -> alike (f_bp node_frame) bp -> alike (f_shb node_frame) shb -> exists p, c_before (negb prev) (AEnc s kids) enc bp shb = Ok p /\ alike (f_part node_frame) p.
Proof.
  cbn [node_frame f_enc f_bp f_shb f_part]. intros A B C. rewrite before_unfold, fo_eq. cbv zeta. apply alike_dict_inv in A as (d & -> & A).
  destruct (sub_ok (c_before (negb current)) f_enc d bp shb f_bp f_shb (fun k b => exists f, dget k fr = Some f /\ alike (f_part f) b) A (child_of PARAMS _ _ _ ltac:(ne) B) (child_of SHAPE _ _ _ ltac:(ne) C)) as (r & -> & Nr & R).
  { intros k c f Dc Df w pk shk H1 H2 H3. destruct (n_before _ _ _ _ (kid_node k c f Dc Df) w pk shk H1 H2 H3) as (b & -> & Ab). eauto. }
  cbn [bind]. destruct cur_cases as [Cu|Cu]; rewrite Cu in B, C |- *; cbn [negb].
  - eexists. split; [reflexivity|]. apply alike_dict, all_parts; assumption.
  - destruct (node_item _ _ _ _ B) as (p0 & Ep & A0). destruct (node_item _ _ _ _ C) as (s0 & Es & A1). apply alike_py in A1. rewrite A1 in Es. clear A1 s0.
    destruct (stage_decode_ok r bp None shb p0) as (y & -> & Sy); auto; [|eexists; split; [reflexivity|apply tf_alike; congruence]].
    apply all_tensors; [exact Nr|]. intros k. specialize (R k). destruct (dget k (sf_enc sf)); [|exact R]. destruct R as (b & Db & R). exists b. split; [exact Db|]. destruct (dget k kids) as [c|] eqn:Dc; [|exact R]. destruct R as (f & Df & Af).
    pose proof (kid_node k c f Dc Df) as Nk. rewrite Cu in Nk. destruct (n_part _ _ _ _ Nk eq_refl) as (z & Ez & Sz). rewrite Ez in Af. apply alike_tf in Af as (y & -> & Sy). exists y. split; [reflexivity|congruence].
Qed.
Lemma decode_node enc dp sh : alike (f_enc node_frame) enc -> alike (f_dp node_frame) dp -> alike (f_sh node_frame) sh -> exists y, c_before true (AEnc s kids) enc dp sh = Ok (DTf y) /\ spec y = sp.
Proof.
  cbn [node_frame f_enc f_dp f_sh]. intros A B C. rewrite before_unfold. cbn [orb]. cbv zeta. apply alike_dict_inv in A as (d & -> & A).
  destruct (sub_ok (c_before true) f_enc d dp sh f_dp f_sh (fun k b => exists y, b = DTf y /\ spec y = spec (at_key k)) A (child_of PARAMS _ _ _ ltac:(ne) B) (child_of SHAPE _ _ _ ltac:(ne) C)) as (r & -> & Nr & R).
  { intros k c f Dc Df w pk shk H1 H2 H3. destruct (n_decode _ _ _ _ (kid_node k c f Dc Df) w pk shk H1 H2 H3) as (y & -> & Sy). eauto. }
  cbn [bind]. destruct (node_item _ _ _ _ B) as (p0 & Ep & A0). destruct (node_item _ _ _ _ C) as (s0 & Es & A1). apply alike_py in A1. rewrite A1 in Es. clear A1 s0.
  apply (stage_decode_ok r dp None sh p0); auto. now apply all_tensors.
Qed.
Lemma items_tri (d r r' : dict V) : items (same_spec spec) d r -> items (same_spec spec) d r' -> items (same_spec spec) r r'.
Proof. intros (_ & N1 & H) (_ & N2 & H'). split; [exact N1|]. split; [exact N2|]. intros k. specialize (H k). specialize (H' k). destruct (dget k d), (dget k r), (dget k r'); try tauto. unfold same_spec in *. congruence. Qed.
Lemma uni_node v v' dp sh : alike (f_enc node_frame) v -> alike (f_enc node_frame) v' -> alike (f_dp node_frame) dp -> alike (f_sh node_frame) sh -> uni spec is_none (AEnc s kids) v v' dp sh.
Proof.
  cbn [node_frame f_enc f_dp f_sh]. intros A A' B C. apply alike_dict_inv in A as (d & -> & A). apply alike_dict_inv in A' as (d' & -> & A'). constructor.
  - assert (X : forall d r, items alike (overlay f_enc base fr) d -> stage_in is_none kids (DDict d) dp sh = Ok r -> items (same_spec spec) (sf_enc sf) r).
    { clear d d' A A'. intros d r A. unfold stage_in. cbn [ditems].
      destruct (sub_ok (c_before true) f_enc d dp sh f_dp f_sh (fun k b => exists y, b = DTf y /\ spec y = spec (at_key k)) A (child_of PARAMS _ _ _ ltac:(ne) B) (child_of SHAPE _ _ _ ltac:(ne) C)) as (r0 & -> & Nr & R).
      { intros k c f Dc Df w pk shk H1 H2 H3. destruct (n_decode _ _ _ _ (kid_node k c f Dc Df) w pk shk H1 H2 H3) as (y & -> & Sy). eauto. }
      cbn [bind]. destruct (convert_items is_none (same_spec spec) _ _ (all_tensors r0 Nr R)) as (d1 & -> & D1). intros [= <-]. exact D1. }
    intros r r' E E'. eapply items_tri; [exact (X d r A E)|exact (X d' r' A' E')].
  - cbn [ditems]. intros k c w w' dk shk Dc Dw Dw' Cp Cs. destruct (kid_fr k c Dc) as (f & Df & Nf & _). destruct A as (_ & _ & A). destruct A' as (_ & _ & A'). specialize (A k). specialize (A' k). rewrite (overlay_get _ _ _ _ Nfr), Df, Dw in A. rewrite (overlay_get _ _ _ _ Nfr), Df, Dw' in A'.
    destruct (node_child PARAMS _ _ _ k f ltac:(ne) B Df) as (pk & E1 & A1). destruct (node_child SHAPE _ _ _ k f ltac:(ne) C Df) as (sk & E2 & A2). rewrite Cp in E1. injection E1 as <-. rewrite Cs in E2. injection E2 as <-.
    now apply (n_uni _ _ _ _ Nf).
Qed.
Lemma after_node : prev = true -> forall p ap n sha, alike (f_part node_frame) p -> alike (f_ap node_frame) ap -> alike (f_sha node_frame) sha -> exists y, c_after (AEnc s kids) p ap n sha = Ok (DTf y) /\ spec y = sp.
Proof.
  intros Pt p ap n sha. cbn [node_frame f_part f_ap f_sha]. assert (Cu : current = a_commutes s) by (unfold current; now rewrite Pt). intros A B C. rewrite after_unfold. rewrite <- Cu. destruct cur_cases as [Cu2|Cu2]; rewrite Cu2 in A, B, C |- *; cbn [negb].
  - apply alike_dict_inv in A as (d & -> & A).
    destruct (sub_ok (fun c w pk shk => c_after c w pk n shk) f_part d ap sha f_ap f_sha (fun k b => exists y, b = DTf y /\ spec y = spec (at_key k)) A (child_of PARAMS _ _ _ ltac:(ne) B) (child_of SHAPE _ _ _ ltac:(ne) C)) as (r & -> & Nr & R).
    { intros k c f Dc Df w pk shk H1 H2 H3. destruct (n_after _ _ _ _ (kid_node k c f Dc Df) Cu2 w pk n shk H1 H2 H3) as (y & -> & Sy). eauto. }
    cbn [bind]. destruct (node_item _ _ _ _ B) as (p0 & Ep & A0). destruct (node_item _ _ _ _ C) as (s0 & Es & A1). apply alike_py in A1. rewrite A1 in Es. clear A1 s0.
    apply (stage_decode_ok r ap (Some n) sha p0); auto. now apply all_tensors.
  - apply alike_tf in A as (y & -> & Sy). exists y. split; [reflexivity|congruence].
Qed.
Lemma empty_params x' : alike (leaves (sf_dp sf)) x' -> alike nop (match x' with DDict dd => DDict (kmap (fun _ _ => DPy none) dd) | _ => DPy none end).
Proof. intros A. apply alike_dict_inv in A as (d & -> & A). apply alike_dict. unfold nop. destruct A as (N1 & N2 & G). rewrite dkeys_kmap in N1. split; [now rewrite dkeys_kmap|]. split; [now rewrite dkeys_kmap|]. intros k. rewrite !dget_kmap. specialize (G k). rewrite dget_kmap in G. destruct (dget k (sf_dp sf)), (dget k d); cbn in *; try tauto. apply py_alike. Qed.
Lemma node_good : node_ok prev (AEnc s kids) sp node_frame.
Proof.
  constructor.
  - apply initial_node.
  - apply params_node.
  - intros dp A. apply (split_node PARAMS (leaves (sf_dp sf)) nop f_dp f_bp f_ap dp ltac:(ne) A); [apply empty_params|]. intros k c f Dc Df w Aw. exact (n_split _ _ _ _ (kid_node k c f Dc Df) w Aw).
  - apply encode_node.
  - intros sh A. apply (split_node SHAPE shv (DPy none) f_sh f_shb f_sha sh ltac:(ne) A); [intros x' Ax; apply alike_py in Ax; subst; apply py_alike|]. intros k c f Dc Df w Aw. exact (n_shapes _ _ _ _ (kid_node k c f Dc Df) w Aw).
  - apply before_node.
  - intros Cu. cbn [node_frame f_part]. fold current in Cu. rewrite Cu. exists x0. auto.
  - apply after_node.
  - apply decode_node.
  - apply uni_node.
  - apply update_node.
  - repeat split.
  - cbn [node_frame f_st f_enc f_upd f_part]. split; [|split; [|split]].
    + apply node_only; [apply tensor_only|]. intros c f k Nk. apply (n_tensors _ _ _ _ Nk).
    + apply overlay_only. intros c f k Nk. apply (n_tensors _ _ _ _ Nk).
    + apply node_only; [apply tensor_only|]. intros c f k Nk. apply (n_tensors _ _ _ _ Nk).
    + destruct cur_cases as [Cu|Cu]; rewrite Cu; [|apply only_tf]. apply overlay_only. intros c f k Nk. apply (n_tensors _ _ _ _ Nk).
  - cbn [node_frame f_enc f_shb f_part f_dp f_sh]. split; [|split; [|split; [|split]]].
    + apply overlay_safe. intros c f k Nk. apply (n_keys _ _ _ _ Nk).
    + apply node_safe; [cbn; auto|destruct cur_cases as [Cu|Cu]; rewrite Cu; apply safe_leaf; discriminate|]. intros c f k Nk. apply (n_keys _ _ _ _ Nk).
    + destruct cur_cases as [Cu|Cu]; rewrite Cu; [|apply safe_leaf; discriminate]. apply overlay_safe. intros c f k Nk. apply (n_keys _ _ _ _ Nk).
    + apply node_safe; [cbn; auto|apply safe_leaves|]. intros c f k Nk. apply (n_keys _ _ _ _ Nk).
    + apply node_safe; [cbn; auto|apply safe_leaf; discriminate|]. intros c f k Nk. apply (n_keys _ _ _ _ Nk).
Qed.
End Node.
Theorem tree_node (e : aenc) sp : fixed_tree spec is_none shape_of e sp -> forall prev x0, spec x0 = sp -> exists f, node_ok prev e sp f.
Proof.
  intros H. induction H as [s kids sp sf at_key SF N AT _ IH KS]. intros prev x0 X0.
  destruct (choose_kids (fun k c f => node_ok (prev && a_commutes s) c (spec (at_key k)) f) kids) as (fr & FK & FR). { intros k c I. apply (IH k c I _ (at_key k) eq_refl). }
  exists (node_frame s sf prev x0 fr). eapply node_good; eauto.
Qed.

Context (compatible : Sp -> V -> bool).
Theorem tree_fixed (e : aenc) sp tspec zeros : fixed_tree spec is_none shape_of e sp -> spec zeros = sp -> (forall x, compatible tspec x = true <-> spec x = sp) ->
  exists f, fixed_structure spec compatible (core_of is_none none shape_of e) tspec f /\ fixed_simple spec compatible (core_of is_none none shape_of e) tspec f /\
    (forall enc dp sh, alike (f_enc f) enc -> alike (f_dp f) dp -> alike (f_sh f) sh -> (exists y, k_decode (core_of is_none none shape_of e) enc dp sh = Ok y /\ spec y = sp) /\ forall enc', alike (f_enc f) enc' -> uni spec is_none e enc enc' dp sh).
Proof.
  intros H Z Cp. destruct (tree_node e sp H true zeros Z) as (f & [ ]). exists f. split; [|split].
  - constructor; cbn [core_of k_initial k_params k_split_params k_split_shapes k_encode k_decode k_before k_after k_update]; auto.
    + split; [exact n_initial0|apply n_tensors0].
    + intros w x ep Cx. apply n_encode0. now apply Cp.
    + intros p ap n sha A B C. destruct (n_after0 eq_refl p ap n sha A B C) as (y & -> & Sy). exists y. split; [reflexivity|now apply Cp].
    + tauto.
    + tauto.
    + tauto.
  - constructor; cbn [core_of k_initial k_params k_split_params k_split_shapes k_encode k_decode k_before k_after k_update]; auto.
    + split; [exact n_initial0|apply n_tensors0].
    + intros w x ep Cx. apply n_encode0. now apply Cp.
    + intros st u A B. apply n_update0; [exact A|]. apply (alike_arranged spec); [exact B|apply n_tensors0].
    + tauto.
  - intros enc dp sh A B C. split; [|intros enc' A'; now apply n_uni0]. cbn [core_of k_decode]. destruct (n_decode0 enc dp sh A B C) as (y & -> & Sy). exists y. auto.
Qed.
End Fixed.
