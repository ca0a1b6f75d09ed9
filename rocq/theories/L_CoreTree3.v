(** Trees of stages with fixed structure have fixed structure: tools. *)
From Coq Require Import Lia.
From Verif Require Import Base M_Encoder M_Dicts S_Dicts M_Gather S_Gather M_CoreTree S_CoreTree L_Encoder L_Dicts L_Gather3 L_CoreTree L_CoreTree2.

Lemma choose_kids {A F} (P : string -> A -> F -> Prop) (d : dict A) : (forall k a, In (k, a) d -> exists f, P k a f) ->
  exists fr : dict F, dkeys fr = dkeys d /\ forall k, match dget k d, dget k fr with Some a, Some f => P k a f | None, None => True | _, _ => False end.
Proof.
  induction d as [|[k a] d IH]; intros H; [exists []; split; [reflexivity|exact (fun _ => Logic.I)]|]. destruct (H k a) as [f Pf]; [now left|]. destruct IH as (fr & K & G); [intros k2 a2 I; apply H; now right|].
  exists ((k, f) :: fr). split; [unfold dkeys in *; cbn; congruence|]. intros q. cbn. destruct (String.eqb_spec q k) as [->|]; [exact Pf|apply G].
Qed.

Section Alike.
Context {V Sp : Type} (spec : V -> Sp).
Notation dval := (dval V).
Notation alike := (alike spec).
Lemma alike_dict (d d' : dict dval) : items alike d d' -> alike (DDict d) (DDict d').
Proof. apply (rel_dict (like spec)); cbn; auto. Qed.
Lemma alike_dict_inv (d : dict dval) v : alike (DDict d) v -> exists d', v = DDict d' /\ items alike d d'.
Proof. apply (rel_dict_inv (like spec)); cbn; auto; intros []; cbn; tauto. Qed.
Lemma arranged_dict (d d' : dict dval) : items arranged d d' -> arranged (DDict d) (DDict d').
Proof. apply (rel_dict shaped); cbn; auto. Qed.
Lemma arranged_dict_inv (d : dict dval) v : arranged (DDict d) v -> exists d', v = DDict d' /\ items arranged d d'.
Proof. apply (rel_dict_inv shaped); cbn; auto; intros []; cbn; tauto. Qed.
Lemma alike_tf x v : alike (DTf x) v -> exists y, v = DTf y /\ spec x = spec y.
Proof. intros (_ & _ & H). specialize (H []). destruct v; cbn in H; try tauto. eauto. Qed.
Lemma alike_py x v : alike (DPy x) v -> v = DPy x.
Proof. intros (_ & _ & H). specialize (H []). destruct v; cbn in H; try tauto. now subst. Qed.
Lemma arranged_tf (x : V) v : arranged (DTf x) v -> exists y, v = DTf y.
Proof. intros (_ & _ & H). specialize (H []). destruct v; cbn in H; try tauto. eauto. Qed.
Lemma tf_alike x y : spec x = spec y -> alike (DTf x) (DTf y).
Proof. intros H. repeat split. intros [|k p]; [exact H|exact Logic.I]. Qed.
Lemma py_alike x : alike (DPy x) (DPy x).
Proof. repeat split. intros [|k p]; [reflexivity|exact Logic.I]. Qed.

Lemma nodup2 (k k' : string) : k <> k' -> NoDup [k; k'].
Proof. intros N. repeat constructor; cbn; intuition. Qed.
Lemma node_alike k k' (a a' b b' : dval) : k <> k' -> alike a a' -> alike b b' -> alike (DDict [(k, a); (k', b)]) (DDict [(k, a'); (k', b')]).
Proof.
  intros N A B. apply alike_dict. split; [now apply nodup2|]. split; [now apply nodup2|]. intros q. cbn. destruct (String.eqb q k); [exact A|]. destruct (String.eqb q k'); [exact B|exact Logic.I].
Qed.
(** The two entries of a node, in either order of construction. *)
Lemma node_swap k k' (a a' b b' : dval) : k <> k' -> alike a a' -> alike b b' -> alike (DDict [(k, a); (k', b)]) (DDict [(k', b'); (k, a')]).
Proof.
  intros N A B. apply alike_dict. split; [now apply nodup2|]. split; [apply nodup2; intros X; now apply N|]. intros q. cbn. destruct (String.eqb_spec q k) as [->|].
  - destruct (String.eqb_spec k k'); [congruence|exact A].
  - destruct (String.eqb q k'); [exact B|exact Logic.I].
Qed.
Lemma item_alike k v w a : alike v w -> dict_item k v = Ok a -> exists b, dict_item k w = Ok b /\ alike a b.
Proof.
  intros H E. destruct v as [| |d]; try discriminate. apply alike_dict_inv in H as (d' & -> & _ & _ & G). cbn in *. unfold dindex in *. specialize (G k). destruct (dget k d) as [x|]; [|discriminate]. injection E as <-.
  destruct (dget k d') as [y|]; [|destruct G]. eauto.
Qed.
Lemma item_arranged k (v w : dval) a : arranged v w -> dict_item k v = Ok a -> exists b, dict_item k w = Ok b /\ arranged a b.
Proof.
  intros H E. destruct v as [| |d]; try discriminate. apply arranged_dict_inv in H as (d' & -> & _ & _ & G). cbn in *. unfold dindex in *. specialize (G k). destruct (dget k d) as [x|]; [|discriminate]. injection E as <-.
  destruct (dget k d') as [y|]; [|destruct G]. eauto.
Qed.
Lemma child_alike k v w a : alike v w -> child k v = Ok a -> exists b, child k w = Ok b /\ alike a b.
Proof.
  intros H E. unfold child in *. destruct (dict_item CHILDREN v) as [c|] eqn:E1; [|discriminate]. destruct (item_alike _ _ _ _ H E1) as (c' & -> & A). cbn [bind] in *. now apply (item_alike _ c).
Qed.
Lemma child_arranged k (v w : dval) a : arranged v w -> child k v = Ok a -> exists b, child k w = Ok b /\ arranged a b.
Proof.
  intros H E. unfold child in *. destruct (dict_item CHILDREN v) as [c|] eqn:E1; [|discriminate]. destruct (item_arranged _ _ _ _ H E1) as (c' & -> & A). cbn [bind] in *. now apply (item_arranged _ c).
Qed.
(** Children of the frame's nodes. *)
Lemma child_node1 {F} k key (g : F -> dval) (fr : dict F) (x : dval) f : key <> CHILDREN -> dget k fr = Some f -> child k (DDict [(key, x); (CHILDREN, DDict (kmap (fun _ => g) fr))]) = Ok (g f).
Proof.
  intros N H. unfold child. cbn [dict_item]. unfold dindex. cbn [dget]. destruct (String.eqb_spec CHILDREN key) as [E|]; [congruence|]. rewrite String.eqb_refl. cbn [bind dict_item]. unfold dindex. rewrite dget_kmap, H. reflexivity.
Qed.
Lemma item_node1 key (x y : dval) : dict_item key (DDict [(key, x); (CHILDREN, y)]) = Ok x.
Proof. cbn. unfold dindex. cbn. now rewrite String.eqb_refl. Qed.

(** Loops. *)
Lemma loop_alike {A F B} (kids : dict A) (fr : dict F) (L : string -> A -> res B) (Q : F -> B -> Prop) : NoDup (dkeys kids) -> dkeys fr = dkeys kids ->
  (forall k c f, dget k kids = Some c -> dget k fr = Some f -> exists b, L k c = Ok b /\ Q f b) -> exists r, kmapM L kids = Ok r /\ items Q fr r.
Proof.
  intros N K H.
  assert (G : forall k c, dget k kids = Some c -> exists f, dget k fr = Some f). { intros k c D. apply get_key. rewrite K. apply get_key. eauto. }
  destruct (kmapM_ok L kids N) as [r E]. { intros k c D. destruct (G k c D) as [f D']. destruct (H k c f D D') as (b & -> & _). eauto. }
  exists r. split; [exact E|]. split; [now rewrite K|]. split; [now rewrite (kmapM_keys _ _ _ E)|]. intros k. pose proof (kmapM_get _ _ _ E k) as X. destruct (dget k kids) as [c|] eqn:D.
  - destruct (G k c D) as [f D']. rewrite D'. destruct X as (b & Fb & ->). destruct (H k c f D D') as (b' & Fb' & Qb). congruence.
  - rewrite X. destruct (dget k fr) as [f|] eqn:D'; [|exact Logic.I]. assert (I : In k (dkeys fr)) by (apply get_key; eauto). rewrite K in I. apply get_key in I as [c I]. congruence.
Qed.
Lemma kids_alike {F B} (g : F -> dval) (h : B -> dval) (fr : dict F) (r : dict B) Q : items Q fr r -> (forall f b, Q f b -> alike (g f) (h b)) -> alike (DDict (kmap (fun _ => g) fr)) (DDict (kmap (fun _ => h) r)).
Proof. intros H G. apply alike_dict. eapply items_kmap; [exact H|]. auto. Qed.

(** Entries replaced by those of another dictionary. *)
Definition overlay {F} (g : F -> dval) (base : dict dval) (fr : dict F) : dict dval := fold_left (fun d kr => dset (fst kr) (g (snd kr)) d) fr base.
Lemma overlay_get {F} (g : F -> dval) base fr k : NoDup (dkeys fr) -> dget k (overlay g base fr) = match dget k fr with Some f => Some (g f) | None => dget k base end.
Proof. intros N. unfold overlay. now apply fold_dset. Qed.
Lemma overlay_nodup {F} (g : F -> dval) base (fr : dict F) : NoDup (dkeys base) -> NoDup (dkeys (overlay g base fr)).
Proof. apply fold_dset_nodup. Qed.

(** Leaves and tensors. *)
Lemma leaves_alike (d d' : dict (leaf V)) : items (same_leaf spec) d d' -> alike (leaves d) (leaves d').
Proof.
  intros H. apply alike_dict. eapply items_kmap; [exact H|]. intros k [[|] x] [[|] y] [E1 E2]; cbn in *; try discriminate; [now apply tf_alike|subst; apply py_alike].
Qed.
Lemma tensors_alike (d d' : dict V) : items (same_spec spec) d d' -> alike (tensor_dict d) (tensor_dict d').
Proof. intros H. apply alike_dict. eapply items_kmap; [exact H|]. intros k x y E. now apply tf_alike. Qed.
Context (is_none : V -> bool).
Lemma convert_leaves d v : usable is_none d -> alike (leaves d) v -> exists r, convert is_none v = Ok r /\ items (converted spec) d r.
Proof.
  intros U H. apply alike_dict_inv in H as (d' & -> & N & N' & G). rewrite dkeys_kmap in N. cbn.
  assert (X : forall k w, dget k d' = Some w -> exists l, dget k d = Some l /\ exists x, convert_leaf is_none w = Ok x /\ converted spec l x).
  { intros k w D. specialize (G k). rewrite dget_kmap, D in G. destruct (dget k d) as [[[|] x]|] eqn:E; cbn in G; try tauto; eexists; (split; [reflexivity|]).
    - apply alike_tf in G as (y & -> & Sy). exists y. split; [reflexivity|exact Sy].
    - apply alike_py in G. subst. cbn. rewrite (U k x E). exists x. split; reflexivity. }
  destruct (kmapM_ok (fun _ w => convert_leaf is_none w) d' N') as [r E]. { intros k w D. destruct (X k w D) as (l & _ & x & Ex & _). eauto. }
  exists r. split; [exact E|]. split; [exact N|]. split; [now rewrite (kmapM_keys _ _ _ E)|]. intros k. pose proof (kmapM_get _ _ _ E k) as Y. specialize (G k). rewrite dget_kmap in G. destruct (dget k d') as [w|] eqn:D.
  - destruct (X k w D) as (l & -> & x & Ex & C). destruct Y as (b & Eb & ->). congruence.
  - rewrite Y. destruct (dget k d); [destruct G|exact Logic.I].
Qed.
Lemma convert_items (R : V -> V -> Prop) (d : dict V) (d' : dict dval) : items (fun x w => exists y, w = DTf y /\ R x y) d d' -> exists r, convert is_none (DDict d') = Ok r /\ items R d r.
Proof.
  intros (N & N' & G). cbn. destruct (kmapM_ok (fun _ w => convert_leaf is_none w) d' N') as [r E].
  { intros k w D. specialize (G k). rewrite D in G. destruct (dget k d); [|destruct G]. destruct G as (y & -> & _). cbn. eauto. }
  exists r. split; [exact E|]. split; [exact N|]. split; [now rewrite (kmapM_keys _ _ _ E)|]. intros k. pose proof (kmapM_get _ _ _ E k) as Y. specialize (G k). destruct (dget k d') as [w|] eqn:D.
  - destruct (dget k d) as [x|]; [|destruct G]. destruct G as (y & -> & H). destruct Y as (b & [= <-] & ->). exact H.
  - rewrite Y. destruct (dget k d); [destruct G|exact Logic.I].
Qed.
Lemma convert_tensors (d : dict V) v : alike (tensor_dict d) v -> exists r, convert is_none v = Ok r /\ items (same_spec spec) d r.
Proof.
  intros H. apply alike_dict_inv in H as (d' & -> & N & N' & G). rewrite dkeys_kmap in N. apply convert_items. split; [exact N|]. split; [exact N'|]. intros k. specialize (G k). rewrite dget_kmap in G.
  destruct (dget k d), (dget k d'); cbn in G; try tauto. now apply alike_tf in G.
Qed.
Lemma convert_arranged (d : dict V) v : arranged (tensor_dict d) v -> exists r, convert is_none v = Ok r /\ items (fun _ _ => True) d r.
Proof.
  intros H. apply arranged_dict_inv in H as (d' & -> & N & N' & G). rewrite dkeys_kmap in N. apply convert_items. split; [exact N|]. split; [exact N'|]. intros k. specialize (G k). rewrite dget_kmap in G.
  destruct (dget k d), (dget k d'); cbn in G; try tauto. apply arranged_tf in G as (y & ->). eauto.
Qed.

(** Only tensors; keys. *)
Lemma only_dict (d : dict dval) : (forall k w, dget k d = Some w -> only_tensors w) -> only_tensors (DDict d).
Proof. intros H [|k p] x E; [discriminate|]. cbn in E. destruct (dget k d) as [w|] eqn:D; [|discriminate]. now apply (H k w D) in E. Qed.
Lemma only_tf (x : V) : only_tensors (DTf x). Proof. intros [|k p] y E; discriminate. Qed.
Lemma safe_leaf (v : dval) : at_path [] v <> ADict -> slash_safe v.
Proof. intros H p k k' ch r E. destruct v as [x|x|d]; [destruct p; discriminate|destruct p; discriminate|]. now destruct H. Qed.
Lemma safe_dict (d : dict dval) : (forall k w, dget k d = Some w -> slash_safe w) ->
  (forall k w k' w' ch r, dget k d = Some w -> at_path [] w = ADict -> dget k' d = Some w' -> codes k' = codes k ++ ch :: r -> (47 < ch)%nat) -> slash_safe (DDict d).
Proof.
  intros S1 S2 [|k0 p] k k' ch r E E' C.
  - cbn in E, E'. destruct (dget k d) as [w|] eqn:D; [|discriminate]. destruct (dget k' d) as [w'|] eqn:D'; [|congruence]. exact (S2 k w k' w' ch r D E D' C).
  - cbn in E, E'. destruct (dget k0 d) as [w|] eqn:D; [|discriminate]. exact (S1 k0 w D p k k' ch r E E' C).
Qed.
Lemma safe_leaves (d : dict (leaf V)) : slash_safe (leaves d).
Proof.
  apply safe_dict.
  - intros k w E. rewrite dget_kmap in E. destruct (dget k d) as [[[|] x]|]; [| |discriminate]; injection E as <-; apply safe_leaf; discriminate.
  - intros k w k' w' ch r E A. rewrite dget_kmap in E. destruct (dget k d) as [[[|] x]|]; [| |discriminate]; injection E as <-; discriminate.
Qed.
Lemma safe_blank {A} (d : dict A) (n : V) : slash_safe (DDict (kmap (fun _ _ => DPy n) d)).
Proof.
  apply safe_dict.
  - intros k w E. rewrite dget_kmap in E. destruct (dget k d); [|discriminate]; injection E as <-; apply safe_leaf; discriminate.
  - intros k w k' w' ch r E A0. rewrite dget_kmap in E. destruct (dget k d); [|discriminate]; injection E as <-; discriminate.
Qed.
Lemma safe_node key (x y : dval) : In key [PARAMS; SHAPE; STATE; TENSORS] -> slash_safe x -> slash_safe y -> slash_safe (DDict [(key, x); (CHILDREN, y)]).
Proof.
  intros K S1 S2. apply safe_dict.
  - intros k w E. cbn in E. destruct (String.eqb k key); [now injection E as <-|]. destruct (String.eqb k CHILDREN); [now injection E as <-|discriminate].
  - intros k w k' w' ch r E _ E' C. cbn in E, E'.
    destruct (String.eqb_spec k key) as [->|]; [|destruct (String.eqb_spec k CHILDREN) as [->|]; [|discriminate]]; (destruct (String.eqb_spec k' key) as [->|]; [|destruct (String.eqb_spec k' CHILDREN) as [->|]; [|discriminate]]);
      destruct K as [<-|[<-|[<-|[<-|[]]]]]; vm_compute in C; congruence.
Qed.

(** What the root stage of [e] is given to decode, and two values in which every stage is given the same shapes and dtypes. *)
Context {M W0 : Type}.
Definition ditems (v : dval) : dict dval := match v with DDict d => d | _ => [] end.
Definition stage_in (kids : dict (aenc V M W0)) (v dp sh : dval) : res (dict V) :=
  do d' <- kmapM (fun k w => match dget k kids with Some c => do pk <- child k dp ;; do shk <- child k sh ;; c_before is_none true c w pk shk | None => Ok w end) (ditems v) ;; convert is_none (DDict d').
Inductive uni : aenc V M W0 -> dval -> dval -> dval -> dval -> Prop :=
| UN s kids v v' dp sh : (forall r r', stage_in kids v dp sh = Ok r -> stage_in kids v' dp sh = Ok r' -> items (same_spec spec) r r') ->
    (forall k c w w' dk shk, dget k kids = Some c -> dget k (ditems v) = Some w -> dget k (ditems v') = Some w' -> child k dp = Ok dk -> child k sh = Ok shk -> uni c w w' dk shk) ->
    uni (AEnc s kids) v v' dp sh.
End Alike.
