(** Encoder trees read their dictionaries by key: all the methods. *)
From Coq Require Import Lia.
From Verif Require Import Base M_Encoder M_Dicts S_Dicts M_Gather S_Gather M_CoreTree S_CoreTree L_Encoder L_Dicts L_CoreTree.

Lemma bind_both {A A' B B'} (R : A -> A -> Prop) (Q : B -> B -> Prop) (x y : res A) (f g : A -> res B) (_ : A' -> B') : both R x y -> (forall a b, R a b -> both Q (f a) (g b)) -> both Q (bind x f) (bind y g).
Proof. destruct x, y; cbn; auto; tauto. Qed.
Ltac bb := match goal with |- both _ (bind _ _) (bind _ _) => eapply (bind_both _ _ _ _ _ _ (fun x : nat => x)) end.

Section ByKey.
Context {V M W0 : Type} (is_none : V -> bool) (none : V) (shape_of : V -> V).
Notation dval := (dval V).
Notation aenc := (aenc V M W0).
Notation convert := (convert is_none).

Lemma item_both k (v v' : dval) : same v v' -> both same (dict_item k v) (dict_item k v').
Proof.
  intros E. destruct v as [x|x|d].
  - apply same_py in E. subst. exact Logic.I.
  - apply same_tf in E. subst. exact Logic.I.
  - apply same_dict_inv in E as (d' & -> & _ & _ & G). cbn. unfold dindex. specialize (G k). destruct (dget k d), (dget k d'); cbn in *; auto.
Qed.
Lemma child_both k (v v' : dval) : same v v' -> both same (child k v) (child k v').
Proof. intros E. unfold child. bb; [now apply item_both|]. intros a b H. now apply item_both. Qed.
Lemma convert_leaf_both (v v' : dval) : same v v' -> both eq (convert_leaf is_none v) (convert_leaf is_none v').
Proof.
  intros E. destruct v as [x|x|d].
  - apply same_py in E. subst. cbn. destruct (is_none x); cbn; auto.
  - apply same_tf in E. subst. reflexivity.
  - apply same_dict_inv in E as (d' & -> & _). exact Logic.I.
Qed.
Lemma items_eq {A} (d d' : dict A) : items eq d d' -> same_items d d'.
Proof. intros (N & N' & G). split; [exact N|]. split; [exact N'|]. intros k. specialize (G k). destruct (dget k d), (dget k d'); congruence || tauto. Qed.
Lemma eq_items {A} (d d' : dict A) : same_items d d' -> items eq d d'.
Proof. intros (N & N' & G). split; [exact N|]. split; [exact N'|]. intros k. rewrite G. now destruct (dget k d'). Qed.
Lemma convert_both (v v' : dval) : same v v' -> both same_items (convert v) (convert v').
Proof.
  intros E. destruct v as [x|x|d].
  - apply same_py in E. subst. exact Logic.I.
  - apply same_tf in E. subst. exact Logic.I.
  - apply same_dict_inv in E as (d' & -> & G). cbn.
    pose proof (both_kmapM same eq (fun _ w => convert_leaf is_none w) (fun _ w => convert_leaf is_none w) d d' G) as B. cbv beta in B.
    destruct (kmapM _ d), (kmapM _ d'); cbn in *; try (apply B; intros; now apply convert_leaf_both). apply items_eq, B. intros. now apply convert_leaf_both.
Qed.
Lemma convert_shape_both (v v' : dval) : same v v' -> both eq (convert_shape is_none v) (convert_shape is_none v').
Proof.
  intros E. destruct v as [x|x|d].
  - apply same_py in E. subst. reflexivity.
  - apply same_tf in E. subst. reflexivity.
  - apply same_dict_inv in E as (d' & -> & _). exact Logic.I.
Qed.
Lemma leaves_same (d d' : dict (leaf V)) : same_items d d' -> same (leaves d) (leaves d').
Proof. intros H. apply same_dict_. eapply items_kmap; [apply eq_items; exact H|]. intros k a ? <-. apply same_leaf_refl. Qed.
Lemma tensors_same (d d' : dict V) : same_items d d' -> same (tensor_dict d) (tensor_dict d').
Proof. intros H. apply same_dict_. eapply items_kmap; [apply eq_items; exact H|]. intros k a ? <-. repeat split. Qed.
Lemma node_same k k' (a a' b b' : dval) : k <> k' -> same a a' -> same b b' -> same (DDict [(k, a); (k', b)]) (DDict [(k, a'); (k', b')]).
Proof.
  intros N A B. apply same_dict_. split; [|split]; [repeat constructor; cbn; intuition| repeat constructor; cbn; intuition|]. intros q. cbn. destruct (String.eqb q k); [exact A|]. destruct (String.eqb q k'); [exact B|exact Logic.I].
Qed.
Lemma kids_same {A} (g : A -> dval) (r r' : dict A) : items (fun a b => same (g a) (g b)) r r' -> same (DDict (kmap (fun _ => g) r)) (DDict (kmap (fun _ => g) r')).
Proof. intros H. apply same_dict_. eapply items_kmap; [exact H|]. auto. Qed.
Lemma items_refl {A} (d : dict A) : NoDup (dkeys d) -> items eq d d.
Proof. intros N. apply eq_items, same_items_refl, N. Qed.
Lemma both_loop {A B} (R : B -> B -> Prop) (f f' : string -> A -> res B) d : NoDup (dkeys d) -> (forall k a, In (k, a) d -> both R (f k a) (f' k a)) -> both (items R) (kmapM f d) (kmapM f' d).
Proof.
  intros N H. pose proof (both_kmapM eq R f f' d d (items_refl d N)) as X. match type of X with ?A -> _ => assert (Y : A) end. { intros k a a' G _ <-. apply (H k a), dget_in, G. } specialize (X Y). destruct (kmapM f d), (kmapM f' d); exact X.
Qed.
Lemma items_weak {A B} (R R' : A -> B -> Prop) d d' : (forall a b, R a b -> R' a b) -> items R d d' -> items R' d d'.
Proof. intros H (N & N' & G). split; [exact N|]. split; [exact N'|]. intros k. specialize (G k). destruct (dget k d), (dget k d'); auto. Qed.

Ltac ne := discriminate.
Lemma update_both (e : aenc) : every_stage stage_by_key e -> forall st st' u u', same st st' -> same u u' -> both same (c_update is_none e st u) (c_update is_none e st' u').
Proof.
  intros H. induction H as [s kids SK N _ IH]. intros st st' u u' S1 S2. cbn [c_update].
  bb; [eapply (both_loop same); [exact N|]|].
  { intros k c I. bb; [now apply child_both|]. intros a b A. bb; [now apply child_both|]. intros a2 b2 A2. now apply (IH k). }
  intros cs cs' K. bb; [now apply item_both|]. intros s0 s0' E0. bb; [now apply item_both|]. intros u0 u0' F0. bb; [now apply convert_both|]. intros s1 s1' E1. bb; [now apply convert_both|]. intros u1 u1' F1.
  bb; [now apply (sk_update _ SK)|]. intros r r' R. cbn. apply node_same; [ne|now apply same_dict_|now apply tensors_same].
Qed.
Lemma params_both (e : aenc) : every_stage stage_by_key e -> forall w st st', same st st' -> both (pairs same same) (c_params is_none e w st) (c_params is_none e w st').
Proof.
  intros H. induction H as [s kids SK N _ IH]. intros w st st' S1. cbn [c_params].
  bb; [now apply item_both|]. intros s0 s0' E0. bb; [now apply convert_both|]. intros s1 s1' E1. bb; [now apply (sk_params _ SK)|]. intros [ep dp] [ep' dp'] [R1 R2]. cbn [fst snd] in *.
  bb; [eapply (both_loop (pairs same same)); [exact N|]|].
  { intros k c I. bb; [now apply child_both|]. intros a b A. now apply (IH k). }
  intros cs cs' K. cbn. split; cbn [fst snd]; apply node_same; try ne; try (now apply leaves_same); apply kids_same; (eapply items_weak; [|exact K]); now intros a b [? ?].
Qed.
Lemma fold_dset {A} (f : A -> dval) (cs : dict A) : NoDup (dkeys cs) -> forall d k, dget k (fold_left (fun d kr => dset (fst kr) (f (snd kr)) d) cs d) = match dget k cs with Some a => Some (f a) | None => dget k d end.
Proof.
  induction cs as [|[k0 a] cs IH]; intros N d k; [reflexivity|]. inversion N as [|? ? N1 N2]; subst. cbn [fold_left fst snd]. rewrite IH by exact N2. cbn [dget]. destruct (String.eqb_spec k k0) as [->|D].
  - destruct (dget k0 cs) eqn:G; [destruct N1; apply get_key; eauto|]. apply dget_dset_same.
  - destruct (dget k cs); [reflexivity|]. rewrite dget_dset_other; auto.
Qed.
Lemma dset_nodup (k : string) (v : dval) d : NoDup (dkeys d) -> NoDup (dkeys (dset k v d)).
Proof.
  induction d as [|[k' w] d IH]; intros N; [repeat constructor; auto|]. inversion N as [|? ? N1 N2]; subst. cbn [dset]. destruct (String.eqb_spec k k') as [->|D]; [exact N|]. cbn. constructor; [|now apply IH].
  intros H. apply get_key in H as [a H]. rewrite dget_dset_other in H by congruence. apply N1. apply get_key. eauto.
Qed.
Lemma fold_dset_nodup {A} (f : A -> dval) (cs : dict A) : forall d, NoDup (dkeys d) -> NoDup (dkeys (fold_left (fun d kr => dset (fst kr) (f (snd kr)) d) cs d)).
Proof. induction cs as [|c cs IH]; intros d N; [exact N|]. cbn. apply IH. now apply dset_nodup. Qed.
Lemma encode_both (e : aenc) : every_stage stage_by_key e -> forall w x p p', same p p' -> both (pairs (pairs same same) same) (c_encode is_none none shape_of e w x p) (c_encode is_none none shape_of e w x p').
Proof.
  intros H. induction H as [s kids SK N _ IH]. intros w x p p' S1. cbn [c_encode].
  bb; [now apply item_both|]. intros s0 s0' E0. bb; [now apply convert_both|]. intros s1 s1' E1. bb; [now apply (sk_encode _ SK)|]. intros [en up] [en' up'] [R1 R2]. cbn [fst snd] in *.
  pose proof (both_loop (pairs (pairs same same) same) (fun k c => do y <- dindex k en ;; do pk <- child k p ;; c_encode is_none none shape_of c (fun q => w (k :: q)) y pk)
        (fun k c => do y <- dindex k en' ;; do pk <- child k p' ;; c_encode is_none none shape_of c (fun q => w (k :: q)) y pk) kids N) as K'.
  match type of K' with ?A -> _ => assert (Y : A) end.
  { intros k c I. cbv beta. eapply (bind_both eq _ _ _ _ _ (fun x : nat => x)); [unfold dindex; rewrite (proj2 (proj2 R1) k); destruct (dget k en'); cbn; auto|]. intros a b <-. bb; [now apply child_both|]. intros a2 b2 A2. now apply (IH k). }
  specialize (K' Y). clear Y.
  destruct (kmapM _ kids) as [cs|] eqn:L1; destruct (kmapM (fun k c => do y <- dindex k en' ;; _) kids) as [cs'|] eqn:L2; cbn [both] in K'; try destruct K' as [H H0]; try destruct K'; cbn [bind both]; try exact Logic.I.
  assert (Nc : NoDup (dkeys cs)) by (now rewrite (kmapM_keys _ _ _ L1)). assert (Nc' : NoDup (dkeys cs')) by (now rewrite (kmapM_keys _ _ _ L2)).
  split; [split|]; cbn [fst snd].
  - apply same_dict_. split; [apply (fold_dset_nodup (fun r => fst (fst r))); rewrite dkeys_kmap; apply R1|]. split; [apply (fold_dset_nodup (fun r => fst (fst r))); rewrite dkeys_kmap; apply R1|].
    intros k. rewrite !(fold_dset (fun r => fst (fst r))) by assumption. destruct H0 as [_ G]. specialize (G k). destruct (dget k cs), (dget k cs'); cbn in G; try tauto; [apply G|]. rewrite !dget_kmap, (proj2 (proj2 R1) k). destruct (dget k en'); cbn; auto. repeat split.
  - apply node_same; [ne|now apply tensors_same|]. apply (kids_same (fun r => snd (fst r))). split; [exact H|]. destruct H0 as [H0 G]. split; [exact H0|]. intros k. specialize (G k). destruct (dget k cs), (dget k cs'); try tauto. apply G.
  - apply node_same; [ne|destruct (a_needs_shape s); repeat split|]. apply (kids_same (fun r => snd r)). split; [exact H|]. destruct H0 as [H0 G]. split; [exact H0|]. intros k. specialize (G k). destruct (dget k cs), (dget k cs'); try tauto. apply G.
Qed.
Lemma stage_decode_both (s : astage V M W0) d d' p p' n sh sh' : stage_by_key s -> items same d d' -> same p p' -> same sh sh' -> both same (stage_decode is_none s d p n sh) (stage_decode is_none s d' p' n sh').
Proof.
  intros SK D P Sh. unfold stage_decode. bb; [now apply item_both|]. intros p0 p0' E0. bb; [now apply item_both|]. intros s0 s0' F0. bb; [apply convert_both; now apply same_dict_|]. intros d1 d1' D1. bb; [now apply convert_both|]. intros p1 p1' P1.
  bb; [now apply convert_shape_both|]. intros s1 ? <-. bb; [now apply (sk_decode _ SK)|]. intros y ? <-. cbn. repeat split.
Qed.
Lemma before_unfold force (s : astage V M W0) kids v p sh : c_before is_none force (AEnc s kids) v p sh =
  let force := (force || negb (a_commutes s))%bool in
  match v with
  | DDict d =>
      do d' <- kmapM (fun k w => match dget k kids with Some c => do pk <- child k p ;; do shk <- child k sh ;; c_before is_none force c w pk shk | None => Ok w end) d ;;
      if force then stage_decode is_none s d' p None sh else Ok (DDict d')
  | _ => Err AttributeError
  end.
Proof.
  cbn [c_before]. destruct v as [x|x|d]; [reflexivity|reflexivity|]. f_equal. induction d as [|[k w] d IH]; [reflexivity|]. cbn [kmapM]. rewrite dget_kmap, IH. destruct (dget k kids); reflexivity.
Qed.
Lemma after_unfold (s : astage V M W0) kids v p n sh : c_after is_none (AEnc s kids) v p n sh =
  if negb (a_commutes s) then match v with DTf _ => Ok v | _ => Err AssertionError end
  else match v with
  | DDict d =>
      do d' <- kmapM (fun k w => match dget k kids with Some c => do pk <- child k p ;; do shk <- child k sh ;; c_after is_none c w pk n shk | None => Ok w end) d ;;
      stage_decode is_none s d' p (Some n) sh
  | _ => Err AttributeError
  end.
Proof.
  cbn [c_after]. destruct (a_commutes s); [|reflexivity]. cbn [negb]. destruct v as [x|x|d]; [reflexivity|reflexivity|]. f_equal. induction d as [|[k w] d IH]; [reflexivity|]. cbn [kmapM]. rewrite dget_kmap, IH. destruct (dget k kids); reflexivity.
Qed.
Lemma sub_both (F : aenc -> dval -> dval -> dval -> res dval) kids d d' p p' sh sh' :
  (forall k e, In (k, e) kids -> forall v v' p p' sh sh', same v v' -> same p p' -> same sh sh' -> both same (F e v p sh) (F e v' p' sh')) ->
  items same d d' -> same p p' -> same sh sh' ->
  both (items same) (kmapM (fun k w => match dget k kids with Some c => do pk <- child k p ;; do shk <- child k sh ;; F c w pk shk | None => Ok w end) d)
                    (kmapM (fun k w => match dget k kids with Some c => do pk <- child k p' ;; do shk <- child k sh' ;; F c w pk shk | None => Ok w end) d').
Proof.
  intros IH D P Sh.
  pose proof (both_kmapM same same (fun k w => match dget k kids with Some c => do pk <- child k p ;; do shk <- child k sh ;; F c w pk shk | None => Ok w end)
     (fun k w => match dget k kids with Some c => do pk <- child k p' ;; do shk <- child k sh' ;; F c w pk shk | None => Ok w end) d d' D) as X.
  match type of X with ?A -> _ => assert (Y : A) end.
  { intros k a a' _ _ S1. destruct (dget k kids) as [c|] eqn:K; [|exact S1]. match goal with |- match ?x with _ => _ end => change (both same x (do pk <- child k p' ;; do shk <- child k sh' ;; F c a' pk shk)) end.
    bb; [now apply child_both|]. intros pk pk' P1. bb; [now apply child_both|]. intros sk sk' P2. apply (IH k); auto. now apply dget_in. }
  specialize (X Y). clear Y. destruct (kmapM _ d), (kmapM _ d'); exact X.
Qed.
Lemma before_both (e : aenc) : every_stage stage_by_key e -> forall force v v' p p' sh sh', same v v' -> same p p' -> same sh sh' -> both same (c_before is_none force e v p sh) (c_before is_none force e v' p' sh').
Proof.
  intros H. induction H as [s kids SK N _ IH]. intros force v v' p p' sh sh' S1 S2 S3. rewrite !before_unfold. cbv zeta. set (fo := (force || negb (a_commutes s))%bool). destruct v as [x|x|d].
  - apply same_py in S1. subst. exact Logic.I.
  - apply same_tf in S1. subst. exact Logic.I.
  - apply same_dict_inv in S1 as (d' & -> & G). bb; [apply (sub_both (c_before is_none fo)); auto|]. { intros k e I. now apply (IH k). }
    intros r r' R. destruct fo; [now apply stage_decode_both|]. cbn. now apply same_dict_.
Qed.
Lemma after_both (e : aenc) : every_stage stage_by_key e -> forall n v v' p p' sh sh', same v v' -> same p p' -> same sh sh' -> both same (c_after is_none e v p n sh) (c_after is_none e v' p' n sh').
Proof.
  intros H. induction H as [s kids SK N _ IH]. intros n v v' p p' sh sh' S1 S2 S3. rewrite !after_unfold. destruct (a_commutes s); cbn [negb].
  - destruct v as [x|x|d].
    + apply same_py in S1. subst. exact Logic.I.
    + apply same_tf in S1. subst. exact Logic.I.
    + apply same_dict_inv in S1 as (d' & -> & G). bb; [apply (sub_both (fun c w pk shk => c_after is_none c w pk n shk)); auto|]. { intros k e I. now apply (IH k). }
      intros r r' R. now apply stage_decode_both.
  - destruct v as [x|x|d].
    + apply same_py in S1. subst. exact Logic.I.
    + apply same_tf in S1. subst. repeat split.
    + apply same_dict_inv in S1 as (d' & -> & G). exact Logic.I.
Qed.
Lemma tensor_both (v v' : dval) : same v v' -> both eq (the_tensor v) (the_tensor v').
Proof.
  intros E. destruct v as [x|x|d].
  - apply same_py in E. subst. exact Logic.I.
  - apply same_tf in E. subst. reflexivity.
  - apply same_dict_inv in E as (d' & -> & _). exact Logic.I.
Qed.
Lemma split_unfold key d c : c_split none key (DDict d) c =
  do x <- dindex key d ;; do ch <- dindex CHILDREN d ;;
  match ch with
  | DDict dd =>
      do ks <- kmapM (fun k w => do ck <- dindex k (tkids c) ;; c_split none key w ck) dd ;;
      let empty := match x with DDict dd => DDict (kmap (fun _ _ => DPy none) dd) | _ => DPy none end in
      Ok (DDict [(key, if troot c then empty else x); (CHILDREN, DDict (kmap (fun _ r => fst r) ks))], DDict [(key, if troot c then x else empty); (CHILDREN, DDict (kmap (fun _ r => snd r) ks))])
  | _ => Err AttributeError
  end.
Proof.
  cbn [c_split]. destruct (dindex key d) as [x|]; [|reflexivity]. cbn [bind]. assert (E' := dget_kmap (fun (_ : string) w => match w with DDict dd => kmap (fun _ w' => c_split none key w') dd | _ => [] end) d CHILDREN).
  destruct (dindex CHILDREN d) as [ch|] eqn:E; [|reflexivity]. cbn [bind]. destruct ch as [y|y|dd]; try reflexivity. unfold dindex in E. destruct (dget CHILDREN d) as [z|] eqn:E2; [|discriminate]. injection E as ->. cbn [option_map] in E'.
  match goal with |- bind (dindex CHILDREN ?s) _ = _ => assert (E3 : dindex CHILDREN s = Ok (kmap (fun _ w' => c_split none key w') dd)) by (unfold dindex; now rewrite E') end. rewrite E3. cbn [bind]. rewrite kmapM_kmap. reflexivity.
Qed.
Lemma split_both key : key <> CHILDREN -> forall v v' c, same v v' -> both (pairs same same) (c_split none key v c) (c_split none key v' c).
Proof.
  intros KN v. pose (P := fun v : dval => forall v' c, same v v' -> both (pairs same same) (c_split none key v c) (c_split none key v' c)).
  enough (X : P v /\ forall dd, v = DDict dd -> forall k w, In (k, w) dd -> P w) by apply X.
  induction v as [x|x|d IH] using dval_ind2.
  - split; [|discriminate]. intros v' c E. apply same_py in E. subst. exact Logic.I.
  - split; [|discriminate]. intros v' c E. apply same_tf in E. subst. exact Logic.I.
  - split; [|intros dd [= <-] k w I; now apply (IH k w I)].
    intros v' c E. apply same_dict_inv in E as (d' & -> & G). rewrite !split_unfold.
    assert (IB : forall k, both same (dindex k d) (dindex k d')). { intros k. destruct G as (_ & _ & G). specialize (G k). unfold dindex. destruct (dget k d), (dget k d'); cbn; auto. }
    bb; [apply IB|]. intros x x' Sx. pose proof (IB CHILDREN) as GC. destruct (dindex CHILDREN d) as [ch|] eqn:C1, (dindex CHILDREN d') as [ch'|]; cbn [both] in GC; try tauto. cbn [bind].
    unfold dindex in C1. destruct (dget CHILDREN d) as [z|] eqn:C0; [|discriminate]. injection C1 as ->.
    destruct ch as [y|y|dd].
    + apply same_py in GC. subst. exact Logic.I.
    + apply same_tf in GC. subst. exact Logic.I.
    + apply same_dict_inv in GC as (dd' & -> & Gd).
      pose proof (both_kmapM same (pairs same same) (fun k w => do ck <- dindex k (tkids c) ;; c_split none key w ck) (fun k w => do ck <- dindex k (tkids c) ;; c_split none key w ck) dd dd' Gd) as X.
      match type of X with ?A -> _ => assert (Y : A) end.
      { intros k a a' D1 _ S1. destruct (dindex k (tkids c)) as [ck|]; [|exact Logic.I]. cbn [bind]. apply dget_in in C0. destruct (IH _ _ C0) as [_ IHd]. apply dget_in in D1. specialize (IHd dd eq_refl k a D1 a' ck S1). exact IHd. }
      specialize (X Y). clear Y. destruct (kmapM _ dd) as [ks|], (kmapM _ dd') as [ks'|]; try tauto. cbn [bind]. cbv zeta.
      assert (Em : same (match x with DDict dd => DDict (kmap (fun _ _ => DPy none) dd) | _ => DPy none end) (match x' with DDict dd => DDict (kmap (fun _ _ => DPy none) dd) | _ => DPy none end)).
      { destruct x as [z|z|e].
        - apply same_py in Sx. subst. repeat split.
        - apply same_tf in Sx. subst. repeat split.
        - apply same_dict_inv in Sx as (e' & -> & Ge). apply same_dict_. eapply items_kmap; [exact Ge|]. intros. repeat split. }
      cbn [both]. split; cbn [fst snd]; apply node_same; auto; try (destruct (troot c); assumption); (apply (kids_same fst) || apply (kids_same snd)); (eapply items_weak; [|exact X]); now intros a b [? ?].
Qed.
Theorem tree_by_key (e : aenc) : every_stage stage_by_key e -> by_key (core_of is_none none shape_of e).
Proof.
  intros H. constructor; cbn [core_of k_params k_split_params k_split_shapes k_encode k_decode k_before k_after k_update].
  - intros. now apply params_both.
  - intros. now apply split_both.
  - intros. now apply split_both.
  - intros. now apply encode_both.
  - intros. bb; [now apply before_both|]. intros. now apply tensor_both.
  - intros. now apply before_both.
  - intros. bb; [now apply after_both|]. intros. now apply tensor_both.
  - intros. now apply update_both.
Qed.
End ByKey.
