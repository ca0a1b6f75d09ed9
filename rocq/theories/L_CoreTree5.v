(** Summing part-decoded values: decode_after_sum of the sum is the sum of the decoded values, on nested dictionaries. *)
From Coq Require Import Lia.
From Verif Require Import Base M_Encoder M_Dicts S_Dicts M_Gather S_Gather M_CoreTree S_CoreTree L_Encoder L_Dicts L_Gather3 L_CoreTree L_CoreTree2 L_CoreTree3.

Section Sum.
Context {V Sp M W0 : Type} (spec : V -> Sp) (is_none : V -> bool) (none : V) (shape_of : V -> V) (tsum : list V -> V).
Notation dval := (dval V).
Notation aenc := (aenc V M W0).
Notation astage := (astage V M W0).
Notation c_params := (c_params is_none).
Notation c_before := (c_before is_none).
Notation c_after := (c_after is_none).
Notation c_split := (c_split none).

Lemma bind_ok {A B} (x : res A) (f : A -> res B) r : bind x f = Ok r -> exists a, x = Ok a /\ f a = Ok r.
Proof. destruct x as [a|e]; [|discriminate]. cbn. eauto. Qed.
Lemma item_dget k (v w : dval) : dict_item k v = Ok w <-> exists d, v = DDict d /\ dget k d = Some w.
Proof. destruct v as [x|x|d]; cbn; try (split; [discriminate|intros (d & E & _); discriminate]). unfold dindex. split; [destruct (dget k d) eqn:E; [intros [= <-]; eauto|discriminate]|]. intros (d' & [= <-] & ->). reflexivity. Qed.

(** ** Splitting by commuting structure *)
Lemma split_inv key v c b a : key <> CHILDREN -> c_split key v c = Ok (b, a) ->
  (forall x, dict_item key v = Ok x -> dict_item key (if troot c then a else b) = Ok x) /\
  (forall k vk, child k v = Ok vk -> exists ck bk ak, dget k (tkids c) = Some ck /\ c_split key vk ck = Ok (bk, ak) /\ child k b = Ok bk /\ child k a = Ok ak).
Proof.
  intros K H. destruct v as [x|x|d]; [discriminate|discriminate|]. rewrite split_unfold in H. apply bind_ok in H as (x & E1 & H). apply bind_ok in H as (ch & E2 & H). destruct ch as [z|z|dd]; [discriminate|discriminate|].
  apply bind_ok in H as (ks & E3 & H). cbv zeta in H. injection H as <- <-. split.
  - intros x' E. cbn [dict_item] in E. rewrite E1 in E. injection E as <-. destruct (troot c); cbn; unfold dindex; cbn [dget]; now rewrite String.eqb_refl.
  - intros k vk E. unfold child in E. cbn [dict_item] in E. rewrite E2 in E. cbn [bind dict_item] in E. unfold dindex in E. destruct (dget k dd) as [w|] eqn:D; [|discriminate]. injection E as ->.
    pose proof (kmapM_get _ _ _ E3 k) as G. rewrite D in G. destruct G as ([bk ak] & G1 & G2). apply bind_ok in G1 as (ck & C1 & C2). unfold dindex in C1. destruct (dget k (tkids c)) as [ck'|]; [|discriminate]. injection C1 as ->.
    exists ck, bk, ak. split; [reflexivity|]. split; [exact C2|]. unfold child. cbn [dict_item]. unfold dindex. cbn [dget]. assert (Q : String.eqb CHILDREN key = false) by (apply String.eqb_neq; congruence). rewrite !Q, !String.eqb_refl. cbn [bind dict_item]. unfold dindex. rewrite !dget_kmap, G2. auto.
Qed.
Lemma commuting_kids prev (s : astage) kids k ck : dget k (tkids (c_commuting prev (AEnc s kids))) = Some ck -> exists c, dget k kids = Some c /\ ck = c_commuting (prev && a_commutes s) c.
Proof. cbn [c_commuting tkids]. rewrite dget_kmap. destruct (dget k kids) as [c|]; [|discriminate]. intros [= <-]. eauto. Qed.

Lemma kmapM_impl {A B} (f g : string -> A -> res B) d r : (forall k a b, In (k, a) d -> f k a = Ok b -> g k a = Ok b) -> kmapM f d = Ok r -> kmapM g d = Ok r.
Proof.
  revert r. induction d as [|[k a] d IH]; cbn; intros r H E; [exact E|]. apply bind_ok in E as (b & E1 & E). apply bind_ok in E as (r' & E2 & E). rewrite (H k a b (or_introl eq_refl) E1). cbn [bind].
  rewrite (IH r'); [exact E| |exact E2]. intros k2 a2 b2 I2. apply H. now right.
Qed.
Lemma decoded_tensor (s : astage) d p n sh w : stage_decode is_none s d p n sh = Ok w -> exists p0 s0 d1 p1 s1 y, dict_item PARAMS p = Ok p0 /\ dict_item SHAPE sh = Ok s0 /\ convert is_none (DDict d) = Ok d1 /\ convert is_none p0 = Ok p1 /\ convert_shape is_none s0 = Ok s1 /\
  a_decode s d1 p1 n s1 = Ok y /\ w = DTf y.
Proof.
  unfold stage_decode. intros H. apply bind_ok in H as (p0 & E1 & H). apply bind_ok in H as (s0 & E2 & H). apply bind_ok in H as (d1 & E3 & H). apply bind_ok in H as (p1 & E4 & H). apply bind_ok in H as (s1 & E5 & H). apply bind_ok in H as (y & E6 & H). injection H as <-.
  exists p0, s0, d1, p1, s1, y. auto 10.
Qed.
Lemma forced_tensor (e : aenc) v p sh w : c_before true e v p sh = Ok w -> exists y, w = DTf y.
Proof. destruct e as [s kids]. rewrite before_unfold. cbn [orb]. cbv zeta. destruct v as [x|x|d]; try discriminate. intros H. apply bind_ok in H as (d' & _ & H). apply decoded_tensor in H as (? & ? & ? & ? & ? & y & _ & _ & _ & _ & _ & _ & ->). eauto. Qed.

(** Below a stage that does not commute everything is decoded before the sum, with the parameters and shapes of a full decoding. *)
Lemma forced (e : aenc) : forall prev, (prev && match e with AEnc s _ => a_commutes s end)%bool = false -> forall v dp sh bp ap shb sha y,
  c_split PARAMS dp (c_commuting prev e) = Ok (bp, ap) -> c_split SHAPE sh (c_commuting prev e) = Ok (shb, sha) -> c_before true e v dp sh = Ok y -> c_before true e v bp shb = Ok y.
Proof.
  induction e as [s kids IH] using aenc_ind2. intros prev Cu v dp sh bp ap shb sha y S1 S2. rewrite !before_unfold. cbn [orb]. cbv zeta. destruct v as [x|x|d]; try discriminate. intros H. apply bind_ok in H as (d' & H1 & H2).
  destruct (split_inv PARAMS dp _ bp ap ltac:(discriminate) S1) as [P1 P2]. destruct (split_inv SHAPE sh _ shb sha ltac:(discriminate) S2) as [Q1 Q2].
  assert (R : troot (c_commuting prev (AEnc s kids)) = false) by exact Cu. rewrite R in P1, Q1.
  pose proof (kmapM_impl (fun k w => match dget k kids with Some c => do pk <- child k dp ;; do shk <- child k sh ;; c_before true c w pk shk | None => Ok w end)
    (fun k w => match dget k kids with Some c => do pk <- child k bp ;; do shk <- child k shb ;; c_before true c w pk shk | None => Ok w end) d d') as X.
  rewrite X; [| |exact H1].
  - cbn [bind]. apply decoded_tensor in H2 as (p0 & s0 & d1 & p1 & s1 & z & E1 & E2 & E3 & E4 & E5 & E6 & ->). unfold stage_decode. rewrite (P1 _ E1), (Q1 _ E2). cbn [bind]. rewrite E3, E4, E5. cbn [bind]. now rewrite E6.
  - intros k a b _ E. destruct (dget k kids) as [c|] eqn:D; [|exact E]. apply bind_ok in E as (pk & F1 & E). apply bind_ok in E as (shk & F2 & E).
    destruct (P2 k pk F1) as (ck & bk & ak & C1 & C2 & C3 & _). destruct (Q2 k shk F2) as (ck' & bk' & ak' & C1' & C2' & C3' & _). rewrite C3, C3'. cbn [bind].
    apply commuting_kids in C1 as (c1 & D1 & ->). apply commuting_kids in C1' as (c2 & D2 & ->). assert (c1 = c) as -> by congruence. assert (c2 = c) as -> by congruence. rewrite Cu in C2, C2'.
    eapply (IH k c (dget_in _ _ _ D) false); [reflexivity|exact C2|exact C2'|exact E].
Qed.

(** ** Sums of nested dictionaries *)
Context {I : Type} (is : list I) (i0 : I).
Hypothesis I0 : In i0 is.
Definition sums (p : I -> dval) (P : dval) : Prop := wf_dval P /\ (forall i, In i is -> wf_dval (p i)) /\
  forall path, match at_path path P with
    | ATf t => exists ts, (forall i, In i is -> at_path path (p i) = ATf (ts i)) /\ t = tsum (map ts is)
    | ADict => forall i, In i is -> at_path path (p i) = ADict
    | Nothing => forall i, In i is -> at_path path (p i) = Nothing
    | APy _ => False end.
Lemma sums_tf p t : sums p (DTf t) -> exists ts, (forall i, In i is -> p i = DTf (ts i)) /\ t = tsum (map ts is).
Proof. intros (_ & _ & H). destruct (H []) as (ts & H1 & H2). exists ts. split; [|exact H2]. intros i Ii. specialize (H1 i Ii). destruct (p i); cbn in H1; congruence. Qed.
Lemma sums_is_tf p P y : sums p P -> p i0 = DTf y -> exists t, P = DTf t.
Proof. intros (_ & _ & H) E. specialize (H []). destruct P as [x|x|d]; cbn in H; [destruct H|eauto|]. specialize (H i0 I0). rewrite E in H. discriminate. Qed.
Lemma sums_dict p D : sums p (DDict D) -> (forall i, In i is -> p i = DDict (ditems (p i)) /\ NoDup (dkeys (ditems (p i)))) /\ NoDup (dkeys D) /\
  forall k, match dget k D with Some w => exists ws, (forall i, In i is -> dget k (ditems (p i)) = Some (ws i)) /\ sums ws w | None => forall i, In i is -> dget k (ditems (p i)) = None end.
Proof.
  intros (W & Wp & H). assert (E : forall i, In i is -> p i = DDict (ditems (p i))). { intros i Ii. specialize (H [] i Ii). cbn in H. destruct (p i); cbn in H; try discriminate. reflexivity. }
  split; [|split].
  - intros i Ii. split; [now apply E|]. specialize (Wp i Ii). rewrite (E i Ii) in Wp. apply wf_inv in Wp. apply Wp.
  - apply wf_inv in W. apply W.
  - intros k. destruct (dget k D) as [w|] eqn:Dk.
    + assert (G : forall i, In i is -> exists u, dget k (ditems (p i)) = Some u).
      { intros i Ii. destruct (dget k (ditems (p i))) as [u|] eqn:Du; [eauto|]. exfalso. specialize (H [k]). cbn [at_path] in H. rewrite Dk in H. destruct w as [x|x|dd]; cbn [at_path] in H; [exact H|destruct H as (ts & H & _); specialize (H i Ii)|specialize (H i Ii)];
        rewrite (E i Ii) in H; cbn [at_path] in H; rewrite Du in H; discriminate. }
      exists (fun i => match dget k (ditems (p i)) with Some u => u | None => w end). split. { intros i Ii. destruct (G i Ii) as [u ->]. reflexivity. }
      split; [|split].
      * apply wf_inv in W. apply (proj2 W k). now apply dget_in.
      * intros i Ii. destruct (G i Ii) as [u Du]. rewrite Du. specialize (Wp i Ii). rewrite (E i Ii) in Wp. apply wf_inv in Wp. apply (proj2 Wp k). now apply dget_in.
      * intros q. specialize (H (k :: q)). cbn [at_path] in H. rewrite Dk in H.
        assert (T : forall i, In i is -> at_path (k :: q) (p i) = at_path q (match dget k (ditems (p i)) with Some u => u | None => w end)). { intros i Ii. rewrite (E i Ii) at 1. cbn [at_path]. destruct (G i Ii) as [u ->]. reflexivity. }
        destruct (at_path q w) as [| |x|t]; [| |exact H|]; [intros i Ii; rewrite <- (T i Ii); now apply H|intros i Ii; rewrite <- (T i Ii); now apply H|].
        destruct H as (ts & H1 & H2). exists ts. split; [|exact H2]. intros i Ii. rewrite <- (T i Ii). now apply H1.
    + intros i Ii. specialize (H [k]). cbn [at_path] in H. rewrite Dk in H. specialize (H i Ii). rewrite (E i Ii) in H. cbn [at_path] in H. destruct (dget k (ditems (p i))) as [u|]; [|reflexivity]. now apply at_nil in H.
Qed.
Lemma sums_dict_of p P d : sums p P -> p i0 = DDict d -> exists D, P = DDict D.
Proof. intros (_ & _ & H) E. specialize (H []). destruct P as [x|x|D]; cbn in H; [destruct H| |eauto]. destruct H as (ts & H & _). specialize (H i0 I0). rewrite E in H. discriminate. Qed.

(** ** The parameters a tree draws *)
Lemma params_inv (s : astage) kids w st ep dp : NoDup (dkeys kids) -> c_params (AEnc s kids) w st = Ok (ep, dp) ->
  (exists s1 el dl, a_params s (w []) s1 = Ok (el, dl) /\ dict_item PARAMS dp = Ok (leaves dl)) /\
  forall k c dk, dget k kids = Some c -> child k dp = Ok dk -> exists w' sk ek, c_params c w' sk = Ok (ek, dk).
Proof.
  intros N H. cbn [M_CoreTree.c_params] in H. apply bind_ok in H as (s0 & E0 & H). apply bind_ok in H as (s1 & E1 & H). apply bind_ok in H as ([el dl] & E2 & H). apply bind_ok in H as (cs & E3 & H). injection H as <- <-. split.
  - exists s1, el, dl. split; [exact E2|apply item_node1].
  - intros k c dk D E. pose proof (kmapM_get _ _ _ E3 k) as G. rewrite D in G. destruct G as ([ek dk'] & G1 & G2). apply bind_ok in G1 as (sk & G1 & G3). unfold child in E. cbn in E. unfold dindex in E. rewrite dget_kmap, G2 in E. cbn in E. injection E as <-. eauto.
Qed.
Lemma convert_leaves_eq (dl : dict (leaf V)) p1 : convert is_none (leaves dl) = Ok p1 -> p1 = kmap (fun _ (l : leaf V) => snd l) dl.
Proof.
  unfold leaves, convert. rewrite kmapM_kmap. revert p1. induction dl as [|[k [b x]] dl IH]; cbn; intros p1 H; [now injection H as <-|]. apply bind_ok in H as (y & E & H). apply bind_ok in H as (r & E2 & H). injection H as <-. f_equal; [|now apply IH].
  destruct b; cbn in E; [now injection E as ->|]. destruct (is_none x); [discriminate|]. now injection E as ->.
Qed.

Lemma tensor_choice (f : I -> dval) : (forall i, In i is -> exists y, f i = DTf y) -> exists ts, forall i, In i is -> f i = DTf (ts i).
Proof.
  intros H. destruct (H i0 I0) as [y0 _]. exists (fun i => match f i with DTf y => y | _ => y0 end). intros i Ii. destruct (H i Ii) as [y ->]. reflexivity.
Qed.
Lemma get_choice {A} (f : I -> dict A) k (a0 : A) : (forall i, In i is -> exists y, dget k (f i) = Some y) -> exists ts, forall i, In i is -> dget k (f i) = Some (ts i).
Proof. intros H. exists (fun i => match dget k (f i) with Some y => y | _ => a0 end). intros i Ii. destruct (H i Ii) as [y ->]. reflexivity. Qed.

Definition got {A} (x : res (dict A)) : dict A := match x with Ok r => r | Err _ => [] end.
Lemma sum_after (e : aenc) : every_stage (commutes_with_sum spec tsum) e -> forall w st ep dp bp ap sh shb sha v p P y,
  c_params e w st = Ok (ep, dp) -> c_split PARAMS dp (c_commuting true e) = Ok (bp, ap) -> c_split SHAPE sh (c_commuting true e) = Ok (shb, sha) ->
  (forall i, In i is -> c_before false e (v i) bp shb = Ok (p i)) -> sums p P -> (forall i, In i is -> c_before true e (v i) dp sh = Ok (DTf (y i))) -> (forall i j, In i is -> In j is -> uni spec is_none e (v i) (v j) dp sh) ->
  c_after e P ap (Z.of_nat (List.length is)) sha = Ok (DTf (tsum (map y is))).
Proof.
  intros H. induction H as [s kids CS N _ IH]. intros w st ep dp bp ap sh shb sha v p P y Pr S1 S2 B Su Fu Un. rewrite after_unfold. destruct (a_commutes s) eqn:Cm; cbn [negb].
  2:{ (* decoded before the sum *)
    assert (E : forall i, In i is -> p i = DTf (y i)).
    { intros i Ii. pose proof (forced (AEnc s kids) true ltac:(cbn; exact Cm) (v i) dp sh bp ap shb sha _ S1 S2 (Fu i Ii)) as F. specialize (B i Ii). rewrite before_unfold in B, F. rewrite Cm in B, F. cbn [orb negb] in B, F. rewrite B in F. now injection F. }
    destruct (sums_is_tf p P (y i0) Su (E i0 I0)) as [t ->]. apply sums_tf in Su as (ts & T1 & ->). f_equal. f_equal. f_equal. apply map_ext_in. intros i Ii. specialize (E i Ii). rewrite (T1 i Ii) in E. now injection E. }
  pose proof (split_inv PARAMS dp _ bp ap ltac:(discriminate) S1) as [P1 P2]. pose proof (split_inv SHAPE sh _ shb sha ltac:(discriminate) S2) as [Q1 Q2].
  assert (R : troot (c_commuting true (AEnc s kids)) = true) by exact Cm. rewrite R in P1, Q1. destruct (params_inv s kids w st ep dp N Pr) as [(s1 & el & dl & A1 & A2) PK].
  (* what every client did *)
  set (sub1 := fun k u => match dget k kids with Some c => do pk <- child k bp ;; do shk <- child k shb ;; c_before false c u pk shk | None => Ok u end).
  set (sub2 := fun k u => match dget k kids with Some c => do pk <- child k dp ;; do shk <- child k sh ;; c_before true c u pk shk | None => Ok u end).
  assert (B' : forall i, In i is -> v i = DDict (ditems (v i)) /\ kmapM sub1 (ditems (v i)) = Ok (ditems (p i)) /\ p i = DDict (ditems (p i))).
  { intros i Ii. specialize (B i Ii). rewrite before_unfold in B. rewrite Cm in B. cbn [orb negb] in B. cbv zeta in B. destruct (v i) as [x|x|d]; try discriminate. apply bind_ok in B as (d' & B1 & B2). injection B2 as <-. auto. }
  set (d2 := fun i => got (kmapM sub2 (ditems (v i)))). set (c2 := fun i => got (convert is_none (DDict (d2 i)))).
  assert (F' : forall i, In i is -> kmapM sub2 (ditems (v i)) = Ok (d2 i) /\ convert is_none (DDict (d2 i)) = Ok (c2 i) /\
     exists s0 s1, dict_item SHAPE sh = Ok s0 /\ convert_shape is_none s0 = Ok s1 /\ convert is_none (leaves dl) = Ok (kmap (fun _ (l : leaf V) => snd l) dl) /\ a_decode s (c2 i) (kmap (fun _ (l : leaf V) => snd l) dl) None s1 = Ok (y i)).
  { intros i Ii. specialize (Fu i Ii). rewrite before_unfold in Fu. cbn [orb] in Fu. cbv zeta in Fu. destruct (v i) as [x|x|d] eqn:Ev; try discriminate. apply bind_ok in Fu as (d' & B1 & B2). change (kmapM sub2 d = Ok d') in B1.
    unfold c2, d2. rewrite Ev. cbn [ditems]. rewrite B1. cbn [got]. apply decoded_tensor in B2 as (p0 & s0 & d1 & p1 & sv & z & E1 & E2 & E3 & E4 & E5 & E6 & E7). injection E7 as <-. rewrite E3. cbn [got]. split; [reflexivity|]. split; [reflexivity|]. exists s0, sv. rewrite A2 in E1. injection E1 as <-.
    pose proof (convert_leaves_eq _ _ E4) as ->. auto. }
  destruct (B' i0 I0) as (_ & _ & Pi0). destruct (sums_dict_of p P _ Su Pi0) as [D ->]. apply sums_dict in Su as (Np & ND & SD).
  set (loop := fun k u => match dget k kids with Some c => do pk <- child k ap ;; do shk <- child k sha ;; c_after c u pk (Z.of_nat (List.length is)) shk | None => Ok u end). fold loop.
  assert (Key : forall k, match dget k D with Some u => exists ts, (forall i, In i is -> dget k (c2 i) = Some (ts i)) /\ loop k u = Ok (DTf (tsum (map ts is))) | None => forall i, In i is -> dget k (c2 i) = None end).
  { intros k. specialize (SD k). destruct (dget k D) as [u|] eqn:Dk.
    - destruct SD as (ws & W1 & W2).
      (* the values at k: v i, p i = ws i, d2 i, c2 i *)
      assert (X : forall i, In i is -> exists a b t, dget k (ditems (v i)) = Some a /\ sub1 k a = Ok (ws i) /\ sub2 k a = Ok b /\ convert_leaf is_none b = Ok t /\ dget k (c2 i) = Some t).
      { intros i Ii. destruct (B' i Ii) as (_ & M1 & _). destruct (F' i Ii) as (M2 & M3 & _). specialize (W1 i Ii). pose proof (kmapM_get _ _ _ M1 k) as G1. destruct (dget k (ditems (v i))) as [a|] eqn:Da; [|congruence]. destruct G1 as (b1 & G1 & G1'). assert (b1 = ws i) as -> by congruence.
        pose proof (kmapM_get _ _ _ M2 k) as G2. rewrite Da in G2. destruct G2 as (b & G2 & G2'). unfold convert in M3. pose proof (kmapM_get _ _ _ M3 k) as G3. rewrite G2' in G3. destruct G3 as (t & G3 & G3'). exists a, b, t. auto. }
      destruct (X i0 I0) as (a0 & b0 & t0 & X1 & X2 & X3 & X4 & X5). unfold loop. unfold sub1, sub2 in X2, X3.
      destruct (dget k kids) as [c|] eqn:Dc.
      + apply bind_ok in X3 as (pk & Y1 & X3). apply bind_ok in X3 as (shk & Y2 & X3). destruct (P2 k pk Y1) as (ck & bk & ak & C1 & C2 & C3 & C4). destruct (Q2 k shk Y2) as (ck' & bk' & ak' & C1' & C2' & C3' & C4').
        apply commuting_kids in C1 as (c1 & D1 & ->). apply commuting_kids in C1' as (c1' & D1' & ->). assert (c1 = c) as -> by congruence. assert (c1' = c) as -> by congruence. rewrite Cm in C2, C2'. cbn [andb] in C2, C2'.
        destruct (PK k c pk Dc Y1) as (w' & sk & ek & Pk). rewrite C4, C4'. cbn [bind].
        set (vk := fun i => match dget k (ditems (v i)) with Some a => a | None => a0 end).
        assert (Z1 : forall i, In i is -> c_before false c (vk i) bk bk' = Ok (ws i)).
        { intros i Ii. destruct (X i Ii) as (a & b & t & U1 & U2 & _). unfold vk. rewrite U1. unfold sub1 in U2. rewrite Dc, C3, C3' in U2. exact U2. }
        assert (Z2 : forall i, In i is -> exists y, c_before true c (vk i) pk shk = Ok (DTf y) /\ dget k (c2 i) = Some y).
        { intros i Ii. destruct (X i Ii) as (a & b & t & U1 & _ & U3 & U4 & U5). unfold vk. rewrite U1. unfold sub2 in U3. rewrite Dc, Y1, Y2 in U3. cbn [bind] in U3. destruct (forced_tensor c a pk shk b U3) as [yy ->]. cbn in U4. injection U4 as ->. eauto. }
        destruct (get_choice c2 k t0) as (ts & T). { intros i Ii. destruct (Z2 i Ii) as (yy & _ & E). eauto. }
        exists ts. split; [exact T|]. apply (IH k c (dget_in _ _ _ Dc) w' sk ek pk bk ak shk bk' ak' vk ws u ts Pk C2 C2' Z1 W2).
        * intros i Ii. destruct (Z2 i Ii) as (yy & E1 & E2). rewrite (T i Ii) in E2. injection E2 as ->. exact E1.
        * intros i j Ii Ij. specialize (Un i j Ii Ij). inversion Un as [s' kids' v1 v2 p' sh' _ U2]; subst. destruct (X i Ii) as (ai & _ & _ & Ai & _). destruct (X j Ij) as (aj & _ & _ & Aj & _). apply (U2 k c (vk i) (vk j) pk shk Dc); [unfold vk; now rewrite Ai|unfold vk; now rewrite Aj|exact Y1|exact Y2].
      + assert (U : forall i, In i is -> exists t, convert_leaf is_none (ws i) = Ok t /\ dget k (c2 i) = Some t). { intros i Ii. destruct (X i Ii) as (a & b & t & U1 & U2 & U3 & U4 & U5). unfold sub1, sub2 in U2, U3. rewrite Dc in U2, U3. assert (b = ws i) as -> by congruence. eauto. }
        destruct (get_choice c2 k t0) as (ts & T). { intros i Ii. destruct (U i Ii) as (yy & _ & E). eauto. }
        exists ts. split; [exact T|]. f_equal. destruct u as [x|x|dd].
        * destruct W2 as (_ & _ & W2). now specialize (W2 []).
        * apply sums_tf in W2 as (ts' & V1 & ->). f_equal. f_equal. apply map_ext_in. intros i Ii. destruct (U i Ii) as (t & E1 & E2). rewrite (V1 i Ii) in E1. cbn in E1. injection E1 as ->. rewrite (T i Ii) in E2. now injection E2.
        * exfalso. destruct (U i0 I0) as (t & E1 & _). destruct W2 as (_ & _ & W2). specialize (W2 [] i0 I0). destruct (ws i0); cbn in *; discriminate.
    - intros i Ii. specialize (SD i Ii). destruct (B' i Ii) as (_ & M1 & _). destruct (F' i Ii) as (M2 & M3 & _). pose proof (kmapM_get _ _ _ M1 k) as G1. destruct (dget k (ditems (v i))) as [a|] eqn:Da; [destruct G1 as (b1 & _ & G1'); congruence|].
      pose proof (kmapM_get _ _ _ M2 k) as G2. rewrite Da in G2. unfold convert in M3. pose proof (kmapM_get _ _ _ M3 k) as G3. now rewrite G2 in G3. }
  destruct (kmapM_ok loop D ND) as [D' E']. { intros k u Dk. specialize (Key k). rewrite Dk in Key. destruct Key as (ts & _ & E). eauto. }
  rewrite E'. cbn [bind]. destruct (F' i0 I0) as (_ & _ & s0 & sv & G1 & G2 & G3 & _). unfold stage_decode. rewrite (P1 _ A2), (Q1 _ G1). cbn [bind].
  destruct (kmapM_ok (fun (_ : string) u => convert_leaf is_none u) D') as [D1 E1]. { now rewrite (kmapM_keys _ _ _ E'). } { intros k u Dk. pose proof (kmapM_get _ _ _ E' k) as X. specialize (Key k). destruct (dget k D) as [z|]; [|congruence]. destruct X as (b & X1 & X2). destruct Key as (ts & _ & K2). assert (u = DTf (tsum (map ts is))) as -> by congruence. cbn. eauto. }
  unfold convert at 1. rewrite E1. cbn [bind]. rewrite G3, G2. cbn [bind].
  assert (Len : List.length (map c2 is) = List.length is) by apply map_length. rewrite <- Len.
  rewrite (CS Cm (map c2 is) (map y is) D1 (kmap (fun _ (l : leaf V) => snd l) dl) sv); [reflexivity| | | | |].
  - intros E. apply map_eq_nil in E. rewrite E in I0. destruct I0.
  - exists (w []), s1, el, dl. auto.
  - intros d d' Hd Hd'. apply in_map_iff in Hd as (i & <- & Ii). apply in_map_iff in Hd' as (j & <- & Ij). specialize (Un i j Ii Ij). inversion Un as [s' kids' v1 v2 p' sh' U1 _]; subst.
    assert (Q : forall i, In i is -> stage_in is_none kids (v i) dp sh = Ok (c2 i)). { intros i' Ii'. destruct (F' i' Ii') as (M1 & M2 & _). unfold stage_in. fold sub2. rewrite M1. exact M2. }
    apply U1; now apply Q.
  - split; [now rewrite (kmapM_keys _ _ _ E1), (kmapM_keys _ _ _ E')|]. split.
    + intros d Hd. apply in_map_iff in Hd as (i & <- & Ii). destruct (F' i Ii) as (M2 & M3 & _). unfold convert in M3. rewrite (kmapM_keys _ _ _ M3), (kmapM_keys _ _ _ M2). destruct (B' i Ii) as (_ & M1 & _). rewrite <- (kmapM_keys _ _ _ M1). apply (Np i Ii).
    + intros k. pose proof (kmapM_get _ _ _ E1 k) as X. pose proof (kmapM_get _ _ _ E' k) as X'. specialize (Key k). destruct (dget k D) as [u|].
      * destruct X' as (b & X1 & X2). rewrite X2 in X. destruct X as (t & X3 & X4). destruct Key as (ts & K1 & K2). assert (b = DTf (tsum (map ts is))) as -> by congruence. cbn in X3. injection X3 as <-. rewrite X4. exists (map ts is). split; [|reflexivity]. rewrite !map_map. apply map_ext_in. exact K1.
      * rewrite X' in X. rewrite X. intros d Hd. apply in_map_iff in Hd as (i & <- & Ii). now apply Key.
  - clear -F' G1 G2. induction is as [|i l IHl]; cbn; constructor.
    + destruct (F' i (or_introl eq_refl)) as (_ & _ & s0' & sv' & H1 & H2 & _ & H4). assert (s0' = s0) as -> by congruence. assert (sv' = sv) as -> by congruence. exact H4.
    + apply IHl. intros j Ij. apply F'. now right.
Qed.
End Sum.
