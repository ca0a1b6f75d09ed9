(** Lemmas about encoder trees. *)
From Verif Require Import Base M_Encoder S_Encoder.

Section Dict.
Context {A B : Type}.
Lemma dget_map (f : A -> B) k (d : dict A) : dget k (map (fun kv => (fst kv, f (snd kv))) d) = option_map f (dget k d).
Proof. induction d as [|[k' v] r IH]; cbn; [reflexivity|]. destruct (k =? k')%string; [reflexivity|apply IH]. Qed.
Lemma dget_in k (d : dict A) v : dget k d = Some v -> In (k, v) d.
Proof.
  induction d as [|[k' w] r IH]; cbn; [discriminate|]. destruct (String.eqb_spec k k') as [->|N]; [intros [= ->]; now left|].
  intros H. right. auto.
Qed.
Lemma dget_none k (d : dict A) : dget k d = None <-> ~ In k (dkeys d).
Proof.
  induction d as [|[k' w] r IH]; cbn; [tauto|]. destruct (String.eqb_spec k k') as [->|N]; [intuition discriminate|].
  rewrite IH. intuition congruence.
Qed.
Lemma dget_nodup k (d : dict A) v : NoDup (dkeys d) -> In (k, v) d -> dget k d = Some v.
Proof.
  induction d as [|[k' w] r IH]; cbn; [tauto|]. intros N [E|H]; inversion N; subst.
  - injection E as -> ->. now rewrite String.eqb_refl.
  - destruct (String.eqb_spec k k') as [->|]; [|auto]. exfalso. apply H2. now apply (in_map fst) in H.
Qed.
Lemma dget_dset_same k (v : A) d : dget k (dset k v d) = Some v.
Proof.
  induction d as [|[k' w] r IH]; cbn; [now rewrite String.eqb_refl|]. destruct (k =? k')%string eqn:E; cbn; rewrite E; auto.
Qed.
Lemma dget_dset_other k k' (v : A) d : k <> k' -> dget k' (dset k v d) = dget k' d.
Proof.
  intros N. induction d as [|[k2 w] r IH]; cbn.
  - destruct (String.eqb_spec k' k); [congruence|reflexivity].
  - destruct (String.eqb_spec k k2) as [->|]; cbn.
    + destruct (String.eqb_spec k' k2); [congruence|reflexivity].
    + destruct (k' =? k2)%string; auto.
Qed.
Lemma dkeys_dset k (v : A) d : dget k d <> None -> dkeys (dset k v d) = dkeys d.
Proof.
  unfold dkeys. induction d as [|[k' w] r IH]; cbn; [congruence|]. destruct (k =? k')%string; cbn; [reflexivity|]. intros H. now rewrite IH.
Qed.
End Dict.
Lemma mapM_dict_eq {A B} (f : string * A -> res (string * B)) (d : dict A) (d0 : dict B) :
  dkeys d = dkeys d0 -> NoDup (dkeys d0) -> (forall k v, dget k d = Some v -> exists w, dget k d0 = Some w /\ f (k, v) = Ok (k, w)) ->
  mapM f d = Ok d0.
Proof.
  revert d0. induction d as [|[k v] r IH]; intros [|[k0 w0] r0]; cbn; try discriminate; [reflexivity|].
  intros [= -> E] N H. inversion N as [|? ? N1 N2]; subst.
  destruct (H k0 v) as (w & W & F). { now rewrite String.eqb_refl. }
  rewrite String.eqb_refl in W. injection W as <-. rewrite F. cbn. rewrite (IH r0); auto.
  intros k v' G. destruct (H k v') as (w & W & F').
  - destruct (String.eqb_spec k k0) as [->|]; [|auto]. apply dget_in, (in_map fst) in G. cbn in G. rewrite E in G. contradiction.
  - exists w. split; [|auto]. destruct (String.eqb_spec k k0) as [->|]; [|auto]. apply dget_in, (in_map fst) in G. cbn in G. rewrite E in G. contradiction.
Qed.

Section Enc.
Context {T P Sh St : Type} (tshape : T -> Sh).
Notation stage := (@stage T P Sh St).
Notation encoder := (@encoder T P Sh St).
Notation evalue := (@evalue T).

Fixpoint encoder_ind2 (Q : encoder -> Prop) (H : forall s cs, (forall k c, dget k cs = Some c -> Q c) -> Q (Enc s cs)) (e : encoder) : Q e.
Proof.
  destruct e as [s cs]. apply H. induction cs as [|[k c] r IH]; [intros ? ?; discriminate|].
  intros k' c'. cbn. destruct (k' =? k)%string; [|apply IH]. intros [= <-]. apply encoder_ind2. exact H.
Qed.
Fixpoint tree_ind2 {A} (Q : tree A -> Prop) (H : forall a cs, (forall k c, dget k cs = Some c -> Q c) -> Q (Node a cs)) (e : tree A) : Q e.
Proof.
  destruct e as [s cs]. apply H. induction cs as [|[k c] r IH]; [intros ? ?; discriminate|].
  intros k' c'. cbn. destruct (k' =? k)%string; [|apply IH]. intros [= <-]. apply tree_ind2. exact H.
Qed.
Fixpoint evalue_ind2 (Q : evalue -> Prop) (HT : forall t, Q (ET t)) (H : forall d, (forall k v, In (k, v) d -> Q v) -> Q (ED d)) (e : evalue) : Q e.
Proof.
  destruct e as [t|d]; [apply HT|]. apply H. induction d as [|[k c] r IH]; [intros ? ? []|].
  intros k' c' [E|G]; [|eapply IH; eauto]. injection E as _ <-. apply evalue_ind2; auto.
Qed.

Lemma every_stage_inv Q s cs : every_stage Q (@Enc T P Sh St s cs) -> Q s /\ NoDup (dkeys cs) /\ forall k c, dget k cs = Some c -> every_stage Q c.
Proof.
  cbn. intros (A & B & C). repeat split; auto. clear B. induction cs as [|[k c] r IH]; cbn; [intros; discriminate|].
  destruct C as [C1 C2]. intros k' c'. destruct (k' =? k)%string; [intros [= <-]; auto|apply IH; auto].
Qed.

(** Unfolding equations with [dget] in place of the nested fixpoints. *)
Lemma before_unfold force s cs v (p : tree (option P)) (sh : tree (option (option Sh))) :
  decode_before_sum_impl force (@Enc T P Sh St s cs) v p sh =
    let force := (force || negb (s_commutes s))%bool in
    do d <- as_dict v ;;
    do d' <- mapM (fun kv => match dget (fst kv) cs with
       | None => Ok kv
       | Some c => do pk <- dindex (fst kv) (tkids p) ;; do shk <- dindex (fst kv) (tkids sh) ;;
                   do w <- decode_before_sum_impl force c (snd kv) pk shk ;; Ok (fst kv, w) end) d ;;
    if force then
      do ts <- as_tensors d' ;; do pr <- need (troot p) ;; do shr <- need (troot sh) ;;
      do y <- s_decode s ts pr None shr ;; Ok (ET y)
    else Ok (ED d').
Proof.
  cbn [decode_before_sum_impl]. destruct v as [t|d]; [reflexivity|]. cbn [as_dict bind].
  set (fo := (force || negb (s_commutes s))%bool). clearbody fo.
  set (f := fun kv : string * evalue => _). set (g := fun kv : string * evalue => match dget (fst kv) cs with Some _ => _ | None => _ end).
  assert (forall kv, f kv = g kv) as E.
  { intros [k w]. unfold f, g. cbn [fst snd]. clear f g. induction cs as [|[k' c] r IH]; cbn [dget]; [reflexivity|].
    destruct (String.eqb_spec k k') as [->|]; [reflexivity|exact IH]. }
  assert (forall l, mapM f l = mapM g l) as -> by (induction l; cbn; [reflexivity|now rewrite E, IHl]). reflexivity.
Qed.
Lemma after_unfold s cs v (p : tree (option P)) n (sh : tree (option (option Sh))) :
  decode_after_sum_impl (@Enc T P Sh St s cs) v p n sh =
    if negb (s_commutes s) then match v with ET t => Ok (ET t) | ED _ => Err AssertionError end
    else
    do d <- as_dict v ;;
    do d' <- mapM (fun kv => match dget (fst kv) cs with
       | None => Ok kv
       | Some c => do pk <- dindex (fst kv) (tkids p) ;; do shk <- dindex (fst kv) (tkids sh) ;;
                   do w <- decode_after_sum_impl c (snd kv) pk n shk ;; Ok (fst kv, w) end) d ;;
    do ts <- as_tensors d' ;; do pr <- need (troot p) ;; do shr <- need (troot sh) ;;
    do y <- s_decode s ts pr (Some n) shr ;; Ok (ET y).
Proof.
  cbn [decode_after_sum_impl]. destruct (negb (s_commutes s)); [reflexivity|]. destruct v as [t|d]; [reflexivity|]. cbn [as_dict bind].
  set (f := fun kv : string * evalue => _). set (g := fun kv : string * evalue => match dget (fst kv) cs with Some _ => _ | None => _ end).
  assert (forall kv, f kv = g kv) as E.
  { intros [k w]. unfold f, g. cbn [fst snd]. clear f g. induction cs as [|[k' c] r IH]; cbn [dget]; [reflexivity|].
    destruct (String.eqb_spec k k') as [->|]; [reflexivity|exact IH]. }
  assert (forall l, mapM f l = mapM g l) as -> by (induction l; cbn; [reflexivity|now rewrite E, IHl]). reflexivity.
Qed.
Lemma full_kids {A} (v : tree A) k : dget k (tkids (full v)) = option_map full (dget k (tkids v)).
Proof. destruct v as [a ks]. cbn. induction ks as [|[k' w] r IH]; cbn; [reflexivity|]. destruct (k =? k')%string; auto. Qed.
Lemma full_root {A} (v : tree A) : troot (full v) = Some (troot v).
Proof. now destruct v. Qed.
Lemma dindex_ok {A} k (d : dict A) v : dindex k d = Ok v <-> dget k d = Some v.
Proof. unfold dindex. destruct (dget k d); split; congruence. Qed.

Lemma get_params_inv s cs st ep dp : get_params (@Enc T P Sh St s cs) st = Ok (ep, dp) ->
  (troot ep, troot dp) = s_params s (troot st) /\
  forall k c, dget k cs = Some c -> exists stk epk dpk, get_params c stk = Ok (epk, dpk) /\ dget k (tkids ep) = Some epk /\ dget k (tkids dp) = Some dpk.
Proof.
  cbn [get_params]. destruct (s_params s (troot st)) as [p q]. set (go := fix go cs := match cs with [] => _ | _ => _ end).
  destruct (go cs) as [kids|] eqn:G; cbn [bind]; [|discriminate]. intros [= <- <-]. cbn [troot tkids]. split; [reflexivity|].
  intros k c. rewrite (dget_map (fun x : tree P * tree P => fst x)), (dget_map (fun x : tree P * tree P => snd x)).
  revert kids G. induction cs as [|[k' c'] r IH]; intros kids; cbn; [discriminate|].
  destruct (dindex k' (tkids st)) as [stk|] eqn:E1; cbn; [|discriminate]. destruct (get_params c' stk) as [pq|] eqn:E2; cbn; [|discriminate].
  destruct (go r) as [rest|] eqn:E3; cbn; [|discriminate]. intros [= <-]. cbn.
  destruct (k =? k')%string; [|intros; eapply IH; eauto]. intros [= <-]. destruct pq as [pk qk]. exists stk, pk, qk. cbn. auto.
Qed.

Definition toET (d : dict T) : dict evalue := map (fun kt => (fst kt, ET (snd kt))) d.
Lemma as_tensors_toET d : as_tensors (toET d) = Ok d.
Proof. unfold as_tensors, toET. induction d as [|[k t] r IH]; cbn; [reflexivity|]. now rewrite IH. Qed.
Lemma as_tensors_inv d ts : as_tensors d = Ok ts -> d = toET ts.
Proof.
  unfold as_tensors, toET. revert ts. induction d as [|[k v] r IH]; cbn; intros ts; [intros [= <-]; reflexivity|].
  destruct v as [t|]; cbn; [|discriminate]. destruct (mapM _ r) as [rs|]; cbn; [|discriminate]. intros [= <-]. cbn. f_equal. now apply IH.
Qed.

Lemma encode_inv s cs x p ev sh : NoDup (dkeys cs) -> encode tshape (@Enc T P Sh St s cs) x p = Ok (ev, sh) ->
  exists ts, s_encode s x (troot p) = Ok ts /\ troot sh = (if s_needs_shape s then Some (tshape x) else None) /\ dkeys ev = dkeys ts /\
  (forall k, dget k cs = None -> dget k ev = option_map ET (dget k ts)) /\
  (forall k c, dget k cs = Some c -> exists t pk ek sk, dget k ts = Some t /\ dget k (tkids p) = Some pk /\
      encode tshape c t pk = Ok (ek, sk) /\ dget k ev = Some (ED ek) /\ dget k (tkids sh) = Some sk).
Proof.
  intros N. cbn [encode]. destruct (s_encode s x (troot p)) as [ts|]; cbn [bind]; [|discriminate].
  set (go := fix go cs (d : dict evalue) := match cs with [] => _ | _ => _ end).
  destruct (go cs _) as [[enc shapes]|] eqn:G; cbn [bind]; [|discriminate]. intros [= <- <-].
  exists ts. cbn [troot tkids]. split; [reflexivity|]. split; [reflexivity|].
  assert (dkeys enc = dkeys (toET ts) /\ (forall k, dget k cs = None -> dget k enc = dget k (toET ts)) /\
    (forall k c, dget k cs = Some c -> exists t pk ek sk, dget k (toET ts) = Some (ET t) /\ dget k (tkids p) = Some pk /\
      encode tshape c t pk = Ok (ek, sk) /\ dget k enc = Some (ED ek) /\ dget k shapes = Some sk)) as (K & K1 & K2).
  { fold (toET ts) in G. revert G. generalize (toET ts) as d. revert enc shapes. induction cs as [|[k c] r IH]; intros enc shapes d.
    - cbn. intros [= <- <-]. split; [reflexivity|]. split; [reflexivity|intros; discriminate].
    - cbn [go]. destruct (dindex k d) as [v|] eqn:E1; cbn [bind]; [|discriminate]. apply dindex_ok in E1.
      destruct (dindex k (tkids p)) as [pk|] eqn:E2; cbn [bind]; [|discriminate]. apply dindex_ok in E2.
      destruct v as [t|]; [|discriminate]. destruct (encode tshape c t pk) as [[ek sk]|] eqn:E3; cbn [bind]; [|discriminate].
      fold go. destruct (go r (dset k (ED ek) d)) as [[d' sr]|] eqn:E4; cbn [bind]; [|discriminate]. intros [= <- <-].
      inversion N as [|? ? N1 N2]; subst. specialize (IH N2 d' sr _ E4). destruct IH as (I0 & I1 & I2).
      split; [|split].
      + rewrite I0. apply dkeys_dset. congruence.
      + intros k0 H. cbn [dget] in H. destruct (String.eqb_spec k0 k); [discriminate|]. rewrite I1 by auto. apply dget_dset_other. congruence.
      + intros k0 c0 H. cbn [dget] in *. destruct (String.eqb_spec k0 k) as [->|M].
        * injection H as <-. exists t, pk, ek, sk. repeat split; auto. rewrite I1 by (apply dget_none; auto). apply dget_dset_same.
        * destruct (I2 k0 c0 H) as (t0 & pk0 & ek0 & sk0 & A & B & C & D & F). exists t0, pk0, ek0, sk0. repeat split; auto.
          rewrite dget_dset_other in A by congruence. exact A. }
  split; [|split].
  - rewrite K. unfold toET, dkeys. rewrite map_map. reflexivity.
  - intros k H. rewrite K1 by auto. apply (dget_map (fun t => ET t)).
  - intros k c H. destruct (K2 k c H) as (t & pk & ek & sk & A & B & C & D & F). exists t, pk, ek, sk. repeat split; auto.
    unfold toET in A. rewrite (dget_map (fun t => ET t)) in A. destruct (dget k ts); cbn in A; congruence.
Qed.

Theorem tree_lossless (e : encoder) : every_stage (lossless_stage tshape) e -> forall st ep dp x ev sh,
  get_params e st = Ok (ep, dp) -> encode tshape e x ep = Ok (ev, sh) -> decode e (ED ev) (full dp) (full sh) = Ok x.
Proof.
  unfold decode.
  assert (every_stage (lossless_stage tshape) e -> forall st ep dp x ev sh,
  get_params e st = Ok (ep, dp) -> encode tshape e x ep = Ok (ev, sh) -> decode_before_sum_impl true e (ED ev) (full dp) (full sh) = Ok (ET x)) as H.
  { induction e as [s cs IH] using encoder_ind2. intros W st ep dp x ev sh G E.
    apply every_stage_inv in W. destruct W as (L & N & W). apply get_params_inv in G. destruct G as [G1 G2].
    apply (encode_inv s cs x ep ev sh N) in E. destruct E as (ts & E1 & E2 & E3 & E4 & E5).
    specialize (L (troot st) x ts). rewrite <- G1 in L. cbn [fst snd] in L. destruct (L E1) as [Nt D].
    rewrite before_unfold. cbn zeta. cbn [orb as_dict bind].
    rewrite (mapM_dict_eq _ ev (toET ts)).
    - cbn [bind]. rewrite as_tensors_toET. cbn [bind]. rewrite !full_root. cbn [need bind]. rewrite E2, D. reflexivity.
    - rewrite E3. unfold toET, dkeys. now rewrite map_map.
    - unfold toET, dkeys in *. now rewrite map_map.
    - intros k v Hv. unfold toET. rewrite (dget_map (fun t => ET t)). cbn [fst snd]. destruct (dget k cs) as [c|] eqn:Hc.
      + destruct (E5 k c Hc) as (t & pk & ek & sk & A & B & C & F & H). rewrite A. cbn [option_map]. eexists; split; [reflexivity|].
        destruct (G2 k c Hc) as (stk & epk & dpk & Gk & Gep & Gdp). rewrite B in Gep. injection Gep as <-.
        unfold dindex. rewrite !full_kids, Gdp, H. cbn [option_map bind]. rewrite F in Hv. injection Hv as <-.
        rewrite (IH k c Hc (W k c Hc) stk pk dpk t ek sk Gk C). reflexivity.
      + rewrite (E4 k Hc) in Hv. destruct (dget k ts) as [t|]; [|discriminate]. cbn in *. injection Hv as <-. eauto. }
  intros W st ep dp x ev sh G E. rewrite (H W st ep dp x ev sh G E). reflexivity.
Qed.

(** Splitting along the commuting structure. *)
Lemma split_inv {A} (v : tree A) c b a : split_by_commuting_structure v c = Ok (b, a) ->
  (if troot c then troot b = None /\ troot a = Some (troot v) else troot b = Some (troot v) /\ troot a = None) /\
  (forall k w, dget k (tkids v) = Some w -> exists ck bk ak, dget k (tkids c) = Some ck /\ split_by_commuting_structure w ck = Ok (bk, ak) /\
     dget k (tkids b) = Some bk /\ dget k (tkids a) = Some ak) /\
  dkeys (tkids b) = dkeys (tkids v) /\ dkeys (tkids a) = dkeys (tkids v).
Proof.
  destruct v as [x kids]. cbn [split_by_commuting_structure]. set (go := fix go kids := match kids with [] => _ | _ => _ end).
  destruct (go kids) as [ks|] eqn:G; cbn [bind]; [|discriminate].
  intros H. assert (tkids b = map (fun kp : string * (tree (option A) * tree (option A)) => (fst kp, fst (snd kp))) ks /\ tkids a = map (fun kp => (fst kp, snd (snd kp))) ks /\
     (if troot c then troot b = None /\ troot a = Some x else troot b = Some x /\ troot a = None)) as (Hb & Ha & Hr).
  { destruct (troot c); injection H as <- <-; cbn; auto. }
  clear H. cbn [troot tkids]. rewrite Hb, Ha. split; [exact Hr|]. clear Hr Hb Ha. revert ks G.
  induction kids as [|[k w] r IH]; intros ks; cbn [go].
  - intros [= <-]. cbn. repeat split; auto. intros; discriminate.
  - destruct (dindex k (tkids c)) as [ck|] eqn:E1; cbn [bind]; [|discriminate]. apply dindex_ok in E1.
    destruct (split_by_commuting_structure w ck) as [[bk ak]|] eqn:E2; cbn [bind]; [|discriminate].
    fold go. destruct (go r) as [rest|] eqn:E3; cbn [bind]; [|discriminate]. intros [= <-].
    destruct (IH rest eq_refl) as (I1 & I2 & I3). split; [|split; cbn; f_equal; auto].
    intros k0 w0. cbn [dget map fst snd]. destruct (String.eqb_spec k0 k) as [->|]; [intros [= <-]; eauto 8|apply I1].
Qed.
Lemma cs_kids prev s cs k : dget k (tkids (commuting_structure_impl prev (@Enc T P Sh St s cs))) =
  option_map (commuting_structure_impl (prev && s_commutes s)) (dget k cs).
Proof. cbn. induction cs as [|[k' c] r IH]; cbn; [reflexivity|]. destruct (k =? k')%string; auto. Qed.
Lemma cs_root prev s cs : troot (commuting_structure_impl prev (@Enc T P Sh St s cs)) = (prev && s_commutes s)%bool.
Proof. reflexivity. Qed.

Lemma tree_ext {A} (t u : tree A) : troot t = troot u -> tkids t = tkids u -> t = u.
Proof. destruct t, u; cbn; congruence. Qed.
Lemma split_false {A} (v : tree A) : forall (e : encoder) b a, split_by_commuting_structure v (commuting_structure_impl false e) = Ok (b, a) -> b = full v.
Proof.
  refine ((fix F (v : tree A) : forall e b a, split_by_commuting_structure v (commuting_structure_impl false e) = Ok (b, a) -> b = full v := _) v).
  clear v0. intros [s cs]. destruct v as [x kids]. intros b a. cbn [split_by_commuting_structure].
  set (go := fix go kids := match kids with [] => _ | _ => _ end).
  destruct (go kids) as [ks|] eqn:G; cbn [bind]; [|discriminate]. rewrite cs_root. cbn [andb]. intros [= <- _]. cbn [full]. f_equal.
  revert ks G. induction kids as [|[k w] r IH]; intros ks; cbn [go]; [intros [= <-]; reflexivity|].
  destruct (dindex k _) as [ck|] eqn:E1; cbn [bind]; [|discriminate]. apply dindex_ok in E1. rewrite cs_kids in E1.
  destruct (dget k cs) as [c|]; [|discriminate]. cbn in E1. injection E1 as <-.
  destruct (split_by_commuting_structure w _) as [[bk ak]|] eqn:E2; cbn [bind]; [|discriminate].
  fold go. destruct (go r) as [rest|] eqn:E3; cbn [bind]; [|discriminate]. intros [= <-]. cbn. rewrite (F w c bk ak E2). f_equal. apply IH. reflexivity.
Qed.
Lemma split_root_false {A} (v : tree A) s cs b a : s_commutes s = false ->
  split_by_commuting_structure v (commuting_structure_impl true (@Enc T P Sh St s cs)) = Ok (b, a) -> b = full v.
Proof.
  intros H E. apply (split_false v (Enc s cs) b a). rewrite <- E. f_equal. cbn. rewrite H. reflexivity.
Qed.

(** Part decoding, summing, decoding. *)
Section Sum.
Context {I : Type} (is : list I) (Tsum : list T -> T -> Prop) (NE : is <> []).

Fixpoint dsum (ds : I -> dict evalue) (d : dict evalue) : Prop :=
  match d with
  | [] => forall i, In i is -> ds i = []
  | (k, v) :: r => exists (ws : I -> evalue) (rs : I -> dict evalue),
      (forall i, In i is -> ds i = (k, ws i) :: rs i) /\ esum is Tsum ws v /\ dsum rs r
  end.
Lemma esum_ED w d : esum is Tsum w (ED d) <-> exists ds, (forall i, In i is -> w i = ED (ds i)) /\ dsum ds d.
Proof. cbn. reflexivity. Qed.
Lemma esum_all_ET w ts v : (forall i, In i is -> w i = ET (ts i)) -> esum is Tsum w v -> exists t, v = ET t /\ Tsum (map ts is) t.
Proof.
  intros H. destruct v as [t|d].
  - intros (us & U & S). exists t. split; [reflexivity|]. replace (map ts is) with (map us is); [exact S|].
    apply map_ext_in. intros i Hi. specialize (H i Hi). rewrite (U i Hi) in H. congruence.
  - intros (ds & D & _). destruct is as [|i r] eqn:E; [congruence|]. specialize (H i (or_introl eq_refl)). specialize (D i (or_introl eq_refl)). congruence.
Qed.
Lemma esum_all_ED w ds v : (forall i, In i is -> w i = ED (ds i)) -> esum is Tsum w v -> exists d, v = ED d /\ dsum ds d.
Proof.
  intros H. destruct v as [t|d].
  - intros (us & U & S). destruct is as [|i r] eqn:E; [congruence|]. specialize (H i (or_introl eq_refl)). specialize (U i (or_introl eq_refl)). congruence.
  - intros (es & D & S). exists d. split; [reflexivity|].
    assert (forall i, In i is -> es i = ds i) as X. { intros i Hi. specialize (H i Hi). rewrite (D i Hi) in H. congruence. }
    clear D H. revert es ds S X. induction d as [|[k v] r IH]; intros es ds; cbn.
    + intros A X i Hi. rewrite <- X; auto.
    + intros (ws & rs & A & B & C) X. exists ws, rs. split; [intros i Hi; rewrite <- X; auto|]. auto.
Qed.


(** Existence of the part decoding. *)
Definition part_exists (e : encoder) : Prop := forall v dp sh dpb dpa shb sha y,
  split_by_commuting_structure dp (commuting_structure_impl true e) = Ok (dpb, dpa) ->
  split_by_commuting_structure sh (commuting_structure_impl true e) = Ok (shb, sha) ->
  decode_before_sum_impl true e v (full dp) (full sh) = Ok (ET y) ->
  exists w, decode_before_sum_impl false e v dpb shb = Ok w.
Lemma mapM_impl {A B C} (f : A -> res B) (g : A -> res C) l bs : mapM f l = Ok bs -> (forall a b, In a l -> In b bs -> f a = Ok b -> exists c, g a = Ok c) -> exists cs, mapM g l = Ok cs.
Proof.
  revert bs. induction l as [|a r IH]; intros bs; cbn; [eauto|]. destruct (f a) as [b|] eqn:F; cbn; [|discriminate].
  destruct (mapM f r) as [rs|]; cbn; [|discriminate]. intros [= <-] H. destruct (H a b (or_introl eq_refl) (or_introl eq_refl) F) as [c ->].
  destruct (IH rs eq_refl) as [cs ->]. { intros; eapply H; eauto; now right. } cbn. eauto.
Qed.
Lemma toET_in k v d : In (k, v) (toET d) -> exists t, v = ET t.
Proof. unfold toET. rewrite in_map_iff. intros ([k' t] & [= <- <-] & _). eauto. Qed.

Lemma part_exists_all e : part_exists e.
Proof.
  induction e as [s cs IH] using encoder_ind2. intros v dp sh dpb dpa shb sha y Sp Ss F.
  destruct (s_commutes s) eqn:C.
  - rewrite before_unfold in *. cbn zeta in *. rewrite C in *. cbn [negb orb] in *. destruct v as [t|d]; [discriminate|]. cbn [as_dict bind] in *.
    destruct (mapM _ d) as [d'|] eqn:E in F; cbn [bind] in F; [|discriminate].
    destruct (as_tensors d') as [ts|] eqn:E2; cbn [bind] in F; [|discriminate]. apply as_tensors_inv in E2. subst d'.
    apply split_inv in Sp, Ss. destruct Sp as (_ & Sp & _), Ss as (_ & Ss & _).
    destruct (mapM_impl _ (fun kv => match dget (fst kv) cs with
       | None => Ok kv
       | Some c => do pk <- dindex (fst kv) (tkids dpb) ;; do shk <- dindex (fst kv) (tkids shb) ;;
                   do w <- decode_before_sum_impl false c (snd kv) pk shk ;; Ok (fst kv, w) end) d _ E) as [ws ->]; [|cbn [bind]; eauto].
    intros [k w] [k2 w2] _ I2. cbn [fst snd]. destruct (dget k cs) as [c|] eqn:Hc; [|eauto].
    unfold dindex. rewrite !full_kids. destruct (dget k (tkids dp)) as [pk|] eqn:Hp; cbn [option_map bind]; [|discriminate].
    destruct (dget k (tkids sh)) as [sk|] eqn:Hs; cbn [option_map bind]; [|discriminate].
    destruct (decode_before_sum_impl true c w (full pk) (full sk)) as [z|] eqn:Hz; cbn [bind]; [|discriminate]. intros [= <- <-].
    destruct (toET_in _ _ _ I2) as [t ->].
    destruct (Sp k pk Hp) as (ck & bk & ak & A1 & A2 & A3 & A4). destruct (Ss k sk Hs) as (ck' & bk' & ak' & B1 & B2 & B3 & B4).
    rewrite cs_kids, Hc, C in A1, B1. cbn in A1, B1. injection A1 as <-. injection B1 as <-. rewrite A3, B3. cbn [bind].
    destruct (IH k c Hc w pk sk bk ak bk' ak' t A2 B2 Hz) as [u ->]. cbn. eauto.
  - rewrite (split_root_false dp s cs dpb dpa C Sp), (split_root_false sh s cs shb sha C Ss). exists (ET y).
    rewrite <- F. rewrite !before_unfold. rewrite C. reflexivity.
Qed.

Lemma mapM_dict_level (dflt : I -> T) (f g : I -> string * evalue -> res (string * evalue)) (h : string * evalue -> res (string * evalue)) :
  (forall i k v k' v', In i is -> g i (k, v) = Ok (k', v') -> k' = k) ->
  (forall i k v k' v', In i is -> f i (k, v) = Ok (k', v') -> k' = k) ->
  (forall k (vs ws : I -> evalue) (ts : I -> T) W,
    (forall i, In i is -> f i (k, vs i) = Ok (k, ET (ts i))) ->
    (forall i, In i is -> g i (k, vs i) = Ok (k, ws i)) -> esum is Tsum ws W -> exists t, h (k, W) = Ok (k, ET t) /\ Tsum (map ts is) t) ->
  forall D (ds wds : I -> dict evalue) (tds : I -> dict T),
  (forall i, In i is -> mapM (f i) (ds i) = Ok (toET (tds i))) -> (forall i, In i is -> mapM (g i) (ds i) = Ok (wds i)) ->
  dsum wds D -> exists D', mapM h D = Ok (toET D') /\ tdsum is Tsum tds D'.
Proof.
  intros Kg Kf H. induction D as [|[k W] r IH]; intros ds wds tds Hf Hg S; cbn in S.
  - exists []. split; [reflexivity|]. cbn. intros i Hi. specialize (Hf i Hi). specialize (Hg i Hi). rewrite (S i Hi) in Hg.
    destruct (ds i) as [|a l]; cbn [mapM] in *. { assert (toET (tds i) = []) as Hn by congruence. unfold toET in Hn. destruct (tds i); [reflexivity|discriminate]. }
    destruct (g i a); cbn in Hg; [|discriminate]. destruct (mapM (g i) l); discriminate.
  - destruct S as (ws & rs & S1 & S2 & S3).
    set (vs := fun i => match ds i with (_, v) :: _ => v | [] => ED [] end).
    set (ts := fun i => match tds i with (_, t) :: _ => t | [] => dflt i end).
    assert (forall i, In i is -> ds i = (k, vs i) :: tl (ds i) /\ tds i = (k, ts i) :: tl (tds i) /\
      f i (k, vs i) = Ok (k, ET (ts i)) /\ g i (k, vs i) = Ok (k, ws i) /\
      mapM (f i) (tl (ds i)) = Ok (toET (tl (tds i))) /\ mapM (g i) (tl (ds i)) = Ok (rs i)) as X.
    { intros i Hi. specialize (Hf i Hi). specialize (Hg i Hi). rewrite (S1 i Hi) in Hg. unfold vs, ts.
      destruct (ds i) as [|[k0 v0] l]; cbn in *; [discriminate|].
      destruct (g i (k0, v0)) as [[k1 w1]|] eqn:G1; cbn in Hg; [|discriminate]. destruct (mapM (g i) l); cbn in Hg; [|discriminate].
      injection Hg as -> -> ->. pose proof (Kg i _ _ _ _ Hi G1) as E1; subst k0.
      destruct (f i (k, v0)) as [[k2 w2]|] eqn:F1; cbn in Hf; [|discriminate]. destruct (mapM (f i) l) as [fl|] eqn:F2; cbn in Hf; [|discriminate].
      injection Hf as Hf. pose proof (Kf i _ _ _ _ Hi F1) as E2; subst k2. unfold toET in Hf. destruct (tds i) as [|[k3 t3] l3]; cbn in Hf; [discriminate|].
      injection Hf as <- -> ->. cbn. repeat split; auto. }
    destruct (H k vs ws ts W) as (t & Ht & St'); auto; try (intros i Hi; apply X; auto).
    destruct (IH (fun i => tl (ds i)) rs (fun i => tl (tds i))) as (D' & HD & SD); auto; try (intros i Hi; apply X; auto).
    exists ((k, t) :: D'). split; [cbn; rewrite Ht; cbn; rewrite HD; reflexivity|].
    cbn. exists ts, (fun i => tl (tds i)). split; [intros i Hi; apply X; auto|]. auto.
Qed.

Context (good : stage -> P -> Prop).
Definition commutes_for (s : stage) : Prop :=
  s_commutes s = true ->
  forall (ds : I -> dict T) (d : dict T) pr sh (ys : I -> T), good s pr ->
    tdsum is Tsum ds d -> (forall i, In i is -> s_decode s (ds i) pr None sh = Ok (ys i)) ->
    exists y, s_decode s d pr (Some (Z.of_nat (List.length is))) sh = Ok y /\ Tsum (map ys is) y.
Inductive pgood : encoder -> tree P -> Prop :=
| pg s cs p : good s (troot p) -> (forall k c t, dget k cs = Some c -> dget k (tkids p) = Some t -> pgood c t) -> pgood (Enc s cs) p.
Definition claim (e : encoder) : Prop :=
  every_stage commutes_for e ->
  forall (ev : I -> evalue) (dp : tree P) (sh : I -> tree (option Sh)) dpb dpa (shb : I -> tree (option (option Sh))) sha (ys : I -> T) (ws : I -> evalue), pgood e dp ->
  split_by_commuting_structure dp (commuting_structure_impl true e) = Ok (dpb, dpa) ->
  (forall i, In i is -> split_by_commuting_structure (sh i) (commuting_structure_impl true e) = Ok (shb i, sha)) ->
  (forall i, In i is -> decode_before_sum_impl true e (ev i) (full dp) (full (sh i)) = Ok (ET (ys i))) ->
  (forall i, In i is -> decode_before_sum_impl false e (ev i) dpb (shb i) = Ok (ws i)) ->
  forall W, esum is Tsum ws W -> exists Y, decode_after_sum_impl e W dpa (Z.of_nat (List.length is)) sha = Ok (ET Y) /\ Tsum (map ys is) Y.

Lemma is_inh : exists i0, In i0 is. Proof. destruct is as [|i r]; [congruence|]. exists i. now left. Qed.

Lemma claim_all (e : encoder) : claim e.
Proof.
  induction e as [s cs IH] using encoder_ind2. intros Wf ev dp sh dpb dpa shb sha ys ws PG Sp Ss F B W SW. inversion PG as [s0 cs0 p0 GR GK]; subst.
  apply every_stage_inv in Wf. destruct Wf as (Q & _ & Wf). rewrite after_unfold.
  destruct (s_commutes s) eqn:C; cbn [negb].
  2:{ assert (forall i, In i is -> ws i = ET (ys i)) as E.
      { intros i Hi. specialize (B i Hi). specialize (F i Hi).
        rewrite (split_root_false dp s cs dpb dpa C Sp), (split_root_false (sh i) s cs (shb i) sha C (Ss i Hi)) in B.
        rewrite before_unfold in B, F. rewrite C in B, F. cbn [negb orb] in B, F. rewrite F in B. congruence. }
      destruct (esum_all_ET ws ys W E SW) as (t & -> & S). eauto. }
  (* the dictionaries of every summand *)
  set (ds := fun i => match ev i with ED d => d | ET _ => [] end).
  set (ff := fun i (kv : string * evalue) => match dget (fst kv) cs with
       | None => Ok kv
       | Some c => do pk <- dindex (fst kv) (tkids (full dp)) ;; do shk <- dindex (fst kv) (tkids (full (sh i))) ;;
                   do w <- decode_before_sum_impl true c (snd kv) pk shk ;; Ok (fst kv, w) end).
  set (gg := fun i (kv : string * evalue) => match dget (fst kv) cs with
       | None => Ok kv
       | Some c => do pk <- dindex (fst kv) (tkids dpb) ;; do shk <- dindex (fst kv) (tkids (shb i)) ;;
                   do w <- decode_before_sum_impl false c (snd kv) pk shk ;; Ok (fst kv, w) end).
  set (tds := fun i => match mapM (ff i) (ds i) with Ok d' => match as_tensors d' with Ok ts => ts | _ => [] end | _ => [] end).
  set (wds := fun i => match ws i with ED d => d | ET _ => [] end).
  assert (forall i, In i is -> ev i = ED (ds i) /\ mapM (ff i) (ds i) = Ok (toET (tds i)) /\ s_decode s (tds i) (troot dp) None (troot (sh i)) = Ok (ys i)
     /\ ws i = ED (wds i) /\ mapM (gg i) (ds i) = Ok (wds i)) as X.
  { intros i Hi. specialize (B i Hi). specialize (F i Hi). rewrite before_unfold in B, F. cbn zeta in B, F. rewrite C in B, F. cbn [negb orb] in B, F.
    unfold ds, tds, wds. unfold ds. destruct (ev i) as [|d]; [discriminate|]. cbn [as_dict bind] in B, F.
    fold (ff i) in F. fold (gg i) in B. destruct (mapM (ff i) d) as [d'|]; cbn [bind] in F; [|discriminate].
    destruct (as_tensors d') as [ts|] eqn:A; cbn [bind] in F; [|discriminate]. apply as_tensors_inv in A as A'. subst d'.
    rewrite !full_root in F. cbn [need bind] in F. destruct (s_decode s ts (troot dp) None (troot (sh i))) as [y|]; cbn [bind] in F; [|discriminate]. injection F as ->.
    destruct (mapM (gg i) d) as [wd|] eqn:Gm; cbn [bind] in B; [|discriminate]. injection B as <-. cbn. auto. }
  assert (forall i, In i is -> ws i = ED (wds i)) as Xw by (intros i Hi; apply X; auto).
  destruct (esum_all_ED ws wds W Xw SW) as (D & -> & SD). cbn [as_dict bind].
  apply split_inv in Sp. destruct Sp as (Rp & Sp & _). rewrite cs_root, C in Rp. cbn in Rp. destruct Rp as [_ Rp].
  assert (forall i, In i is -> troot sha = Some (troot (sh i))) as Rs.
  { intros i Hi. specialize (Ss i Hi). apply split_inv in Ss. destruct Ss as (R & _). rewrite cs_root, C in R. cbn in R. tauto. }
  destruct (mapM_dict_level ys ff gg (fun kv => match dget (fst kv) cs with
       | None => Ok kv
       | Some c => do pk <- dindex (fst kv) (tkids dpa) ;; do shk <- dindex (fst kv) (tkids sha) ;;
                   do w <- decode_after_sum_impl c (snd kv) pk (Z.of_nat (List.length is)) shk ;; Ok (fst kv, w) end)) with (D := D) (ds := ds) (wds := wds) (tds := tds)
    as (D' & HD & SD'); auto; try (intros i Hi; apply X; auto).
  - intros i k v k' v' _. unfold gg. cbn [fst snd]. destruct (dget k cs); [|congruence].
    destruct (dindex k _); cbn [bind]; [|discriminate]. destruct (dindex k _); cbn [bind]; [|discriminate]. destruct (decode_before_sum_impl _ _ _ _ _); cbn [bind]; congruence.
  - intros i k v k' v' _. unfold ff. cbn [fst snd]. destruct (dget k cs); [|congruence].
    destruct (dindex k _); cbn [bind]; [|discriminate]. destruct (dindex k _); cbn [bind]; [|discriminate]. destruct (decode_before_sum_impl _ _ _ _ _); cbn [bind]; congruence.
  - intros k vs us ts V Hf Hg SV. cbn [fst snd]. unfold ff, gg in Hf, Hg. cbn [fst snd] in Hf, Hg.
    destruct (dget k cs) as [c|] eqn:Hc.
    + destruct is_inh as [i0 Hi0].
      set (skf := fun i => match dget k (tkids (sh i)) with Some t => t | None => sh i end).
      set (skb := fun i => match dget k (tkids (shb i)) with Some t => t | None => shb i end).
      assert (exists pk, dget k (tkids dp) = Some pk) as [pk Hp].
      { specialize (Hf i0 Hi0). unfold dindex in Hf. rewrite full_kids in Hf. destruct (dget k (tkids dp)); [eauto|discriminate]. }
      destruct (Sp k pk Hp) as (ck & bk & ak & A1 & A2 & A3 & A4). rewrite cs_kids, Hc, C in A1. cbn in A1. injection A1 as <-.
      assert (exists sak, dget k (tkids sha) = Some sak) as [sak Hsa].
      { specialize (Hf i0 Hi0). unfold dindex in Hf. rewrite !full_kids, Hp in Hf. cbn in Hf.
        destruct (dget k (tkids (sh i0))) as [sk|] eqn:E; [|discriminate]. specialize (Ss i0 Hi0). apply split_inv in Ss.
        destruct Ss as (_ & Ss & _). destruct (Ss k sk E) as (? & ? & ? & ? & ? & ? & ?). eauto. }
      assert (forall i, In i is -> dget k (tkids (sh i)) = Some (skf i) /\ dget k (tkids (shb i)) = Some (skb i) /\
         split_by_commuting_structure (skf i) (commuting_structure_impl true c) = Ok (skb i, sak) /\
         decode_before_sum_impl true c (vs i) (full pk) (full (skf i)) = Ok (ET (ts i)) /\
         decode_before_sum_impl false c (vs i) bk (skb i) = Ok (us i)) as Y.
      { intros i Hi. specialize (Hf i Hi). specialize (Hg i Hi). unfold dindex in Hf, Hg. rewrite !full_kids, Hp in Hf. cbn in Hf. rewrite A3 in Hg. cbn in Hg.
        unfold skf, skb. destruct (dget k (tkids (sh i))) as [sk|] eqn:E; cbn in Hf; [|discriminate].
        specialize (Ss i Hi). apply split_inv in Ss. destruct Ss as (_ & Ss & _). destruct (Ss k sk E) as (ck & sbk & sak' & B1 & B2 & B3 & B4).
        rewrite cs_kids, Hc, C in B1. cbn in B1. injection B1 as <-. rewrite Hsa in B4. injection B4 as <-. rewrite B3 in *. cbn in Hg.
        destruct (decode_before_sum_impl true c (vs i) (full pk) (full sk)); cbn in Hf; [|discriminate].
        destruct (decode_before_sum_impl false c (vs i) bk sbk); cbn in Hg; [|discriminate]. injection Hf as ->. injection Hg as ->. auto. }
      destruct (IH k c Hc (Wf k c Hc) vs pk skf bk ak skb sak ts us (GK _ _ _ Hc Hp) A2) with (W := V) as (Z & HZ & SZ); auto; try (intros i Hi; apply Y; auto).
      unfold dindex. rewrite A4, Hsa. cbn [bind]. rewrite HZ. cbn [bind]. eauto.
    + assert (forall i, In i is -> us i = ET (ts i)) as E. { intros i Hi. specialize (Hf i Hi). specialize (Hg i Hi). congruence. }
      destruct (esum_all_ET us ts V E SV) as (t & -> & S). eauto.
  - rewrite HD. cbn [bind]. rewrite as_tensors_toET. cbn [bind]. rewrite Rp. cbn [need bind].
    destruct is_inh as [i0 Hi0]. rewrite (Rs i0 Hi0). cbn [need bind].
    destruct (Q C tds D' (troot dp) (troot (sh i0)) ys GR SD') as (Y & HY & SY).
    + intros i Hi. replace (troot (sh i0)) with (troot (sh i)) by (pose proof (Rs i Hi); pose proof (Rs i0 Hi0); congruence). apply X; auto.
    + rewrite HY. cbn [bind]. eauto.
Qed.

Theorem sum_theorem_for (e : encoder) : every_stage commutes_for e ->
  forall (ev : I -> evalue) (dp : tree P) (sh : I -> tree (option Sh)) dpb dpa (shb : I -> tree (option (option Sh))) sha (ys : I -> T), pgood e dp ->
  split_by_commuting_structure dp (commuting_structure e) = Ok (dpb, dpa) ->
  (forall i, In i is -> split_by_commuting_structure (sh i) (commuting_structure e) = Ok (shb i, sha)) ->
  (forall i, In i is -> decode e (ev i) (full dp) (full (sh i)) = Ok (ys i)) ->
  exists ws : I -> evalue,
    (forall i, In i is -> decode_before_sum e (ev i) dpb (shb i) = Ok (ws i)) /\
    forall W, esum is Tsum ws W -> exists Y, decode_after_sum e W dpa (Z.of_nat (List.length is)) sha = Ok Y /\ Tsum (map ys is) Y.
Proof.
  intros Q ev dp sh dpb dpa shb sha ys PG Sp Ss F.
  assert (forall i, In i is -> decode_before_sum_impl true e (ev i) (full dp) (full (sh i)) = Ok (ET (ys i))) as F'.
  { intros i Hi. specialize (F i Hi). unfold decode in F. destruct (decode_before_sum_impl _ _ _ _ _) as [[t|]|]; cbn in F; congruence. }
  set (ws := fun i => match decode_before_sum e (ev i) dpb (shb i) with Ok w => w | Err _ => ED [] end).
  assert (forall i, In i is -> decode_before_sum e (ev i) dpb (shb i) = Ok (ws i)) as Bw.
  { intros i Hi. destruct (part_exists_all e (ev i) dp (sh i) dpb dpa (shb i) sha (ys i) Sp (Ss i Hi) (F' i Hi)) as [w E].
    unfold ws, decode_before_sum in *. now rewrite E. }
  exists ws. split; [exact Bw|]. intros W SW.
  destruct (claim_all e Q ev dp sh dpb dpa shb sha ys ws PG Sp Ss F' Bw W SW) as (Y & HY & SY).
  exists Y. unfold decode_after_sum. rewrite HY. auto.
Qed.
End Sum.
Lemma every_stage_impl (Q Q' : stage -> Prop) (e : encoder) : (forall s, Q s -> Q' s) -> every_stage Q e -> every_stage Q' e.
Proof.
  intros H. induction e as [s cs IH] using encoder_ind2. intros W. apply every_stage_inv in W. destruct W as (A & B & C).
  cbn. split; [auto|split; [exact B|]].
  assert (forall k c, In (k, c) cs -> every_stage Q' c) as X by (intros k c Hc; apply (dget_nodup k cs c B) in Hc; eauto).
  clear - X. induction cs as [|[k c] r IH]; [exact Logic.I|]. split; [eapply X; now left|]. apply IH. intros; eapply X; now right; eauto.
Qed.
Lemma pgood_True (e : encoder) : forall dp, pgood (fun _ _ => True) e dp.
Proof. induction e as [s cs IH] using encoder_ind2. intros dp. constructor; [exact Logic.I|]. intros k c t Hc _. eapply IH; eauto. Qed.
Lemma pgood_drawn (e : encoder) : forall st ep dp, get_params e st = Ok (ep, dp) -> pgood (fun s pr => exists st, pr = snd (s_params s st)) e dp.
Proof.
  induction e as [s cs IH] using encoder_ind2. intros st ep dp G. apply get_params_inv in G. destruct G as [G1 G2]. constructor.
  - exists (troot st). now rewrite <- G1.
  - intros k c t Hc Ht. destruct (G2 k c Hc) as (stk & epk & dpk & E & _ & D). rewrite D in Ht. injection Ht as ->. eapply IH; eauto.
Qed.
Theorem sum_theorem {I : Type} (is : list I) (Tsum : list T -> T -> Prop) (N : is <> []) (e : encoder) : every_stage (declared_commutation is Tsum) e ->
  forall (ev : I -> evalue) (st : tree St) (ep dp : tree P) (sh : I -> tree (option Sh)) dpb dpa (shb : I -> tree (option (option Sh))) sha (ys : I -> T),
  get_params e st = Ok (ep, dp) ->
  split_by_commuting_structure dp (commuting_structure e) = Ok (dpb, dpa) ->
  (forall i, In i is -> split_by_commuting_structure (sh i) (commuting_structure e) = Ok (shb i, sha)) ->
  (forall i, In i is -> decode e (ev i) (full dp) (full (sh i)) = Ok (ys i)) ->
  exists ws : I -> evalue,
    (forall i, In i is -> decode_before_sum e (ev i) dpb (shb i) = Ok (ws i)) /\
    forall W, esum is Tsum ws W -> exists Y, decode_after_sum e W dpa (Z.of_nat (List.length is)) sha = Ok Y /\ Tsum (map ys is) Y.
Proof.
  intros Q ev st ep dp sh dpb dpa shb sha ys G. apply (sum_theorem_for is Tsum N (fun s pr => exists st, pr = snd (s_params s st))); [|now apply pgood_drawn in G].
  revert Q. apply every_stage_impl. intros s H C ds d pr sh0 ys0 (st0 & ->). exact (H C ds d st0 sh0 ys0).
Qed.

(** One summand. *)
Definition single (ts : list T) (t : T) : Prop := ts = [t].
Lemma esum_single v : forall w : unit -> evalue, w tt = v -> esum [tt] single w v.
Proof.
  induction v as [t|d IH] using evalue_ind2; intros w E.
  - cbn. exists (fun _ => t). split; [intros [] _; auto|reflexivity].
  - rewrite esum_ED. exists (fun _ => d). split; [intros [] _; auto|]. clear E w.
    assert (forall ds : unit -> dict evalue, ds tt = d -> dsum [tt] single ds d) as X; [|apply X; reflexivity].
    induction d as [|[k v] r IHd]; intros ds E; cbn.
    + intros [] _. auto.
    + exists (fun _ => v), (fun _ => r). split; [intros [] _; auto|]. split.
      * eapply (IH k v); [now left|reflexivity].
      * apply IHd; [|reflexivity]. intros k0 v0 Hv. apply (IH k0 v0). now right.
Qed.
Lemma tdsum_single (ds : unit -> dict T) d : tdsum [tt] single ds d -> ds tt = d.
Proof.
  revert ds. induction d as [|[k t] r IH]; intros ds; cbn; [intros H; apply H; auto|].
  intros (ts & rs & A & B & C). rewrite (A tt) by auto. apply IH in C. unfold single in B. cbn in B. congruence.
Qed.
Theorem single_summand (e : encoder) : every_stage (fun s => s_commutes s = true -> forall d pr sh, s_decode s d pr (Some 1%Z) sh = s_decode s d pr None sh) e ->
  forall ev dp sh dpb dpa shb sha y,
  split_by_commuting_structure dp (commuting_structure e) = Ok (dpb, dpa) ->
  split_by_commuting_structure sh (commuting_structure e) = Ok (shb, sha) ->
  decode e ev (full dp) (full sh) = Ok y ->
  exists w, decode_before_sum e ev dpb shb = Ok w /\ decode_after_sum e w dpa 1 sha = Ok y.
Proof.
  intros Q ev dp sh dpb dpa shb sha y Sp Ss F.
  assert (every_stage (commutes_for [tt] single (fun _ _ => True)) e) as Q'.
  { clear - Q. induction e as [s cs IH] using encoder_ind2. apply every_stage_inv in Q. destruct Q as (A & B & C).
    cbn. split; [|split; [exact B|]].
    - intros H ds d pr sh ys _ S D. exists (ys tt). split; [|reflexivity]. cbn [List.length Z.of_nat]. cbn. rewrite A by auto.
      rewrite <- (tdsum_single ds d S). apply D. now left.
    - assert (forall k c, In (k, c) cs -> every_stage (commutes_for [tt] single (fun _ _ => True)) c) as X.
      { intros k c Hc. apply (dget_nodup k cs c B) in Hc. eauto. }
      clear - X. induction cs as [|[k c] r IH]; [exact Logic.I|]. split; [eapply X; now left|]. apply IH. intros; eapply X; now right; eauto. }
  destruct (sum_theorem_for [tt] single ltac:(discriminate) (fun _ _ => True) e Q' (fun _ => ev) dp (fun _ => sh) dpb dpa (fun _ => shb) sha (fun _ => y) (pgood_True e dp)) as (ws & B & S); auto.
  exists (ws tt). split; [apply B; now left|]. destruct (S (ws tt)) as (Y & HY & SY); [now apply esum_single|].
  unfold single in SY. cbn in SY. injection SY as <-. exact HY.
Qed.
End Enc.
