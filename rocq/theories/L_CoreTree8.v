From Verif Require Import Base M_Encoder M_Dicts S_Dicts M_Gather S_Gather M_CoreTree S_CoreTree S_CoreTree2 L_Encoder L_CoreTree L_CoreTree2.

Section Stages.
Context {V M W0 : Type} (is_none : V -> bool) (none : V) (shape_of : V -> V).
Notation astage := (astage V M W0).
Notation aenc := (aenc V M W0).
Notation dval := (dval V).

Lemma node_cons k p : node (k :: p) = CHILDREN :: k :: node p. Proof. reflexivity. Qed.
Lemma item_at k (v w : dval) : dict_item k v = Ok w -> forall p, at_path (k :: p) v = at_path p w.
Proof. destruct v as [x|x|d]; cbn; try discriminate. unfold dindex. destruct (dget k d); [|discriminate]. intros [= <-]. reflexivity. Qed.
Lemma child_at k (v w : dval) : child k v = Ok w -> forall p, at_path (CHILDREN :: k :: p) v = at_path p w.
Proof.
  unfold child. destruct (dict_item CHILDREN v) as [c|] eqn:E; cbn [bind]; [|discriminate]. intros H p.
  rewrite (item_at _ _ _ E). now apply item_at.
Qed.
Lemma convert_at (v : dval) d : convert is_none v = Ok d -> forall k,
  match dget k d with Some x => at_path [k] v = ATf x \/ at_path [k] v = APy x | None => at_path [k] v = Nothing end.
Proof.
  destruct v as [x|x|dd]; cbn [convert]; try discriminate. intros H k. pose proof (kmapM_get _ _ _ H k) as G. cbn [at_path].
  destruct (dget k dd) as [w|]; [|now rewrite G]. destruct G as (y & C & ->). destruct w as [x|x|]; cbn in C; try discriminate.
  - destruct (is_none x); [discriminate|]. injection C as <-. auto.
  - injection C as <-. auto.
Qed.
Lemma values_here (v w : dval) entry d : dict_item entry v = Ok w -> convert is_none w = Ok d -> holds_values v [] entry d.
Proof. intros I0 C k. cbn [node map List.concat app]. rewrite !(item_at _ _ _ I0). now apply convert_at. Qed.
Lemma values_below k (v w : dval) p entry d : child k v = Ok w -> holds_values w p entry d -> holds_values v (k :: p) entry d.
Proof. intros C H k0. rewrite node_cons. cbn [app]. rewrite !(child_at _ _ _ C). apply H. Qed.
Lemma tensor_dict_at d k : at_path [k] (tensor_dict d) = match dget k d with Some x => ATf (V := V) x | None => Nothing end.
Proof. unfold tensor_dict. cbn [at_path]. rewrite dget_kmap. now destruct (dget k d). Qed.
Lemma leaves_at d k : at_path [k] (leaves d) = match dget k d with Some (true, x) => ATf (V := V) x | Some (false, x) => APy x | None => Nothing end.
Proof. unfold leaves. cbn [at_path]. rewrite dget_kmap. destruct (dget k d) as [[[] x]|]; reflexivity. Qed.

(** ** update_state *)
Theorem each_update p (e : aenc) s kids : stage_at p e s kids -> forall st u st', c_update is_none e st u = Ok st' ->
  exists s0 u0 s1, holds_values st p STATE s0 /\ holds_values u p TENSORS u0 /\ a_update s s0 u0 = Ok s1 /\ holds_tensors st' p STATE s1.
Proof.
  induction 1 as [s kids|k e s0 kids0 p s kids G A IH]; intros st u st'; cbn [c_update];
    (destruct (kmapM _ _) as [cs|] eqn:K; cbn [bind]; [|discriminate]);
    (destruct (dict_item STATE st) as [sd|] eqn:I1; cbn [bind]; [|discriminate]); (destruct (dict_item TENSORS u) as [ud|] eqn:I2; cbn [bind]; [|discriminate]);
    (destruct (convert is_none sd) as [s1|] eqn:C1; cbn [bind]; [|discriminate]); (destruct (convert is_none ud) as [u1|] eqn:C2; cbn [bind]; [|discriminate]).
  - destruct (a_update s s1 u1) as [r|] eqn:U; cbn [bind]; [|discriminate]. intros [= <-]. exists s1, u1, r.
    split. { eapply values_here; eauto. } split. { eapply values_here; eauto. } split; auto. intros k0. cbn [node map List.concat app at_path dget].
    change (STATE =? CHILDREN)%string with false. change (STATE =? STATE)%string with true. cbv iota. apply tensor_dict_at.
  - destruct (a_update s0 s1 u1) as [r|] eqn:U; cbn [bind]; [|discriminate]. intros [= <-].
    pose proof (kmapM_get _ _ _ K k) as X. rewrite G in X. destruct X as (b & X & Gb).
    destruct (child k st) as [sk|] eqn:E1; cbn [bind] in X; [|discriminate]. destruct (child k u) as [uk|] eqn:E2; cbn [bind] in X; [|discriminate].
    destruct (IH _ _ _ X) as (a & b0 & c & H1 & H2 & H3 & H4). exists a, b0, c.
    split. { eapply values_below; eauto. } split. { eapply values_below; eauto. } split; auto.
    intros k0. rewrite node_cons. cbn [app at_path dget]. change (CHILDREN =? CHILDREN)%string with true. cbv iota. rewrite Gb. apply H4.
Qed.

(** ** get_params *)
Theorem each_params p (e : aenc) s kids : stage_at p e s kids -> forall w st ep dp, c_params is_none e w st = Ok (ep, dp) ->
  exists s0 a b, holds_values st p STATE s0 /\ a_params s (w p) s0 = Ok (a, b) /\ holds_leaves ep p PARAMS a /\ holds_leaves dp p PARAMS b.
Proof.
  induction 1 as [s kids|k e s0 kids0 p s kids G A IH]; intros w st ep dp; cbn [c_params];
    (destruct (dict_item STATE st) as [sd|] eqn:I1; cbn [bind]; [|discriminate]); (destruct (convert is_none sd) as [s1|] eqn:C1; cbn [bind]; [|discriminate]).
  - destruct (a_params s (w []) s1) as [[a b]|] eqn:U; cbn [bind]; [|discriminate]. destruct (kmapM _ _) as [cs|] eqn:K; cbn [bind]; [|discriminate]. intros [= <- <-].
    exists s1, a, b. split. { eapply values_here; eauto. } split; auto. split; intros k0; cbn [node map List.concat app at_path dget]; change (PARAMS =? PARAMS)%string with true; cbv iota; apply leaves_at.
  - destruct (a_params s0 (w []) s1) as [[a b]|] eqn:U; cbn [bind]; [|discriminate]. destruct (kmapM _ _) as [cs|] eqn:K; cbn [bind]; [|discriminate]. intros [= <- <-].
    pose proof (kmapM_get _ _ _ K k) as X. rewrite G in X. destruct X as ([ek dk] & X & Gb).
    destruct (child k st) as [sk|] eqn:E1; cbn [bind] in X; [|discriminate].
    destruct (IH _ _ _ _ X) as (a0 & a1 & b1 & H1 & H2 & H3 & H4). exists a0, a1, b1.
    split. { eapply values_below; eauto. } split; auto.
    split; intros k0; rewrite node_cons; cbn [app at_path dget]; change (CHILDREN =? PARAMS)%string with false; change (CHILDREN =? CHILDREN)%string with true; cbv iota;
      rewrite dget_kmap, Gb; cbn [option_map fst snd]; [apply H3|apply H4].
Qed.

(** ** encode *)
Lemma choose {A B} (b0 : B) (d : dict A) : forall (P : string -> A -> B -> Prop), (forall k a, dget k d = Some a -> exists b, P k a b) -> exists F, forall k a, dget k d = Some a -> P k a (F k).
Proof.
  induction d as [|[k a] d IH]; intros P H. { exists (fun _ => b0). discriminate. }
  destruct (H k a) as (b & Hb). { cbn. now rewrite String.eqb_refl. }
  destruct (IH (fun k' a' b' => k' = k \/ P k' a' b')) as (F & HF).
  { intros k' a' G. destruct (String.eqb_spec k' k) as [->|N]. exists b0. now left.
    destruct (H k' a') as (b' & Hb'). { cbn. destruct (String.eqb_spec k' k); [contradiction|exact G]. } exists b'. now right. }
  exists (fun k' => if (k' =? k)%string then b else F k'). intros k' a' G. cbn in G. destruct (String.eqb_spec k' k) as [->|N].
  - injection G as <-. exact Hb. - destruct (HF k' a' G) as [->|X]; [contradiction|exact X].
Qed.
Theorem each_encode (e : aenc) : every_stage (fun _ => True) e -> forall w x p enc upd sh, c_encode is_none none shape_of e w x p = Ok (enc, upd, sh) ->
  exists input : list string -> V, input [] = x /\
  forall q s kids, stage_at q e s kids -> exists p0 en up, holds_values p q PARAMS p0 /\ a_encode s (w q) (input q) p0 = Ok (en, up) /\
    holds_tensors upd q TENSORS up /\
    at_path (node q ++ [SHAPE]) sh = APy (if a_needs_shape s then shape_of (input q) else none) /\
    (forall k c, dget k kids = Some c -> dget k en = Some (input (q ++ [k]))) /\
    (forall k, dget k kids = None -> at_path (q ++ [k]) enc = match dget k en with Some y => ATf y | None => Nothing end).
Proof.
  induction 1 as [s kids _ ND EK IH]. intros w x p enc upd sh. cbn [c_encode].
  destruct (dict_item PARAMS p) as [pd|] eqn:I1; cbn [bind]; [|discriminate]. destruct (convert is_none pd) as [p1|] eqn:C1; cbn [bind]; [|discriminate].
  destruct (a_encode s (w []) x p1) as [[en up]|] eqn:U; cbn [bind]; [|discriminate]. destruct (kmapM _ _) as [cs|] eqn:K; cbn [bind]; [|discriminate]. intros [= <- <- <-].
  pose proof (kmapM_get _ _ _ K) as X.
  assert (NDc : NoDup (dkeys cs)) by (rewrite (kmapM_keys _ _ _ K); exact ND).
  assert (Y : forall k c, dget k kids = Some c -> exists inp : list string -> V,
    exists y pk r, dget k en = Some y /\ child k p = Ok pk /\ dget k cs = Some r /\ inp [] = y /\
      forall q s' kids', stage_at q c s' kids' -> exists p0 en' up', holds_values pk q PARAMS p0 /\ a_encode s' (w (k :: q)) (inp q) p0 = Ok (en', up') /\
        holds_tensors (snd (fst r)) q TENSORS up' /\
        at_path (node q ++ [SHAPE]) (snd r) = APy (if a_needs_shape s' then shape_of (inp q) else none) /\
        (forall k c, dget k kids' = Some c -> dget k en' = Some (inp (q ++ [k]))) /\
        (forall k, dget k kids' = None -> at_path (q ++ [k]) (fst (fst r)) = match dget k en' with Some y => ATf y | None => Nothing end)).
  { intros k c G. pose proof (X k) as Xk. rewrite G in Xk. destruct Xk as ([[e1 u1] s1] & Xk & Gb).
    unfold dindex in Xk. destruct (dget k en) as [y|] eqn:Ey; cbn [bind] in Xk; [|discriminate]. destruct (child k p) as [pk|] eqn:Ek; cbn [bind] in Xk; [|discriminate].
    destruct (IH k c (get_in_inv _ _ _ G) _ _ _ _ _ _ Xk) as (inp & I0 & H). exists inp, y, pk, (e1, u1, s1). repeat split; auto. }
  destruct (choose (fun _ : list string => x) kids _ Y) as (F & HF). clear Y.
  exists (fun q => match q with [] => x | k :: r => F k r end). split; [reflexivity|].
  intros q s' kids' A. inversion A as [s2 k2 Q1 Q2|k c s2 kids2 q' s3 kids3 G A' Q1 Q2]; subst.
  - exists p1, en, up. split. { eapply values_here; eauto. } split; auto. split.
    { intros k0. cbn [node map List.concat app at_path dget]. change (TENSORS =? TENSORS)%string with true. cbv iota. apply tensor_dict_at. }
    split. { cbn [node map List.concat app at_path dget]. change (SHAPE =? SHAPE)%string with true. cbv iota. destruct (a_needs_shape s'); reflexivity. }
    split. { intros k c G. destruct (HF k c G) as (y & pk & r & E1 & _ & _ & E2 & _). cbn [app]. now rewrite E1, E2. }
    intros k G. cbn [app at_path]. rewrite (fold_dset (fun r : dval * dval * dval => fst (fst r)) cs NDc). pose proof (X k) as Xk. rewrite G in Xk. rewrite Xk, dget_kmap.
    destruct (dget k en); reflexivity.
  - destruct (HF k c G) as (y & pk & r & E1 & E2 & E3 & E4 & H). destruct (H q' s' kids' A') as (p0 & en' & up' & H1 & H2 & H3 & H4 & H5 & H6).
    exists p0, en', up'. split. { eapply values_below; eauto. } split; auto. split.
    { intros k0. rewrite node_cons. cbn [app at_path dget]. change (CHILDREN =? TENSORS)%string with false. change (CHILDREN =? CHILDREN)%string with true. cbv iota. rewrite dget_kmap, E3. cbn [option_map]. apply H3. }
    split. { rewrite node_cons. cbn [app at_path dget]. change (CHILDREN =? SHAPE)%string with false. change (CHILDREN =? CHILDREN)%string with true. cbv iota. rewrite dget_kmap, E3. cbn [option_map]. exact H4. }
    split. { intros k0 c0 G0. cbn [app]. eauto. }
    intros k0 G0. cbn [app at_path]. rewrite (fold_dset (fun r : dval * dval * dval => fst (fst r)) cs NDc), E3. eauto.
Qed.

(** ** decode *)
Lemma shape_here (v w : dval) o : dict_item SHAPE v = Ok w -> convert_shape is_none w = Ok o -> holds_shape is_none v [] o.
Proof.
  intros I0 C. unfold holds_shape. cbn [node map List.concat app]. rewrite (item_at _ _ _ I0). destruct w as [x|x|]; cbn in *; try discriminate.
  - injection C as <-. reflexivity. - injection C as <-. reflexivity.
Qed.
Lemma shape_below k (v w : dval) p o : child k v = Ok w -> holds_shape is_none w p o -> holds_shape is_none v (k :: p) o.
Proof. intros C H. unfold holds_shape in *. rewrite node_cons. cbn [app]. now rewrite (child_at _ _ _ C). Qed.
Theorem each_decode (e : aenc) : every_stage (fun _ => True) e -> forall v p sh y, complete e v -> c_before is_none true e v p sh = Ok (DTf y) ->
  exists output : list string -> V, output [] = y /\
  forall q s kids, stage_at q e s kids -> exists p0 o d, holds_values p q PARAMS p0 /\ holds_shape is_none sh q o /\
    a_decode s d p0 None o = Ok (output q) /\
    (forall k c, dget k kids = Some c -> dget k d = Some (output (q ++ [k]))) /\
    (forall k, dget k kids = None -> match dget k d with Some x => at_path (q ++ [k]) v = ATf x \/ at_path (q ++ [k]) v = APy x | None => at_path (q ++ [k]) v = Nothing end).
Proof.
  induction 1 as [s kids _ ND EK IH]. intros v p sh y Cv. rewrite before_unfold. cbn [orb]. destruct v as [x|x|vd]; try discriminate.
  destruct (kmapM _ vd) as [d'|] eqn:K; cbn [bind]; [|discriminate]. unfold stage_decode.
  destruct (dict_item PARAMS p) as [pd|] eqn:I1; cbn [bind]; [|discriminate]. destruct (dict_item SHAPE sh) as [sd|] eqn:I2; cbn [bind]; [|discriminate].
  destruct (convert is_none (DDict d')) as [d1|] eqn:C0; cbn [bind]; [|discriminate]. destruct (convert is_none pd) as [p1|] eqn:C1; cbn [bind]; [|discriminate].
  destruct (convert_shape is_none sd) as [s1|] eqn:C2; cbn [bind]; [|discriminate]. destruct (a_decode s d1 p1 None s1) as [y'|] eqn:D; cbn [bind]; [|discriminate]. intros [= ->].
  pose proof (kmapM_get _ _ _ K) as X. pose proof (convert_at _ _ C0) as Z0. cbn [at_path] in Z0.
  assert (Y : forall k c, dget k kids = Some c -> exists out : list string -> V,
    exists vk pk shk, dget k vd = Some vk /\ child k p = Ok pk /\ child k sh = Ok shk /\ dget k d1 = Some (out []) /\
      forall q s' kids', stage_at q c s' kids' -> exists p0 o d, holds_values pk q PARAMS p0 /\ holds_shape is_none shk q o /\ a_decode s' d p0 None o = Ok (out q) /\
        (forall k c, dget k kids' = Some c -> dget k d = Some (out (q ++ [k]))) /\
        (forall k, dget k kids' = None -> match dget k d with Some x => at_path (q ++ [k]) vk = ATf x \/ at_path (q ++ [k]) vk = APy x | None => at_path (q ++ [k]) vk = Nothing end)).
  { intros k c G. pose proof (X k) as Xk. pose proof (Cv [] s kids k c (at_root s kids) G) as Ck. cbn [app at_path] in Ck.
    destruct (dget k vd) as [vk|] eqn:Ev; [|now exfalso]. destruct Xk as (r & Xk & Gr). rewrite G in Xk.
    destruct (child k p) as [pk|] eqn:E1; cbn [bind] in Xk; [|discriminate]. destruct (child k sh) as [shk|] eqn:E2; cbn [bind] in Xk; [|discriminate].
    assert (T : exists yk, r = DTf yk).
    { destruct c as [sc kc]. rewrite before_unfold in Xk. cbn [orb] in Xk. destruct vk as [?|?|vkd]; try discriminate. destruct (kmapM _ vkd); cbn [bind] in Xk; [|discriminate].
      unfold stage_decode in Xk. repeat (match type of Xk with bind ?a _ = _ => destruct a; cbn [bind] in Xk; [|discriminate] end). injection Xk as <-. eauto. }
    destruct T as (yk & ->). assert (Cc : complete c vk).
    { intros q s2 k2 k3 c3 A3 G3. pose proof (Cv (k :: q) s2 k2 k3 c3 (at_child _ _ _ _ _ _ _ G A3) G3) as R. cbn [app at_path] in R. now rewrite Ev in R. }
    destruct (IH k c (get_in_inv _ _ _ G) _ _ _ _ Cc Xk) as (out & O1 & H). exists out, vk, pk, shk. repeat split; auto.
    pose proof (Z0 k) as Zk. rewrite Gr in Zk. destruct (dget k d1) as [x|]; [|discriminate]. destruct Zk as [[= <-]|[=]]. congruence. }
  destruct (choose (fun _ : list string => y) kids _ Y) as (F & HF). clear Y.
  exists (fun q => match q with [] => y | k :: r => F k r end). split; [reflexivity|].
  intros q s' kids' A. inversion A as [s2 k2 Q1 Q2|k c s2 kids2 q' s3 kids3 G A' Q1 Q2]; subst.
  - exists p1, s1, d1. split. { eapply values_here; eauto. } split. { eapply shape_here; eauto. } split; auto.
    split. { intros k c G. destruct (HF k c G) as (vk & pk & shk & E1 & _ & _ & E2 & _). cbn [app]. exact E2. }
    intros k G. cbn [app at_path]. pose proof (X k) as Xk. pose proof (Z0 k) as Zk. destruct (dget k vd) as [vk|].
    + destruct Xk as (r & Xk & Gr). rewrite G in Xk. injection Xk as <-. rewrite Gr in Zk. exact Zk.
    + rewrite Xk in Zk. destruct (dget k d1); [destruct Zk; discriminate|reflexivity].
  - destruct (HF k c G) as (vk & pk & shk & E1 & E2 & E3 & E4 & H). destruct (H q' s' kids' A') as (p0 & o & d & H1 & H2 & H3 & H4 & H5).
    exists p0, o, d. split. { eapply values_below; eauto. } split. { eapply shape_below; eauto. } split; auto.
    split. { intros k0 c0 G0. cbn [app]. eauto. }
    intros k0 G0. cbn [app at_path]. rewrite E1. now apply H5.
Qed.
(** What encode makes is complete. *)
Theorem encode_complete (e : aenc) : every_stage (fun _ => True) e -> forall w x p enc upd sh, c_encode is_none none shape_of e w x p = Ok (enc, upd, sh) -> complete e enc.
Proof.
  induction 1 as [s kids _ ND EK IH]. intros w x p enc upd sh. cbn [c_encode].
  destruct (dict_item PARAMS p) as [pd|] eqn:I1; cbn [bind]; [|discriminate]. destruct (convert is_none pd) as [p1|] eqn:C1; cbn [bind]; [|discriminate].
  destruct (a_encode s (w []) x p1) as [[en up]|] eqn:U; cbn [bind]; [|discriminate]. destruct (kmapM _ _) as [cs|] eqn:K; cbn [bind]; [|discriminate]. intros [= <- <- <-].
  assert (NDc : NoDup (dkeys cs)) by (rewrite (kmapM_keys _ _ _ K); exact ND).
  assert (Y : forall k c, dget k kids = Some c -> exists r, dget k cs = Some r /\ complete c (fst (fst r))).
  { intros k c G. pose proof (kmapM_get _ _ _ K k) as Xk. rewrite G in Xk. destruct Xk as ([[e1 u1] s1] & Xk & Gb). exists (e1, u1, s1). split; auto.
    destruct (dindex k en); cbn [bind] in Xk; [|discriminate]. destruct (child k p); cbn [bind] in Xk; [|discriminate]. eapply (IH k c); eauto. eapply get_in_inv; eauto. }
  intros q s2 k2 k3 c3 A G3. inversion A as [s4 k4 Q1 Q2|k c s4 kids4 q' s5 kids5 G A' Q1 Q2]; subst; cbn [app at_path];
    rewrite (fold_dset (fun r : dval * dval * dval => fst (fst r)) cs NDc).
  - destruct (Y _ _ G3) as (r & -> & _). apply at_nil.
  - destruct (Y _ _ G) as (r & -> & Cr). eapply Cr; eauto.
Qed.
(** ** decode_before_sum *)
Theorem each_deferred q (e : aenc) s kids : deferred q e s kids -> forall v p sh r, c_before is_none false e v p sh = Ok r ->
  (forall k rest, dget k kids = None -> at_path (q ++ k :: rest) r = at_path (q ++ k :: rest) v) /\
  (forall k c, dget k kids = Some c -> a_commutes (top c) = false -> at_path (q ++ [k]) v <> Nothing -> exists y, at_path (q ++ [k]) r = ATf y).
Proof.
  induction 1 as [s kids C|k e s0 kids0 q s kids C G A IH]; intros v p sh r; rewrite before_unfold, C; cbn [orb negb]; destruct v as [x|x|d]; try discriminate;
    (destruct (kmapM _ d) as [d'|] eqn:K; cbn [bind]; [|discriminate]); intros [= <-]; pose proof (kmapM_get _ _ _ K) as X; cbn [app at_path].
  - split.
    + intros k rest G. specialize (X k). cbv beta in X. rewrite G in X. destruct (dget k d) as [w|]; [|now rewrite X]. destruct X as (b & [= <-] & ->). reflexivity.
    + intros k c G N Nv. specialize (X k). cbv beta in X. rewrite G in X. destruct (dget k d) as [w|]; [|now exfalso]. destruct X as (b & X & ->).
      destruct (child k p) as [pk|]; cbn [bind] in X; [|discriminate]. destruct (child k sh) as [shk|]; cbn [bind] in X; [|discriminate].
      destruct c as [sc kc]. cbn [top] in N. rewrite before_unfold, N in X. cbn [orb negb] in X. destruct w as [?|?|wd]; try discriminate. destruct (kmapM _ wd); cbn [bind] in X; [|discriminate].
      unfold stage_decode in X. repeat (match type of X with bind ?a _ = _ => destruct a; cbn [bind] in X; [|discriminate] end). injection X as <-. cbn. eauto.
  - specialize (X k). cbv beta in X. rewrite G in X. destruct (dget k d) as [w|]; [|rewrite X; split; [reflexivity|intros ? ? ? ? N; now exfalso]]. destruct X as (b & X & ->).
    destruct (child k p) as [pk|]; cbn [bind] in X; [|discriminate]. destruct (child k sh) as [shk|]; cbn [bind] in X; [|discriminate]. exact (IH _ _ _ _ X).
Qed.
(** ** decode_after_sum *)
Theorem each_after (e : aenc) : every_stage (fun _ => True) e -> a_commutes (top e) = true -> forall v p n sh y, complete_part e v -> c_after is_none e v p n sh = Ok (DTf y) ->
  exists output : list string -> V, output [] = y /\
  forall q s kids, deferred q e s kids -> exists p0 o d, holds_values p q PARAMS p0 /\ holds_shape is_none sh q o /\
    a_decode s d p0 (Some n) o = Ok (output q) /\
    (forall k c, dget k kids = Some c -> a_commutes (top c) = true -> dget k d = Some (output (q ++ [k]))) /\
    (forall k, (forall c, dget k kids = Some c -> a_commutes (top c) = false) ->
       match dget k d with Some x => at_path (q ++ [k]) v = ATf x \/ at_path (q ++ [k]) v = APy x | None => at_path (q ++ [k]) v = Nothing end).
Proof.
  induction 1 as [s kids _ ND EK IH]. cbn [top]. intros Cs v p n sh y Cv. rewrite after_unfold, Cs. cbn [negb]. destruct v as [x|x|vd]; try discriminate.
  destruct (kmapM _ vd) as [d'|] eqn:K; cbn [bind]; [|discriminate]. unfold stage_decode.
  destruct (dict_item PARAMS p) as [pd|] eqn:I1; cbn [bind]; [|discriminate]. destruct (dict_item SHAPE sh) as [sd|] eqn:I2; cbn [bind]; [|discriminate].
  destruct (convert is_none (DDict d')) as [d1|] eqn:C0; cbn [bind]; [|discriminate]. destruct (convert is_none pd) as [p1|] eqn:C1; cbn [bind]; [|discriminate].
  destruct (convert_shape is_none sd) as [s1|] eqn:C2; cbn [bind]; [|discriminate]. destruct (a_decode s d1 p1 (Some n) s1) as [y'|] eqn:D; cbn [bind]; [|discriminate]. intros [= ->].
  pose proof (kmapM_get _ _ _ K) as X. pose proof (convert_at _ _ C0) as Z0. cbn [at_path] in Z0.
  assert (Y : forall k c, dget k kids = Some c -> exists out : list string -> V, a_commutes (top c) = true ->
    exists vk pk shk, dget k vd = Some vk /\ child k p = Ok pk /\ child k sh = Ok shk /\ dget k d1 = Some (out []) /\
      forall q s' kids', deferred q c s' kids' -> exists p0 o d, holds_values pk q PARAMS p0 /\ holds_shape is_none shk q o /\ a_decode s' d p0 (Some n) o = Ok (out q) /\
        (forall k c, dget k kids' = Some c -> a_commutes (top c) = true -> dget k d = Some (out (q ++ [k]))) /\
        (forall k, (forall c, dget k kids' = Some c -> a_commutes (top c) = false) ->
           match dget k d with Some x => at_path (q ++ [k]) vk = ATf x \/ at_path (q ++ [k]) vk = APy x | None => at_path (q ++ [k]) vk = Nothing end)).
  { intros k c G. destruct (a_commutes (top c)) eqn:Cc0; [|exists (fun _ => y); discriminate]. pose proof (X k) as Xk. pose proof (Cv [] s kids k c (def_root s kids Cs) G) as Ck. cbn [app at_path] in Ck.
    destruct (dget k vd) as [vk|] eqn:Ev; [|now exfalso]. destruct Xk as (r & Xk & Gr). rewrite G in Xk.
    destruct (child k p) as [pk|] eqn:E1; cbn [bind] in Xk; [|discriminate]. destruct (child k sh) as [shk|] eqn:E2; cbn [bind] in Xk; [|discriminate].
    assert (T : exists yk, r = DTf yk).
    { destruct c as [sc kc]. cbn [top] in Cc0. rewrite after_unfold, Cc0 in Xk. cbn [negb] in Xk. destruct vk as [?|?|vkd]; try discriminate. destruct (kmapM _ vkd); cbn [bind] in Xk; [|discriminate].
      unfold stage_decode in Xk. repeat (match type of Xk with bind ?a _ = _ => destruct a; cbn [bind] in Xk; [|discriminate] end). injection Xk as <-. eauto. }
    destruct T as (yk & ->). assert (Cc : complete_part c vk).
    { intros q s2 k2 k3 c3 A3 G3. pose proof (Cv (k :: q) s2 k2 k3 c3 (def_child _ _ _ _ _ _ _ Cs G A3) G3) as R. cbn [app at_path] in R. now rewrite Ev in R. }
    destruct (IH k c (get_in_inv _ _ _ G) Cc0 _ _ _ _ _ Cc Xk) as (out & O1 & H). exists out. intros _. exists vk, pk, shk. repeat split; auto.
    pose proof (Z0 k) as Zk. rewrite Gr in Zk. destruct (dget k d1) as [x|]; [|discriminate]. destruct Zk as [[= <-]|[=]]. congruence. }
  destruct (choose (fun _ : list string => y) kids _ Y) as (F & HF). clear Y.
  exists (fun q => match q with [] => y | k :: r => F k r end). split; [reflexivity|].
  intros q s' kids' A. inversion A as [s2 k2 Q0 Q1 Q2|k c s2 kids2 q' s3 kids3 Q0 G A' Q1 Q2]; subst.
  - exists p1, s1, d1. split. { eapply values_here; eauto. } split. { eapply shape_here; eauto. } split; auto.
    split. { intros k c G Cc. destruct (HF k c G Cc) as (vk & pk & shk & E1 & _ & _ & E2 & _). cbn [app]. exact E2. }
    intros k G. cbn [app at_path]. pose proof (X k) as Xk. pose proof (Z0 k) as Zk. destruct (dget k vd) as [vk|].
    + destruct Xk as (r & Xk & Gr). destruct (dget k kids') as [[sc kc]|] eqn:Gk.
      * specialize (G _ eq_refl). cbn [top] in G. destruct (child k p) as [pk|]; cbn [bind] in Xk; [|discriminate]. destruct (child k sh) as [shk|]; cbn [bind] in Xk; [|discriminate].
        rewrite after_unfold, G in Xk. cbn [negb] in Xk. destruct vk as [?|xk|?]; try discriminate. injection Xk as <-. rewrite Gr in Zk. exact Zk.
      * injection Xk as <-. rewrite Gr in Zk. exact Zk.
    + rewrite Xk in Zk. destruct (dget k d1); [destruct Zk; discriminate|reflexivity].
  - assert (Cc : a_commutes (top c) = true) by (inversion A'; subst; auto).
    destruct (HF k c G Cc) as (vk & pk & shk & E1 & E2 & E3 & E4 & H). destruct (H q' s' kids' A') as (p0 & o & d & H1 & H2 & H3 & H4 & H5).
    exists p0, o, d. split. { eapply values_below; eauto. } split. { eapply shape_below; eauto. } split; auto.
    split. { intros k0 c0 G0 C0'. cbn [app]. eauto. }
    intros k0 G0. cbn [app at_path]. rewrite E1. now apply H5.
Qed.
(** A tree whose first stage does not commute is left alone: its value is decoded already. *)
Lemma after_done (e : aenc) v p n sh r : a_commutes (top e) = false -> c_after is_none e v p n sh = Ok r -> r = v.
Proof. destruct e as [s kids]. cbn [top]. intros C. rewrite after_unfold, C. cbn [negb]. destruct v; congruence. Qed.
Lemma deferred_stage q (e : aenc) s kids : deferred q e s kids -> stage_at q e s kids.
Proof. induction 1; econstructor; eauto. Qed.
Theorem part_complete q (e : aenc) s kids : deferred q e s kids -> forall v p sh r, c_before is_none false e v p sh = Ok r -> complete e v ->
  forall k c, dget k kids = Some c -> at_path (q ++ [k]) r <> Nothing.
Proof.
  induction 1 as [s kids C|k e s0 kids0 q s kids C G A IH]; intros v p sh r; rewrite before_unfold, C; cbn [orb negb]; destruct v as [x|x|d]; try discriminate;
    (destruct (kmapM _ d) as [d'|] eqn:K; cbn [bind]; [|discriminate]); intros [= <-] Cv; pose proof (kmapM_get _ _ _ K) as X; cbn [app at_path]; intros k' c' G'.
  - specialize (X k'). cbv beta in X. pose proof (Cv [] s kids k' c' (at_root s kids) G') as N. cbn [app at_path] in N. destruct (dget k' d) as [w|]; [|now exfalso]. destruct X as (b & _ & ->). apply at_nil.
  - specialize (X k). cbv beta in X. rewrite G in X. assert (Cw : forall w, dget k d = Some w -> complete e w).
    { intros w Ew q2 s2 k2 k3 c3 A3 G3. pose proof (Cv (k :: q2) s2 k2 k3 c3 (at_child _ _ _ _ _ _ _ G A3) G3) as R. cbn [app at_path] in R. now rewrite Ew in R. }
    pose proof (Cv [] s0 kids0 k e (at_root s0 kids0) G) as N. cbn [app at_path] in N.
    destruct (dget k d) as [w|]; [|now exfalso]. destruct X as (b & X & ->).
    destruct (child k p) as [pk|]; cbn [bind] in X; [|discriminate]. destruct (child k sh) as [shk|]; cbn [bind] in X; [|discriminate]. eapply IH; eauto.
Qed.
End Stages.
