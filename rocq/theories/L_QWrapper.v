(** Lemmas about the quantization wrapper. *)
From Coq Require Import String Permutation.
From Verif Require Import Base M_Num L_Num M_Tensor L_Tensor M_Quant S_Quant L_Quantizers4 M_QWrapper S_QWrapper.
Open Scope nat_scope.

(** * Activations *)
Lemma declared_sets name : declared name =
  if (in_set name PRE_QUANT || in_set name POST_QUANT || in_set name NO_QUANT)%bool then Some (in_set name PRE_QUANT, in_set name POST_QUANT) else None.
Proof.
  unfold declared, in_set.
  repeat match goal with |- context [string_dec name ?s] => destruct (string_dec name s) as [->|?]; [reflexivity|] end.
  destruct (in_dec string_dec name PRE_QUANT) as [H|H]; [exfalso; cbn in H; intuition congruence|].
  destruct (in_dec string_dec name POST_QUANT) as [H2|H2]; [exfalso; cbn in H2; intuition congruence|].
  destruct (in_dec string_dec name NO_QUANT) as [H3|H3]; [exfalso; cbn in H3; intuition congruence|]. reflexivity.
Qed.
Theorem activation_rejected name f q : declared name = None -> QuantizeAwareActivation name f q = Err ValueError.
Proof. intros D. rewrite declared_sets in D. unfold QuantizeAwareActivation. destruct (_ || _)%bool; [discriminate|reflexivity]. Qed.
Lemma act_run_declared name f q calls : forall r1 r2 s1 s2, (in_set name PRE_QUANT = true -> r1 = s1) -> (in_set name POST_QUANT = true -> r2 = s2) ->
  match act_run (mkAct name f q r1 r2) calls with
  | Ok (ys, _) => declared_run (in_set name PRE_QUANT) (in_set name POST_QUANT) f q s1 s2 calls = Ok ys
  | Err e => declared_run (in_set name PRE_QUANT) (in_set name POST_QUANT) f q s1 s2 calls = Err e end.
Proof.
  induction calls as [|[tr x] l IH]; intros r1 r2 s1 s2 H1 H2; cbn [act_run declared_run]; [reflexivity|]. unfold act_call. cbn [a_name a_quantizer a_pre a_post a_fun].
  destruct (in_set name PRE_QUANT) eqn:E1; unfold point at 1; [rewrite <- H1 by reflexivity|]; destruct (in_set name POST_QUANT) eqn:E2; unfold point; try (rewrite <- H2 by reflexivity); cbn [bind].
  - destruct (call q tr r1 x) as [[x1 p1]|]; cbn [bind]; [|reflexivity]. destruct (call q tr r2 (f x1)) as [[x2 p2]|]; cbn [bind]; [|reflexivity].
    specialize (IH p1 p2 p1 p2 ltac:(auto) ltac:(auto)). destruct (act_run _ l) as [[ys a]|]; cbn [bind]; rewrite IH; reflexivity.
  - destruct (call q tr r1 x) as [[x1 p1]|]; cbn [bind]; [|reflexivity].
    specialize (IH p1 r2 p1 s2 ltac:(auto) ltac:(discriminate)). destruct (act_run _ l) as [[ys a]|]; cbn [bind]; rewrite IH; reflexivity.
  - destruct (call q tr r2 (f x)) as [[x2 p2]|]; cbn [bind]; [|reflexivity].
    specialize (IH r1 p2 s1 p2 ltac:(discriminate) ltac:(auto)). destruct (act_run _ l) as [[ys a]|]; cbn [bind]; rewrite IH; reflexivity.
  - specialize (IH r1 r2 s1 s2 ltac:(discriminate) ltac:(discriminate)). destruct (act_run _ l) as [[ys a]|]; cbn [bind]; rewrite IH; reflexivity.
Qed.
Theorem activation_history name f q pre post r : declared name = Some (pre, post) -> build q None = Ok r ->
  exists a, QuantizeAwareActivation name f q = Ok a /\
  forall calls, match act_run a calls with Ok (ys, _) => declared_run pre post f q r r calls = Ok ys | Err e => declared_run pre post f q r r calls = Err e end.
Proof.
  intros D B. rewrite declared_sets in D. unfold QuantizeAwareActivation. destruct (_ || _)%bool; [|discriminate]. injection D as <- <-. cbn [negb].
  rewrite B. destruct (in_set name PRE_QUANT) eqn:E1, (in_set name POST_QUANT) eqn:E2; cbn [bind]; (eexists; split; [reflexivity|]); intros calls;
  match goal with |- context [mkAct _ _ _ ?u ?v] => pose proof (act_run_declared name f q calls u v r r) as G end; rewrite E1, E2 in G; apply G; intros; congruence.
Qed.
Theorem activation_layer_output b n qs : activation_layer_output_quantizers b n = Ok qs ->
  qs = (if (b && match n with Some m => in_set m ["relu"; "swish"; "gelu"; "relu6"]%string | None => false end)%bool then [MovingAverageQuantizer 8 false false false] else []).
Proof.
  unfold activation_layer_output_quantizers. destruct b; cbn [negb andb]; [|intros [= <-]; reflexivity]. destruct n as [m|]; [|discriminate].
  destruct (in_set m _); [intros [= <-]; reflexivity|]. destruct (in_set m _); [intros [= <-]; reflexivity|discriminate].
Qed.

(** * Attributes *)
Lemma alookup_update {A} k k' (v : A) l : alookup k (update k' v l) = if Nat.eqb k k' then (match alookup k l with Some _ => Some v | None => None end) else alookup k l.
Proof.
  induction l as [|[j u] l IH]; cbn; [destruct (k =? k'); reflexivity|]. destruct (Nat.eqb_spec k' j) as [->|N]; cbn.
  - destruct (Nat.eqb_spec k j); reflexivity.
  - rewrite IH. destruct (Nat.eqb_spec k j) as [->|N2]; [|reflexivity]. destruct (Nat.eqb_spec j k'); [congruence|reflexivity].
Qed.
Lemma update_keys {A} k (v : A) l : map fst (update k v l) = map fst l.
Proof. induction l as [|[j u] l IH]; cbn; [reflexivity|]. destruct (Nat.eqb_spec k j) as [->|]; cbn; [reflexivity|]. now rewrite IH. Qed.
Definition avars (l : layer) (attrs : list nat) : list nat :=
  flat_map (fun a => match alookup a (l_attrs l) with Some (AVar v) => [v] | _ => [] end) attrs.
Lemma flat_map_ext_in {A B} (f g : A -> list B) l : (forall a, In a l -> f a = g a) -> flat_map f l = flat_map g l.
Proof. induction l as [|a l IH]; intros H; cbn; [reflexivity|]. rewrite H by now left. rewrite IH; [reflexivity|]. intros; apply H; now right. Qed.
Definition drop (vs l : list nat) : list nat := filter (fun u => if in_dec Nat.eq_dec u vs then false else true) l.
Lemma drop_drop v vs l : drop vs (filter (fun u => negb (u =? v)) l) = drop (v :: vs) l.
Proof.
  unfold drop. induction l as [|a l IH]; [reflexivity|]. cbn [filter]. destruct (Nat.eqb_spec a v) as [->|N]; cbn [negb filter].
  - rewrite IH. destruct (in_dec Nat.eq_dec v (v :: vs)) as [|C]; [reflexivity|exfalso; apply C; now left].
  - rewrite IH. destruct (in_dec Nat.eq_dec a vs) as [I|I]; destruct (in_dec Nat.eq_dec a (v :: vs)) as [J|J]; try reflexivity.
    + exfalso. apply J. now right. + destruct J as [J|J]; [congruence|contradiction].
Qed.
Lemma set_weights_spec st attrs : forall l ws l', NoDup attrs -> List.length attrs = List.length ws -> set_weights st l attrs ws = Ok l' ->
  (forall i a w, nth_error attrs i = Some a -> nth_error ws i = Some w -> getattr l' a = Ok (ATensor w)) /\
  (forall a, ~ In a attrs -> getattr l' a = getattr l a) /\ l_fwd l' = l_fwd l /\ l_act l' = l_act l /\ l_trainable l' = l_trainable l /\
  map fst (l_attrs l') = map fst (l_attrs l) /\ l_tracked l' = drop (avars l attrs) (l_tracked l).
Proof.
  induction attrs as [|a attrs IH]; intros l [|w ws] l' Nd Len; try discriminate; cbn [set_weights].
  - intros [= <-]. repeat split; auto. + intros [|i]; discriminate. + unfold drop. cbn. clear. induction (l_tracked l); cbn; congruence.
  - unfold getattr at 1. destruct (alookup a (l_attrs l)) as [cur|] eqn:Ea; cbn [bind]; [|discriminate]. destruct (negb _); [discriminate|]. intros E.
    inversion Nd as [|? ? Na Nd']; subst. destruct (IH (setattr_tensor l a w) ws l' Nd' ltac:(now injection Len) E) as (A & B & C & D & F & G & H).
    assert (forall b, b <> a -> getattr (setattr_tensor l a w) b = getattr l b) as Ob.
    { intros b N. unfold getattr, setattr_tensor. cbn [l_attrs]. rewrite alookup_update. destruct (Nat.eqb_spec b a); [congruence|reflexivity]. }
    split; [|split; [|split; [|split; [|split; [|split]]]]]; auto.
    + intros [|i] b u; cbn [nth_error]; [|apply A]. intros [= <-] [= <-]. rewrite B by auto. unfold getattr, setattr_tensor. cbn [l_attrs]. rewrite alookup_update, Nat.eqb_refl, Ea. reflexivity.
    + intros b Nb. rewrite B by (intros I; apply Nb; now right). apply Ob. intros ->. apply Nb. now left.
    + rewrite G. cbn. apply update_keys.
    + rewrite H. assert (avars (setattr_tensor l a w) attrs = avars l attrs) as ->.
      { unfold avars. assert (forall b, In b attrs -> alookup b (l_attrs (setattr_tensor l a w)) = alookup b (l_attrs l)) as X.
        { intros b Ib. cbn. rewrite alookup_update. destruct (Nat.eqb_spec b a); [subst; contradiction|reflexivity]. }
        apply flat_map_ext_in. intros b Ib. now rewrite X. }
      cbn [avars flat_map setattr_tensor l_tracked]. rewrite Ea. destruct cur as [v|t]; cbn [app].
      * apply drop_drop. * reflexivity.
Qed.
Lemma set_weights_ok st attrs : forall l ws, NoDup attrs -> List.length attrs = List.length ws ->
  (forall i a w, nth_error attrs i = Some a -> nth_error ws i = Some w -> exists cur, getattr l a = Ok cur /\ shape (value st cur) = shape w) -> exists l', set_weights st l attrs ws = Ok l'.
Proof.
  induction attrs as [|a attrs IH]; intros l [|w ws] Nd Len H; try discriminate; cbn [set_weights]; [eauto|].
  destruct (H 0 a w eq_refl eq_refl) as (cur & -> & Es). cbn [bind]. unfold shape_eqb. destruct (list_eq_dec _ _ _) as [_|C]; [cbn [negb]|contradiction].
  inversion Nd as [|? ? Na Nd']; subst. apply IH; [auto|now injection Len|]. intros i b u Hb Hu. destruct (H (S i) b u Hb Hu) as (cur' & Ec & Es'). exists cur'. split; [|auto].
  unfold getattr, setattr_tensor in *. cbn [l_attrs]. rewrite alookup_update. destruct (Nat.eqb_spec b a); [subst; apply nth_error_In in Hb; contradiction|exact Ec].
Qed.

(** * Invariant of reachable wrappers *)
Lemma mapM_Forall2 {A B} (f : A -> res B) l r : mapM f l = Ok r -> Forall2 (fun a b => f a = Ok b) l r.
Proof.
  revert r. induction l as [|a l IH]; intros r; cbn; [intros [= <-]; constructor|]. destruct (f a) eqn:E; cbn; [|discriminate]. destruct (mapM f l) eqn:E2; cbn; [|discriminate].
  intros [= <-]. constructor; auto.
Qed.
Lemma Forall2_nth {A B} (R : A -> B -> Prop) l m i a b : Forall2 R l m -> nth_error l i = Some a -> nth_error m i = Some b -> R a b.
Proof. intros F. revert i. induction F; intros [|i]; cbn; try discriminate; [intros [= <-] [= <-]; auto|apply IHF]. Qed.
Lemma Forall2_nth_l {A B} (R : A -> B -> Prop) l m i a : Forall2 R l m -> nth_error l i = Some a -> exists b, nth_error m i = Some b /\ R a b.
Proof. intros F. revert i. induction F; intros [|i]; cbn; try discriminate; [intros [= <-]; eauto|apply IHF]. Qed.
Record inv (cls : wclass) (c : qat_config) (l0 : layer) (vs : list nat) (fwd : bool) (w : wrapper) : Prop := {
  i_class : w_class w = cls; i_cfg : w_cfg w = c;
  i_vars : map fst (w_vars w) = map (fun v => (v, weight_quantizer c)) vs;
  i_own : w_own w = (match cls with V1 => [] | V2 => layer_trainable_weights l0 end ++ vs)%list;
  i_fwd : l_fwd (w_layer w) = l_fwd l0; i_act : l_act (w_layer w) = l_act l0;
  i_keys : map fst (l_attrs (w_layer w)) = map fst (l_attrs l0);
  i_other : forall a, ~ In a (qc_weight_attrs c) -> getattr (w_layer w) a = getattr l0 a;
  i_attr : forall a, In a (qc_weight_attrs c) -> if fwd then exists t, getattr (w_layer w) a = Ok (ATensor t) else getattr (w_layer w) a = getattr l0 a;
  i_tracked : l_tracked (w_layer w) = if fwd then drop vs (l_tracked l0) else l_tracked l0 }.
Lemma build_inv cls c st l vs w : quantized_vars c l vs -> build_wrapper cls c st l = Ok w -> inv cls c l vs false w /\ l_trainable (w_layer w) = l_trainable l.
Proof.
  intros Q. unfold build_wrapper. destruct (mapM _ _) as [vars|] eqn:Ev; cbn [bind]; [|discriminate]. destruct (build_acts c l) as [acts|]; cbn [bind]; [|discriminate].
  set (o := if qc_quantize_output c then _ else _). destruct o as [out|]; cbn [bind]; [|discriminate]. intros [= <-].
  apply mapM_Forall2 in Ev. assert (map fst vars = map (fun v => (v, weight_quantizer c)) vs) as Em.
  { clear - Q Ev. unfold quantized_vars in Q. revert vs Q. induction Ev as [|a [[i q] r] la lv Ha Ev IH]; intros vs Q; inversion Q as [|? v ? vs' Hq Q']; subst; [reflexivity|]. cbn [map fst].
    unfold build_weight in Ha. rewrite Hq in Ha. cbn [bind] in Ha. destruct (build _ _); cbn [bind] in Ha; [|discriminate]. injection Ha as <- <- <-. f_equal. auto. }
  split; [|reflexivity]. constructor; cbn [w_class w_cfg w_layer w_vars w_own]; auto.
  f_equal. transitivity (map fst (map fst vars)); [rewrite map_map; reflexivity|]. rewrite Em, map_map. cbn. apply map_id.
Qed.
Lemma avars_fresh c l vs : quantized_vars c l vs -> avars l (qc_weight_attrs c) = vs.
Proof.
  intros Q. unfold avars. induction Q as [|a v la lv H Q IH]; [reflexivity|]. cbn. unfold getattr in H. destruct (alookup a (l_attrs l)); [|discriminate]. injection H as ->. cbn. now rewrite IH.
Qed.
Lemma quantize_weights_spec st tr vars qs : mapM (quantize_weight st tr) vars = Ok qs -> map fst (map snd qs) = map fst vars /\ List.length qs = List.length vars /\
  forall i v q r, nth_error vars i = Some (v, q, r) -> exists y r', call q tr r (st v) = Ok (y, r') /\ nth_error (map fst qs) i = Some y /\ nth_error (map snd qs) i = Some (v, q, r').
Proof.
  intros E. apply mapM_Forall2 in E. induction E as [|[[v q] r] [y p] la lb H E IH].
  - repeat split; auto. intros [|i]; discriminate.
  - destruct IH as (A & B & C). cbn in H. destruct (call q tr r (st v)) as [[y' r']|] eqn:Ec; cbn [bind] in H; [|discriminate]. injection H as <- <-.
    split; [cbn; congruence|]. split; [cbn; congruence|]. intros [|i] v0 q0 r0; cbn [nth_error map fst snd]; [|apply C]. intros [= <- <- <-]. eauto.
Qed.
Lemma call_inv cls c l0 vs b st w tr x o w' st' : fresh c l0 vs -> inv cls c l0 vs b w -> call_wrapper st w tr x = Ok (o, w', st') ->
  st' = st /\ inv cls c l0 vs true w' /\ l_trainable (w_layer w') = l_trainable (w_layer w) /\
  (forall i a v q r, nth_error (qc_weight_attrs c) i = Some a -> nth_error (w_vars w) i = Some (v, q, r) ->
     exists y r', call q tr r (st v) = Ok (y, r') /\ getattr (w_layer w') a = Ok (ATensor y) /\ nth_error (w_vars w') i = Some (v, q, r')) /\
  exists h acts', run_acts (w_acts w) tr (own_activation c l0 (l_fwd l0 (values st (w_layer w')) x)) = Ok (h, acts') /\ w_acts w' = acts' /\
    match w_out w with None => o = h /\ w_out w' = None | Some (q, r) => exists r', call q tr r h = Ok (o, r') /\ w_out w' = Some (q, r') end.
Proof.
  intros (Q & Na & Nt & Nv & Iv) I. destruct I as [I1 I2 I3 I4 I5 I6 I7 I8 I9 I10]. unfold call_wrapper. rewrite I2.
  destruct (mapM _ _) as [qs|] eqn:Eq; cbn [bind]; [|discriminate]. apply quantize_weights_spec in Eq as (A & B & C).
  unfold set_quantize_weights. destruct (Nat.eqb_spec (List.length (qc_weight_attrs c)) (List.length (map fst qs))) as [Len|]; cbn [negb]; [|discriminate].
  destruct (set_weights _ _ _ _) as [l'|] eqn:Es; cbn [bind]; [|discriminate]. apply set_weights_spec in Es as (S1 & S2 & S3 & S4 & S5 & S6 & S7); auto.
  destruct (run_acts _ _ _) as [[h acts']|] eqn:Er; cbn [bind]; [|discriminate].
  set (oo := match w_out w with None => _ | Some _ => _ end). destruct oo as [[o' out']|] eqn:Eo; cbn [bind]; [|discriminate]. intros [= <- <- <-]. cbn [w_layer w_vars w_acts w_out w_class w_cfg w_own].
  split; [reflexivity|]. split; [|split; [exact S5|split]].
  - constructor; cbn [w_layer w_vars w_acts w_out w_class w_cfg w_own]; auto; try congruence.
    + intros a Ha. rewrite S2 by auto. auto.
    + intros a Ha. apply In_nth_error in Ha. destruct Ha as (i & Hi). destruct (nth_error (map fst qs) i) as [t|] eqn:Et; [eauto|].
      apply nth_error_None in Et. assert (i < List.length (qc_weight_attrs c)) by (apply nth_error_Some; congruence). lia.
    + rewrite S7, I10. destruct b.
      * assert (avars (w_layer w) (qc_weight_attrs c) = []) as ->.
        { unfold avars. clear - I9. induction (qc_weight_attrs c) as [|a r IH]; [reflexivity|]. cbn. destruct (I9 a (or_introl eq_refl)) as (t & Ht). unfold getattr in Ht.
          destruct (alookup a (l_attrs (w_layer w))); [|discriminate]. injection Ht as ->. apply IH. intros; apply I9; now right. }
        unfold drop at 1. cbn. clear. induction (drop vs (l_tracked l0)); cbn; congruence.
      * assert (avars (w_layer w) (qc_weight_attrs c) = vs) as ->; [|reflexivity]. rewrite <- (avars_fresh c l0 vs Q). unfold avars. clear - I9.
        induction (qc_weight_attrs c) as [|a r IH]; [reflexivity|]. cbn. pose proof (I9 a (or_introl eq_refl)) as Ht. unfold getattr in Ht.
        assert (alookup a (l_attrs (w_layer w)) = alookup a (l_attrs l0)) as ->; [destruct (alookup a (l_attrs (w_layer w))), (alookup a (l_attrs l0)); congruence|].
        f_equal. apply IH. intros; apply I9; now right.
  - intros i a v q r Ha Hv. destruct (C i v q r Hv) as (y & r' & E1 & E2 & E3). exists y, r'. split; [auto|]. split; [|auto]. eapply S1; eauto.
  - exists h, acts'. split.
    + assert (own_activation c l' = own_activation c l0) as Eo'. { unfold own_activation. rewrite S4, I6. reflexivity. }
      rewrite <- Eo'. rewrite <- I5, <- S3. exact Er.
    + split; [reflexivity|]. unfold oo in Eo. destruct (w_out w) as [[q r]|]; [|injection Eo as <- <-; auto].
      destruct (call q tr r h) as [[o1 r']|]; cbn [bind] in Eo; [|discriminate]. injection Eo as <- <-. eauto.
Qed.
Lemma run_inv cls c l0 vs evs : fresh c l0 vs -> forall b st w st' w', inv cls c l0 vs b w -> run_wrapper st w evs = Ok (st', w') ->
  exists b', inv cls c l0 vs b' w' /\ st' = last_store st evs /\ (b = true \/ has_forward evs <-> b' = true).
Proof.
  intros F. induction evs as [|e r IH]; intros b st w st' w' I; cbn [run_wrapper last_store].
  - intros [= <- <-]. exists b. split; [auto|]. split; [auto|]. split; [intros [H|(tr & x & [])]; auto|auto].
  - destruct e as [tr x|st1|t].
    + destruct (call_wrapper st w tr x) as [[[o w1] st1]|] eqn:E; cbn [bind snd]; [|discriminate]. eapply call_inv in E as (-> & I' & _); eauto.
      intros R. destruct (IH _ _ _ _ _ I' R) as (b' & J & S & H). exists b'. split; [auto|]. split; [auto|]. split; [intros _; apply H; now left|]. intros _. right. exists tr, x. now left.
    + intros R. destruct (IH _ _ _ _ _ I R) as (b' & J & S & H). exists b'. split; [auto|]. split; [auto|]. rewrite <- H. split; intros [K|(tr & x & K)]; auto.
      * destruct K as [K|K]; [discriminate|]. right. exists tr, x. exact K. * right. exists tr, x. now right.
    + intros R. assert (inv cls c l0 vs b (set_trainable w t)) as I'. { destruct I as [I1 I2 I3 I4 I5 I6 I7 I8 I9 I10]. constructor; auto. }
      destruct (IH _ _ _ _ _ I' R) as (b' & J & S & H). exists b'. split; [auto|]. split; [auto|]. rewrite <- H. split; intros [K|(tr & x & K)]; auto.
      * destruct K as [K|K]; [discriminate|]. right. exists tr, x. exact K. * right. exists tr, x. now right.
Qed.
Theorem wrapper_effective cls c l0 vs st0 evs st1 w0 w1 tr x o w2 st2 : fresh c l0 vs -> build_wrapper cls c st0 l0 = Ok w0 ->
  run_wrapper st0 w0 evs = Ok (st1, w1) -> call_wrapper st1 w1 tr x = Ok (o, w2, st2) ->
  st1 = last_store st0 evs /\ st2 = st1 /\
  (forall i a v, nth_error (qc_weight_attrs c) i = Some a -> nth_error vs i = Some v ->
     exists r y r', nth_error (w_vars w1) i = Some (v, weight_quantizer c, r) /\ call (weight_quantizer c) tr r (st1 v) = Ok (y, r') /\
       getattr (w_layer w2) a = Ok (ATensor y) /\ nth_error (w_vars w2) i = Some (v, weight_quantizer c, r')) /\
  (forall a, ~ In a (qc_weight_attrs c) -> getattr (w_layer w2) a = getattr l0 a) /\
  exists h acts', run_acts (w_acts w1) tr (own_activation c l0 (l_fwd l0 (values st1 (w_layer w2)) x)) = Ok (h, acts') /\
    match w_out w1 with None => o = h | Some (q, r) => exists r', call q tr r h = Ok (o, r') end.
Proof.
  intros F B R C. pose proof F as (Q & _). apply (build_inv cls c st0 l0 vs) in B as [I _]; auto. destruct (run_inv cls c l0 vs evs F _ _ _ _ _ I R) as (b' & J & S & _).
  pose proof (call_inv _ _ _ _ _ _ _ _ _ _ _ _ F J C) as (E & K & _ & W & (h & acts' & G1 & _ & G2)). split; [auto|]. split; [auto|]. split; [|split].
  - intros i a v Ha Hv. assert (exists r, nth_error (w_vars w1) i = Some (v, weight_quantizer c, r)) as (r & Hr).
    { pose proof (i_vars _ _ _ _ _ _ J) as Em. assert (nth_error (map fst (w_vars w1)) i = Some (v, weight_quantizer c)) as X by (rewrite Em, nth_error_map, Hv; reflexivity).
      rewrite nth_error_map in X. destruct (nth_error (w_vars w1) i) as [[p r]|] eqn:Ep; [|discriminate]. cbn in X. injection X as ->. eauto. }
    destruct (W i a v _ r Ha Hr) as (y & r' & A1 & A2 & A3). exists r, y, r'. auto.
  - apply (i_other _ _ _ _ _ _ K).
  - exists h, acts'. split; [auto|]. destruct (w_out w1) as [[q r]|]; [destruct G2 as (r' & ? & _); eauto|tauto].
Qed.

(** * Trainable weights *)
Lemma dedup_seen seen l : incl l seen -> dedup seen l = [].
Proof. induction l as [|a l IH]; intros H; [reflexivity|]. cbn. destruct (in_dec Nat.eq_dec a seen) as [|C]; [apply IH; intros z Hz; apply H; now right|exfalso; apply C, H; now left]. Qed.
Lemma dedup_app l m : forall seen, NoDup l -> (forall a, In a l -> ~ In a seen) -> incl m (seen ++ l) -> dedup seen (l ++ m) = l.
Proof.
  induction l as [|a l IH]; intros seen Nd D I; cbn [app dedup].
  - rewrite app_nil_r in I. now apply dedup_seen.
  - inversion Nd as [|? ? Na Nd']; subst. destruct (in_dec Nat.eq_dec a seen) as [C|_]; [exfalso; apply (D a); [now left|auto]|]. f_equal. apply IH; auto.
    + intros b Hb [<-|C]; [contradiction|]. apply (D b); [now right|auto].
    + intros b Hb. apply I in Hb. apply in_app_or in Hb. apply in_or_app. destruct Hb as [Hb|[<-|Hb]]; [left; now right|left; now left|now right].
Qed.
Lemma drop_incl vs l : incl (drop vs l) l.
Proof. intros a H. apply filter_In in H. tauto. Qed.
Lemma drop_perm vs l : NoDup l -> NoDup vs -> incl vs l -> Permutation (drop vs l ++ vs) l.
Proof.
  intros Nl Nv I. apply NoDup_Permutation; auto.
  - assert (NoDup (drop vs l)) as Nd by now apply NoDup_filter. assert (forall a, In a (drop vs l) -> ~ In a vs) as D.
    { intros a H. apply filter_In in H. destruct H as [_ H]. destruct (in_dec Nat.eq_dec a vs); [discriminate|auto]. }
    revert Nd D. generalize (drop vs l). induction l0 as [|a r IH]; intros Nd D; cbn; [auto|]. inversion Nd; subst. constructor.
    + intros C. apply in_app_or in C. destruct C as [C|C]; [contradiction|]. apply (D a); [now left|auto].
    + apply IH; auto. intros b Hb. apply D. now right.
  - intros a. rewrite in_app_iff. split; [intros [H|H]; [now apply drop_incl in H|auto]|]. intros H. destruct (in_dec Nat.eq_dec a vs) as [J|J]; [now right|left].
    apply filter_In. split; [auto|]. destruct (in_dec Nat.eq_dec a vs); [contradiction|reflexivity].
Qed.
Theorem v2_trainable c l0 vs st0 evs st1 w0 w1 : fresh c l0 vs -> l_trainable l0 = true -> build_wrapper V2 c st0 l0 = Ok w0 ->
  run_wrapper st0 w0 evs = Ok (st1, w1) -> trainable_weights w1 = l_tracked l0.
Proof.
  intros F T B R. pose proof F as (Q & Na & Nt & Nv & Iv). apply (build_inv V2 c st0 l0 vs) in B as [I _]; auto. destruct (run_inv V2 c l0 vs evs F _ _ _ _ _ I R) as (b' & J & S & _).
  destruct J as [I1 I2 I3 I4 I5 I6 I7 I8 I9 I10]. unfold trainable_weights. rewrite I1, I4. unfold layer_trainable_weights at 1. rewrite T. rewrite <- app_assoc. apply dedup_app; auto.
  cbn. intros a H. apply in_app_or in H. destruct H as [H|H]; [auto|]. unfold layer_trainable_weights in H. destruct (l_trainable (w_layer w1)); [|contradiction]. rewrite I10 in H.
  destruct b'; [now apply drop_incl in H|auto].
Qed.
Theorem v1_trainable c l0 vs st0 evs st1 w0 w1 : fresh c l0 vs -> build_wrapper V1 c st0 l0 = Ok w0 ->
  run_wrapper st0 w0 evs = Ok (st1, w1) -> l_trainable (w_layer w1) = true -> has_forward evs -> Permutation (trainable_weights w1) (l_tracked l0).
Proof.
  intros F B R T H. pose proof F as (Q & Na & Nt & Nv & Iv). apply (build_inv V1 c st0 l0 vs) in B as [I _]; auto. destruct (run_inv V1 c l0 vs evs F _ _ _ _ _ I R) as (b' & J & S & Hb).
  assert (b' = true) as -> by (apply Hb; now right).
  destruct J as [I1 I2 I3 I4 I5 I6 I7 I8 I9 I10]. unfold trainable_weights. rewrite I1, I4. unfold layer_trainable_weights. rewrite T, I10. cbn [app]. now apply drop_perm.
Qed.
Theorem v1_before_first_call c l0 vs st0 w0 : fresh c l0 vs -> l_trainable l0 = true -> build_wrapper V1 c st0 l0 = Ok w0 -> trainable_weights w0 = (l_tracked l0 ++ vs)%list.
Proof.
  intros F T B. pose proof F as (Q & _). apply (build_inv V1 c st0 l0 vs) in B as [I E]; auto. destruct I as [I1 I2 I3 I4 I5 I6 I7 I8 I9 I10].
  unfold trainable_weights. rewrite I1, I4. unfold layer_trainable_weights. rewrite E, T, I10. reflexivity.
Qed.
(** Frozen wrappers still list weights as trainable. *)
Theorem frozen_trainable cls c l0 vs st0 evs st1 w0 w1 : fresh c l0 vs -> l_trainable l0 = true -> build_wrapper cls c st0 l0 = Ok w0 ->
  run_wrapper st0 w0 evs = Ok (st1, w1) -> trainable_weights (set_trainable w1 false) = match cls with V1 => vs | V2 => l_tracked l0 end.
Proof.
  intros F T B R. pose proof F as (Q & Na & Nt & Nv & Iv). apply (build_inv cls c st0 l0 vs) in B as [I _]; auto. destruct (run_inv cls c l0 vs evs F _ _ _ _ _ I R) as (b' & J & S & _).
  destruct J as [I1 I2 I3 I4 I5 I6 I7 I8 I9 I10]. unfold trainable_weights. cbn [set_trainable w_class w_own w_layer]. unfold layer_trainable_weights. cbn [l_trainable]. rewrite I1, I4. destruct cls; [reflexivity|].
  rewrite app_nil_r. unfold layer_trainable_weights. rewrite T. now apply dedup_app.
Qed.

(** * Forward passes never fail on standard layers *)
Definition wfits (c : qat_config) (st : store) (w : wrapper) : Prop :=
  (forall i v q r, nth_error (w_vars w) i = Some (v, q, r) -> fits q (shape (st v)) r) /\
  (forall a, In a (w_acts w) -> a_quantizer a = activation_quantizer c /\ (in_set (a_name a) PRE_QUANT = true -> fits (activation_quantizer c) [] (a_pre a)) /\ (in_set (a_name a) POST_QUANT = true -> fits (activation_quantizer c) [] (a_post a))) /\
  (match w_out w with Some (q, r) => q = activation_quantizer c /\ fits q [] r | None => True end).
Lemma ma_call tr r x : fits (MovingAverageQuantizer 8 false false false) [] r -> exists y r', call (MovingAverageQuantizer 8 false false false) tr r x = Ok (y, r') /\ fits (MovingAverageQuantizer 8 false false false) [] r'.
Proof.
  intros (lo & hi & ->). cbn [call need_w bind]. unfold MovingAvgQuantize, lift. destruct tr; cbn [negb batch_ranges bind rmap].
  - destruct (widen _ _ _ _ _) as [a b]. cbn [assign_with bind FakeQuantWithMinMaxVars]. cbn. do 2 eexists. split; [reflexivity|]. do 2 eexists. reflexivity.
  - cbn. do 2 eexists. split; [reflexivity|]. do 2 eexists. reflexivity.
Qed.
Lemma acts_ok c tr acts : (forall a, In a acts -> a_quantizer a = activation_quantizer c /\ (in_set (a_name a) PRE_QUANT = true -> fits (activation_quantizer c) [] (a_pre a)) /\ (in_set (a_name a) POST_QUANT = true -> fits (activation_quantizer c) [] (a_post a))) ->
  forall x, exists y acts', run_acts acts tr x = Ok (y, acts') /\
  (forall a, In a acts' -> a_quantizer a = activation_quantizer c /\ (in_set (a_name a) PRE_QUANT = true -> fits (activation_quantizer c) [] (a_pre a)) /\ (in_set (a_name a) POST_QUANT = true -> fits (activation_quantizer c) [] (a_post a))).
Proof.
  induction acts as [|a r IH]; intros H x; cbn [run_acts]; [exists x, []; split; [reflexivity|intros ? []]|].
  destruct (H a (or_introl eq_refl)) as (Hq & H1 & H2).
  assert (exists y a', act_call a tr x = Ok (y, a') /\ a_quantizer a' = activation_quantizer c /\ (in_set (a_name a') PRE_QUANT = true -> fits (activation_quantizer c) [] (a_pre a')) /\ (in_set (a_name a') POST_QUANT = true -> fits (activation_quantizer c) [] (a_post a'))) as (y & a' & E & P).
  { unfold act_call. rewrite Hq. destruct (in_set (a_name a) PRE_QUANT) eqn:E1.
    - destruct (ma_call tr (a_pre a) x (H1 eq_refl)) as (x1 & p1 & C1 & F1). change (activation_quantizer c) with (MovingAverageQuantizer 8 false false false). rewrite C1. cbn [bind]. destruct (in_set (a_name a) POST_QUANT) eqn:E2.
      + destruct (ma_call tr (a_post a) (a_fun a x1) (H2 eq_refl)) as (x2 & p2 & C2 & F2). rewrite C2. cbn [bind]. do 2 eexists. split; [reflexivity|]. cbn. auto.
      + cbn [bind]. do 2 eexists. split; [reflexivity|]. cbn [a_quantizer a_name a_pre a_post]. rewrite E2. repeat split; auto; discriminate.
    - cbn [bind]. change (activation_quantizer c) with (MovingAverageQuantizer 8 false false false). destruct (in_set (a_name a) POST_QUANT) eqn:E2.
      + destruct (ma_call tr (a_post a) (a_fun a x) (H2 eq_refl)) as (x2 & p2 & C2 & F2). rewrite C2. cbn [bind]. do 2 eexists. split; [reflexivity|]. cbn [a_quantizer a_name a_pre a_post]. rewrite E1. repeat split; auto; discriminate.
      + cbn [bind]. do 2 eexists. split; [reflexivity|]. cbn [a_quantizer a_name a_pre a_post]. rewrite E1, E2. repeat split; auto; discriminate. }
  rewrite E. cbn [bind]. destruct (IH ltac:(intros b Hb; apply H; now right) y) as (z & r' & Er & P'). rewrite Er. cbn [bind]. do 2 eexists. split; [reflexivity|]. intros b [<-|Hb]; auto.
Qed.
Record ready (c : qat_config) (vs : list nat) (shp : nat -> list nat) (w : wrapper) : Prop := {
  rd_vars : forall i v q r, nth_error (w_vars w) i = Some (v, q, r) -> In v vs /\ q = weight_quantizer c /\ fits q (shp v) r;
  rd_len : List.length (w_vars w) = List.length vs;
  rd_acts : forall a, In a (w_acts w) -> a_quantizer a = activation_quantizer c /\ (in_set (a_name a) PRE_QUANT = true -> fits (activation_quantizer c) [] (a_pre a)) /\ (in_set (a_name a) POST_QUANT = true -> fits (activation_quantizer c) [] (a_post a));
  rd_out : match w_out w with Some (q, r) => q = activation_quantizer c /\ fits q [] r | None => True end;
  rd_attr : forall i a v, nth_error (qc_weight_attrs c) i = Some a -> nth_error vs i = Some v -> exists cur, getattr (w_layer w) a = Ok cur /\ (cur = AVar v \/ exists t, cur = ATensor t /\ shape t = shp v) }.
Lemma build_ready cls c st l vs : fresh c l vs -> (forall v, In v vs -> well_used (weight_quantizer c) (shape (st v))) -> supported_activation c l ->
  exists w, build_wrapper cls c st l = Ok w /\ ready c vs (fun v => shape (st v)) w.
Proof.
  intros (Q & Na & Nt & Nv & Iv) U A. unfold build_wrapper.
  assert (exists vars, mapM (build_weight st l (weight_quantizer c)) (qc_weight_attrs c) = Ok vars /\ List.length vars = List.length vs /\
    (forall i v q r, nth_error vars i = Some (v, q, r) -> In v vs /\ q = weight_quantizer c /\ fits q (shape (st v)) r)) as (vars & -> & Lv & Hv).
  { clear - Q U. unfold quantized_vars in Q. induction Q as [|a v la lv Ha Q IH].
    - exists []. repeat split; try (destruct i; discriminate).
    - destruct IH as (vars & E & L & H); [intros; apply U; now right|]. destruct (build_fits (weight_quantizer c) (shape (st v)) (U v (or_introl eq_refl))) as (r & B & F).
      exists ((v, weight_quantizer c, r) :: vars). cbn [mapM]. unfold build_weight at 1. rewrite Ha. cbn [bind]. rewrite B. cbn [bind]. rewrite E. cbn [bind]. split; [reflexivity|]. split; [cbn; congruence|].
      intros [|i] v0 q0 r0; cbn [nth_error]; [intros [= <- <- <-]; split; [now left|auto]|]. intros Hn. destruct (H i v0 q0 r0 Hn) as (? & ? & ?). split; [now right|auto]. }
  cbn [bind]. assert (exists acts, build_acts c l = Ok acts /\ forall a, In a acts -> a_quantizer a = activation_quantizer c /\ (in_set (a_name a) PRE_QUANT = true -> fits (activation_quantizer c) [] (a_pre a)) /\ (in_set (a_name a) POST_QUANT = true -> fits (activation_quantizer c) [] (a_post a))) as (acts & -> & Ha).
  { unfold build_acts. destruct (qc_activation_attrs c) as [|a0 r0] eqn:Ea; [exists []; split; [reflexivity|intros ? []]|]. destruct A as [A|(n & f & -> & D)]; [congruence|].
    rewrite declared_sets in D. unfold QuantizeAwareActivation. destruct (_ || _)%bool; [|congruence]. cbn [negb].
    destruct (in_set n PRE_QUANT) eqn:E1, (in_set n POST_QUANT) eqn:E2; cbn; (eexists; split; [reflexivity|]); intros a [<-|[]]; cbn [a_quantizer a_name a_pre a_post]; rewrite ?E1, ?E2; repeat split; try discriminate; intros _; do 2 eexists; reflexivity. }
  cbn [bind]. assert (forall a, In a (qc_weight_attrs c) -> True) by auto.
  assert (forall i a v, nth_error (qc_weight_attrs c) i = Some a -> nth_error vs i = Some v -> exists cur, getattr l a = Ok cur /\ (cur = AVar v \/ exists t, cur = ATensor t /\ shape t = shape (st v))) as At.
  { intros i a v H1 H2. exists (AVar v). split; [|now left]. apply (Forall2_nth _ _ _ _ _ _ Q H1 H2). }
  destruct (qc_quantize_output c); cbn; (eexists; split; [reflexivity|]); constructor; cbn [w_vars w_acts w_out w_layer]; auto. split; [reflexivity|]. do 2 eexists; reflexivity.
Qed.
Lemma call_ready c vs shp st w tr x : NoDup (qc_weight_attrs c) -> List.length (qc_weight_attrs c) = List.length vs -> (forall v, In v vs -> well_used (weight_quantizer c) (shp v)) ->
  (forall v, In v vs -> shape (st v) = shp v) -> w_cfg w = c -> map (fun p => fst (fst p)) (w_vars w) = vs -> ready c vs shp w ->
  exists o w', call_wrapper st w tr x = Ok (o, w', st) /\ ready c vs shp w' /\ w_cfg w' = c /\ map (fun p => fst (fst p)) (w_vars w') = vs.
Proof.
  intros Na Len U Sh Ec Ev [R1 R2 R3 R4 R5]. unfold call_wrapper. rewrite Ec.
  assert (exists qs, mapM (quantize_weight st tr) (w_vars w) = Ok qs /\ List.length qs = List.length (w_vars w) /\
    (forall i y p, nth_error qs i = Some (y, p) -> exists v q r r', nth_error (w_vars w) i = Some (v, q, r) /\ p = (v, q, r') /\ shape y = shp v /\ fits q (shp v) r')) as (qs & Eq & Lq & Hq).
  { clear R2 Ev R5. revert R1. induction (w_vars w) as [|[[v q] r] l IH]; intros R1; [exists []; split; [reflexivity|]; split; [reflexivity|]; intros [|i]; discriminate|].
    destruct IH as (qs & E & L & H); [intros i; apply (R1 (S i))|]. destruct (R1 0 v q r eq_refl) as (Iv & -> & F). rewrite <- (Sh v Iv) in F.
    assert (well_used (weight_quantizer c) (shape (st v))) as Uv by (rewrite (Sh v Iv); auto).
    destruct (call_fits _ (st v) tr r Uv F) as (y & r' & C & S & F'). exists ((y, (v, weight_quantizer c, r')) :: qs). cbn [mapM]. unfold quantize_weight at 1. rewrite C. cbn [bind]. rewrite E. cbn [bind]. split; [reflexivity|]. split; [cbn; congruence|].
    intros [|i] y0 p0; cbn [nth_error]; [|apply H]. intros [= <- <-]. exists v, (weight_quantizer c), r, r'. rewrite (Sh v Iv) in S, F'. auto. }
  rewrite Eq. cbn [bind]. unfold set_quantize_weights. rewrite map_length, Lq, R2, Len, Nat.eqb_refl. cbn [negb].
  assert (forall i v p, nth_error (w_vars w) i = Some p -> fst (fst p) = v -> nth_error vs i = Some v) as Vi. { intros i v p H E. rewrite <- Ev, nth_error_map, H. cbn. now rewrite E. }
  destruct (set_weights_ok st (qc_weight_attrs c) (w_layer w) (map fst qs) Na) as (l' & Es).
  { rewrite map_length. congruence. }
  { intros i a y Hi Hy. rewrite nth_error_map in Hy. destruct (nth_error qs i) as [[y' p]|] eqn:E; [|discriminate]. cbn in Hy. injection Hy as ->. destruct (Hq i y p E) as (v & q & r & r' & H1 & _ & Sy & _).
    assert (nth_error vs i = Some v) as Hv by (eapply Vi; [exact H1|reflexivity]). destruct (R5 i a v Hi Hv) as (cur & G & [-> |(t & -> & St)]); [exists (AVar v)|exists (ATensor t)]; (split; [auto|]); cbn [value]; [|congruence].
    rewrite Sy. apply Sh. eapply nth_error_In; eauto. }
  rewrite Es. cbn [bind]. destruct (acts_ok c tr (w_acts w) R3 (own_activation c l' (l_fwd l' (values st l') x))) as (h & acts' & Er & Ha). rewrite Er. cbn [bind].
  assert (List.length (qc_weight_attrs c) = List.length (map fst qs)) as Lq' by (rewrite map_length; congruence).
  pose proof (set_weights_spec _ _ _ _ _ Na Lq' Es) as (S1 & _).
  assert (exists o out', (match w_out w with None => Ok (h, None) | Some (q, r) => do (o, r') <- call q tr r h ;; Ok (o, Some (q, r')) end) = Ok (o, out') /\ match out' with Some (q, r) => q = activation_quantizer c /\ fits q [] r | None => True end) as (o & out' & Eo & Ho).
  { destruct (w_out w) as [[q r]|]; [|exists h, None; split; [reflexivity|exact I]]. destruct R4 as [-> F]. destruct (ma_call tr r h F) as (o & r' & C & F'). change (activation_quantizer c) with (MovingAverageQuantizer 8 false false false). rewrite C. cbn [bind]. do 2 eexists. split; [reflexivity|]. split; [reflexivity|exact F']. }
  rewrite Eo. cbn [bind]. do 2 eexists. split; [reflexivity|]. cbn [w_cfg w_vars].
  assert (forall i v q r', nth_error (map snd qs) i = Some (v, q, r') -> exists r, nth_error (w_vars w) i = Some (v, q, r) /\ fits q (shp v) r') as Hs.
  { intros i v q r' H. rewrite nth_error_map in H. destruct (nth_error qs i) as [[y p]|] eqn:E; [|discriminate]. cbn in H. injection H as ->. destruct (Hq _ _ _ E) as (v1 & q1 & r & r1 & H1 & [= <- <- <-] & _ & F). eauto. }
  split; [|split; [auto|]].
  - constructor; cbn [w_vars w_acts w_out w_layer]; auto.
    + intros i v q r' H. destruct (Hs i v q r' H) as (r & H1 & F). destruct (R1 i v q r H1) as (? & ? & _). auto.
    + rewrite map_length. congruence.
    + intros i a v Hi Hv. destruct (nth_error qs i) as [[y p]|] eqn:E.
      * destruct (Hq _ _ _ E) as (v1 & q1 & r & r1 & H1 & _ & Sy & _). assert (nth_error vs i = Some v1) as Hv1 by (eapply Vi; [exact H1|reflexivity]).
        exists (ATensor y). split; [apply (S1 i a y); auto; rewrite nth_error_map, E; reflexivity|]. right. exists y. split; [auto|congruence].
      * apply nth_error_None in E. assert (i < List.length vs) by (apply nth_error_Some; congruence). lia.
  - transitivity (map fst (map fst (map snd qs))); [symmetry; apply (map_map fst fst)|]. apply quantize_weights_spec in Eq as (Eq & _). rewrite Eq, map_map. exact Ev.
Qed.
Theorem wrapper_never_fails cls c st0 l vs evs : fresh c l vs -> (forall v, In v vs -> well_used (weight_quantizer c) (shape (st0 v))) -> supported_activation c l ->
  (forall st, In (Update st) evs -> same_shapes vs st0 st) -> exists w0 st w, build_wrapper cls c st0 l = Ok w0 /\ run_wrapper st0 w0 evs = Ok (st, w).
Proof.
  intros F U A H. destruct (build_ready cls c st0 l vs F U A) as (w0 & B & R). exists w0. pose proof F as (Q & Na & Nt & Nv & Iv).
  assert (List.length (qc_weight_attrs c) = List.length vs) as Len by (clear - Q; unfold quantized_vars in Q; induction Q; cbn; congruence).
  pose proof (build_inv cls c st0 l vs w0 Q B) as [I _]. pose proof (i_cfg _ _ _ _ _ _ I) as Ec.
  assert (map (fun p => fst (fst p)) (w_vars w0) = vs) as Ev. { transitivity (map fst (map fst (w_vars w0))); [now rewrite map_map|]. rewrite (i_vars _ _ _ _ _ _ I), map_map. apply map_id. }
  clear I. assert (exists st w, run_wrapper st0 w0 evs = Ok (st, w)) as (st & w & E); [clear B|eauto 10]. set (shp := fun v => shape (st0 v)) in *.
  assert (forall v, In v vs -> shape (st0 v) = shp v) as Sh by reflexivity.
  assert (forall st, In (Update st) evs -> forall v, In v vs -> shape (st v) = shp v) as H' by (intros st Hs v Hv; apply (H st Hs v Hv)). clear H.
  assert (forall v, In v vs -> well_used (weight_quantizer c) (shp v)) as U' by exact U. clearbody shp. clear U. revert st0 w0 R Ec Ev Sh A. induction evs as [|e r IH]; intros st0 w0 R Ec Ev Sh A; cbn [run_wrapper]; [eauto|].
  destruct e as [tr x|st1|t].
  - destruct (call_ready c vs shp st0 w0 tr x Na Len U' Sh Ec Ev R) as (o & w' & C & R' & Ec' & Ev'). rewrite C. cbn [bind snd]. apply IH; auto. intros st Hs. apply H'. now right.
  - apply IH; auto. + intros st Hs. apply H'. now right. + apply H'. now left.
  - apply IH; auto. + intros st Hs. apply H'. now right. + destruct R as [R1 R2 R3 R4 R5]. constructor; auto.
Qed.
