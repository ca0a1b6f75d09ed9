(** Lemmas about quantizing RNN layers. *)
From Coq Require Import String.
From Verif Require Import Base M_Num M_Tensor M_Quant M_QWrapper M_QRnn S_Quant S_QWrapper S_QRnn L_Quantizers4 L_QWrapper.
Open Scope string_scope.
Open Scope list_scope.
Open Scope nat_scope.

Lemma sassoc_sput {A} k k' (v : A) l : sassoc k (sput k' v l) = if String.eqb k k' then Some v else sassoc k l.
Proof.
  induction l as [|[j x] r IH]; cbn.
  - destruct (String.eqb k k') eqn:E; reflexivity.
  - destruct (String.eqb_spec k' j) as [<-|N]; cbn.
    + destruct (String.eqb k k'); reflexivity.
    + rewrite IH. destruct (String.eqb_spec k j) as [->|Nj]; [|reflexivity]. destruct (String.eqb_spec j k'); [congruence|reflexivity].
Qed.
Lemma get_put_weight h c a t d b : get_weight (put_weight h c a t) d b = if (Nat.eqb d c && String.eqb b a)%bool then Ok (ATensor t) else get_weight h d b.
Proof.
  unfold get_weight, put_weight. destruct (Nat.eqb_spec d c) as [->|N]; cbn [andb]; [|reflexivity]. cbn [rc_weights]. rewrite sassoc_sput. destruct (String.eqb b a); reflexivity.
Qed.
Lemma get_act_put_weight h c a t d b : get_act (put_weight h c a t) d b = get_act h d b.
Proof. unfold get_act, put_weight. destruct (Nat.eqb d c); reflexivity. Qed.
Lemma get_put_act h c a x d b : get_act (put_act h c a x) d b = if (Nat.eqb d c && String.eqb b a)%bool then Ok x else get_act h d b.
Proof.
  unfold get_act, put_act. destruct (Nat.eqb_spec d c) as [->|N]; cbn [andb]; [|reflexivity]. cbn [rc_acts]. rewrite sassoc_sput. destruct (String.eqb b a); reflexivity.
Qed.
Lemma get_weight_put_act h c a t d b : get_weight (put_act h c a t) d b = get_weight h d b.
Proof. unfold get_weight, put_act. destruct (Nat.eqb d c); reflexivity. Qed.

Lemma loop_in attrs : forall cells c a, In (c, a) (loop attrs cells) <-> exists i l, nth_error attrs i = Some l /\ nth_error cells i = Some c /\ In a l.
Proof.
  unfold loop. induction attrs as [|l attrs IH]; intros cells c a; cbn [combine flat_map].
  - split; [intros []|intros (i & l & H & _); destruct i; discriminate].
  - destruct cells as [|d cells]; cbn [flat_map].
    + split; [intros []|intros (i & l' & _ & H & _); destruct i; discriminate].
    + rewrite in_app_iff. cbn [fst snd]. rewrite in_map_iff. rewrite IH. split.
      * intros [(x & [= <- <-] & Hx)|(i & l' & H1 & H2 & H3)]; [exists 0, l; auto|exists (S i), l'; auto].
      * intros ([|i] & l' & H1 & H2 & H3); cbn in *; [injection H1 as <-; injection H2 as <-; left; eauto|right; eauto 6].
Qed.
Lemma loop_length attrs : forall cells, List.length attrs = List.length cells -> List.length (loop attrs cells) = List.length (List.concat attrs).
Proof.
  unfold loop. induction attrs as [|l attrs IH]; intros [|d cells] E; try discriminate; [reflexivity|]. cbn [combine flat_map List.concat]. rewrite !app_length, map_length. cbn [fst]. rewrite IH; [reflexivity|now injection E].
Qed.
Lemma cell_at_iff l cells : rnn_cells l = Ok cells -> forall i c, cell_at l i c <-> nth_error cells i = Some c.
Proof.
  destruct l as [d|cs|]; cbn; intros E; try discriminate; injection E as <-; intros i c.
  - split; [intros H; inversion H; reflexivity|]. destruct i as [|[|i]]; cbn; try discriminate. intros [= <-]. constructor.
  - split; [intros H; now inversion H|now constructor].
Qed.
Lemma one_list_len attrs l : one_list_per_cell attrs l -> exists cells, rnn_cells l = Ok cells /\ List.length attrs = List.length cells /\
  forall c a, In (c, a) (loop attrs cells) <-> declared_for attrs l c a.
Proof.
  intros [N H]. assert (X : exists cells, rnn_cells l = Ok cells) by (destruct l as [c|cs|]; cbn; [eauto|eauto|congruence]). destruct X as (cells & E). exists cells. split; [exact E|].
  pose proof (cell_at_iff l cells E) as CA. split.
  - assert (L : forall i, i < List.length cells <-> i < List.length attrs).
    { intros i. rewrite <- H. split.
      - intros Hi. destruct (nth_error cells i) as [c|] eqn:En; [|apply nth_error_None in En; lia]. exists c. now apply CA.
      - intros (c & Hc). apply CA in Hc. apply nth_error_Some. congruence. }
    pose proof (L (List.length cells)). pose proof (L (List.length attrs)). lia.
  - intros c a. rewrite loop_in. unfold declared_for. split.
    + intros (i & as_ & H1 & H2 & H3). exists i, as_. rewrite CA. auto.
    + intros (i & as_ & H1 & H2 & H3). exists i, as_. rewrite CA in H1. auto.
Qed.

(** ** Setting weights *)
Lemma set_loop_spec st ps : forall h ws h', set_loop st h ps ws = (h', Ok tt) ->
  (forall c a, In (c, a) ps -> exists k w, nth_error ps k = Some (c, a) /\ nth_error ws k = Some w /\ get_weight h' c a = Ok (ATensor w)) /\
  (forall c a, ~ In (c, a) ps -> get_weight h' c a = get_weight h c a) /\
  (forall c a, get_act h' c a = get_act h c a).
Proof.
  induction ps as [|[c a] ps IH]; intros h ws h'; cbn [set_loop].
  - intros [= <-]. split; [intros ? ? []|]. split; reflexivity.
  - destruct (get_weight h c a) as [cur|e]; [|discriminate]. destruct ws as [|w ws]; [discriminate|]. destruct (negb _); [discriminate|]. intros E. destruct (IH _ _ _ E) as (A & B & C).
    split; [|split].
    + intros d b Hin. destruct (in_dec (fun x y : nat * string => ltac:(decide equality; [apply string_dec|apply Nat.eq_dec])) (d, b) ps) as [Hp|Hp].
      * destruct (A d b Hp) as (k & u & H1 & H2 & H3). exists (S k), u. auto.
      * destruct Hin as [[= <- <-]|Hin]; [|contradiction]. exists 0, w. split; [reflexivity|]. split; [reflexivity|]. rewrite (B _ _ Hp), get_put_weight, Nat.eqb_refl, String.eqb_refl. reflexivity.
    + intros d b Hn. rewrite B by (intros Hx; apply Hn; now right). rewrite get_put_weight. destruct (Nat.eqb_spec d c) as [->|]; [|reflexivity]. destruct (String.eqb_spec b a) as [->|]; [|reflexivity]. exfalso. apply Hn. now left.
    + intros d b. rewrite C. apply get_act_put_weight.
Qed.
Lemma set_loop_ok st ps : forall h ws (shp : nat -> string -> list nat), List.length ps = List.length ws ->
  (forall c a, In (c, a) ps -> exists cur, get_weight h c a = Ok cur /\ shape (value st cur) = shp c a) ->
  (forall k c a w, nth_error ps k = Some (c, a) -> nth_error ws k = Some w -> shape w = shp c a) -> exists h', set_loop st h ps ws = (h', Ok tt).
Proof.
  induction ps as [|[c a] ps IH]; intros h ws shp L H1 H2; [cbn; eauto|]. destruct ws as [|w ws]; [discriminate|]. cbn [set_loop]. destruct (H1 c a (or_introl eq_refl)) as (cur & -> & Es).
  assert (Ew : shape w = shp c a) by (apply (H2 0); reflexivity). unfold shape_eqb. destruct (list_eq_dec _ _ _) as [_|N]; [|congruence]. cbn [negb].
  apply IH with shp; [now injection L| |].
  - intros d b Hin. rewrite get_put_weight. destruct (Nat.eqb_spec d c) as [->|]; cbn [andb]; [|apply H1; now right]. destruct (String.eqb_spec b a) as [->|]; [|apply H1; now right]. exists (ATensor w). split; [reflexivity|exact Ew].
  - intros k d b u Hk Hu. apply (H2 (S k)); auto.
Qed.
Lemma set_act_spec ps : forall h xs h', set_act_loop h ps xs = (h', Ok tt) ->
  (forall c a, In (c, a) ps -> exists k x, nth_error ps k = Some (c, a) /\ nth_error xs k = Some x /\ get_act h' c a = Ok x) /\
  (forall c a, ~ In (c, a) ps -> get_act h' c a = get_act h c a) /\
  (forall c a, get_weight h' c a = get_weight h c a).
Proof.
  induction ps as [|[c a] ps IH]; intros h xs h'; cbn [set_act_loop].
  - intros [= <-]. split; [intros ? ? []|]. split; reflexivity.
  - destruct xs as [|w xs]; [discriminate|]. intros E. destruct (IH _ _ _ E) as (A & B & C).
    split; [|split].
    + intros d b Hin. destruct (in_dec (fun x y : nat * string => ltac:(decide equality; [apply string_dec|apply Nat.eq_dec])) (d, b) ps) as [Hp|Hp].
      * destruct (A d b Hp) as (k & u & H1 & H2 & H3). exists (S k), u. auto.
      * destruct Hin as [[= <- <-]|Hin]; [|contradiction]. exists 0, w. split; [reflexivity|]. split; [reflexivity|]. rewrite (B _ _ Hp), get_put_act, Nat.eqb_refl, String.eqb_refl. reflexivity.
    + intros d b Hn. rewrite B by (intros Hx; apply Hn; now right). rewrite get_put_act. destruct (Nat.eqb_spec d c) as [->|]; [|reflexivity]. destruct (String.eqb_spec b a) as [->|]; [|reflexivity]. exfalso. apply Hn. now left.
    + intros d b. rewrite C. apply get_weight_put_act.
Qed.
Lemma set_act_ok ps : forall h xs, List.length ps = List.length xs -> exists h', set_act_loop h ps xs = (h', Ok tt).
Proof. induction ps as [|[c a] ps IH]; intros h xs L; [cbn; eauto|]. destruct xs as [|x xs]; [discriminate|]. cbn [set_act_loop]. apply IH. now injection L. Qed.

(** ** The wrapper *)
Section W.
Variables (c : rqcfg) (h : rheap) (l : rnn) (cells : list nat) (shp : nat -> list nat).
Hypothesis Ec : rnn_cells l = Ok cells.
Hypothesis Bw : 2 <= rq_weight_bits c <= 16.
Hypothesis Lw : List.length (rq_weight_attrs c) = List.length cells.
Hypothesis La : List.length (rq_activation_attrs c) = List.length cells.
Let WP := loop (rq_weight_attrs c) cells.
Let AP := loop (rq_activation_attrs c) cells.
Hypothesis Hw : forall d a, In (d, a) WP -> exists v, get_weight h d a = Ok (AVar v) /\ List.length (shp v) = 2.
Hypothesis Ha : forall d a, In (d, a) AP -> exists n f, get_act h d a = Ok (Raw n f) /\ declared n <> None.
Definition okvar (p : nat * string) (x : nat * quantizer * option ranges) : Prop :=
  let '(v, q, r) := x in get_weight h (fst p) (snd p) = Ok (AVar v) /\ List.length (shp v) = 2 /\ q = rq_weight_quantizer c /\ fits q (shp v) r.
Definition okact (p : nat * string) (x : qact) : Prop :=
  exists n f, get_act h (fst p) (snd p) = Ok (Raw n f) /\ a_name x = n /\ a_fun x = f /\ a_quantizer x = rq_activation_quantizer c.
Record rinv (w : rqwrapper) : Prop := {
  ri_cfg : rw_cfg w = c; ri_layer : rw_layer w = l;
  ri_vars : Forall2 okvar WP (rw_vars w);
  ri_acts : Forall2 okact AP (rw_acts w);
  ri_w : forall d a v, In (d, a) WP -> get_weight h d a = Ok (AVar v) -> get_weight (rw_heap w) d a = Ok (AVar v) \/ exists t, get_weight (rw_heap w) d a = Ok (ATensor t) /\ shape t = shp v;
  ri_w' : forall d a, ~ In (d, a) WP -> get_weight (rw_heap w) d a = get_weight h d a;
  ri_a' : forall d a, ~ In (d, a) AP -> get_act (rw_heap w) d a = get_act h d a }.
Lemma wu v : List.length (shp v) = 2 -> well_used (rq_weight_quantizer c) (shp v).
Proof. intros E. split; [auto|]. cbn. exact Bw. Qed.
Lemma rbuild st : (forall v, shape (st v) = shp v) -> exists w, build_rq c st h l = Ok w /\ rinv w.
Proof.
  intros Es. unfold build_rq, get_weights_and_quantizers, get_activations_and_quantizers. rewrite Ec. cbn [bind]. fold WP AP.
  assert (X : exists ws vars, mapM (fun p => do w <- get_weight h (fst p) (snd p) ;; Ok (w, rq_weight_quantizer c)) WP = Ok ws /\
    mapM (fun wq => match fst wq with AVar v => do r <- build (snd wq) (Some (shape (st v))) ;; Ok (v, snd wq, r) | ATensor _ => Err AttributeError end) ws = Ok vars /\ Forall2 okvar WP vars).
  { clear - Hw Bw Es. induction WP as [|[d a] ps IH]; [exists [], []; repeat constructor|]. destruct IH as (ws & vars & E1 & E2 & F); [intros; apply Hw; now right|].
    destruct (Hw d a (or_introl eq_refl)) as (v & Hv & L2). cbn [mapM fst snd]. rewrite Hv. cbn [bind]. rewrite E1. cbn [bind].
    destruct (build_fits (rq_weight_quantizer c) (shp v) (wu v L2)) as (r & Eb & Fr). exists ((AVar v, rq_weight_quantizer c) :: ws), ((v, rq_weight_quantizer c, r) :: vars). split; [reflexivity|].
    split; [cbn [mapM fst snd]; rewrite Es, Eb; cbn [bind]; rewrite E2; reflexivity|]. constructor; [|exact F]. cbn [okvar fst snd]. auto. }
  destruct X as (ws & vars & -> & E2 & F). cbn [bind]. rewrite E2. cbn [bind].
  assert (Y : exists acs acts, mapM (fun p => do w <- get_act h (fst p) (snd p) ;; Ok (w, rq_activation_quantizer c)) AP = Ok acs /\
    mapM (fun aq => match fst aq with Raw n f => QuantizeAwareActivation n f (snd aq) | Aware _ => Err ValueError end) acs = Ok acts /\ Forall2 okact AP acts).
  { clear - Ha. induction AP as [|[d a] ps IH]; [exists [], []; repeat constructor|]. destruct IH as (ws & vars & E1 & E2 & F); [intros; apply Ha; now right|].
    destruct (Ha d a (or_introl eq_refl)) as (n & f & Hv & Dn). cbn [mapM fst snd]. rewrite Hv. cbn [bind]. rewrite E1. cbn [bind].
    assert (Z : exists qa, QuantizeAwareActivation n f (rq_activation_quantizer c) = Ok qa /\ a_name qa = n /\ a_fun qa = f /\ a_quantizer qa = rq_activation_quantizer c).
    { unfold QuantizeAwareActivation. rewrite (declared_sets n) in Dn. destruct (in_set n PRE_QUANT) eqn:Ep, (in_set n POST_QUANT) eqn:Eq, (in_set n NO_QUANT) eqn:En; cbn [orb negb]; cbn [build rq_activation_quantizer add_range_weights bind]; try (eexists; split; [reflexivity|]; auto; fail). exfalso. apply Dn. reflexivity. }
    destruct Z as (qa & Eq & Q1). exists ((Raw n f, rq_activation_quantizer c) :: ws), (qa :: vars). split; [reflexivity|]. split; [cbn [mapM fst snd]; rewrite Eq; cbn [bind]; rewrite E2; reflexivity|]. constructor; [|exact F]. exists n, f. auto. }
  destruct Y as (acs & acts & -> & E4 & G). cbn [bind]. rewrite E4. cbn [bind]. eexists. split; [reflexivity|]. constructor; cbn; auto.
Qed.
Lemma F2len {A B} (R : A -> B -> Prop) x y : Forall2 R x y -> List.length x = List.length y.
Proof. induction 1; cbn; congruence. Qed.
Lemma quantize_all st tr vars ps : (forall v, shape (st v) = shp v) -> Forall2 okvar ps vars ->
  exists qs, mapM (quantize_weight st tr) vars = Ok qs /\ Forall2 (fun p x => okvar p (snd x) /\ shape (fst x) = shp (fst (fst (snd x)))) ps qs /\
    Forall2 (fun x y => exists v q r r', x = (v, q, r) /\ snd y = (v, q, r') /\ call q tr r (st v) = Ok (fst y, r')) vars qs.
Proof.
  intros Es F. induction F as [|p [[v q] r] ps vars Hp F IH]; [exists []; repeat constructor|]. destruct IH as (qs & E & G & K). destruct Hp as (H1 & H2 & -> & H4).
  destruct (call_fits (rq_weight_quantizer c) (st v) tr r) as (y & r' & Ey & Sy & Fy); [rewrite Es; now apply wu|now rewrite Es|]. cbn [mapM]. unfold quantize_weight at 1. rewrite Ey. cbn [bind]. rewrite E. cbn [bind].
  eexists. split; [reflexivity|]. split; constructor; auto.
  - cbn [okvar fst snd]. rewrite <- (Es v). repeat split; auto; now rewrite Es.
  - exists v, (rq_weight_quantizer c), r, r'. auto.
Qed.
Definition stepped (st : store) (tr : bool) (w w' : rqwrapper) : Prop :=
  (forall d a v, In (d, a) WP -> get_weight h d a = Ok (AVar v) -> exists r y r', In (v, rq_weight_quantizer c, r) (rw_vars w) /\ call (rq_weight_quantizer c) tr r (st v) = Ok (y, r') /\ get_weight (rw_heap w') d a = Ok (ATensor y)) /\
  (forall d a n f, In (d, a) AP -> get_act h d a = Ok (Raw n f) -> exists k qa, get_act (rw_heap w') d a = Ok (Aware k) /\ nth_error (rw_acts w') k = Some qa /\ a_name qa = n /\ a_fun qa = f /\ a_quantizer qa = rq_activation_quantizer c).
Lemma rcall st w tr : (forall v, shape (st v) = shp v) -> rinv w -> exists w', call_rq st w tr = Ok w' /\ rinv w' /\ rw_acts w' = rw_acts w /\ stepped st tr w w'.
Proof.
  intros Es [I1 I2 I3 I4 I5 I6 I7]. unfold call_rq. destruct (quantize_all st tr _ _ Es I3) as (qs & -> & G & K). cbn [bind]. rewrite I1, I2. unfold set_quantize_weights, set_quantize_activations. rewrite Ec.
  assert (Lq : List.length WP = List.length (map fst qs)) by (rewrite map_length; now apply F2len in G). assert (LL : List.length WP = List.length (List.concat (rq_weight_attrs c))) by (now apply loop_length). rewrite <- LL, <- Lq, Nat.eqb_refl. cbn [negb]. fold WP.
  assert (AT : forall k d a u, nth_error WP k = Some (d, a) -> nth_error (map fst qs) k = Some u -> exists v r r', get_weight h d a = Ok (AVar v) /\ In (v, rq_weight_quantizer c, r) (rw_vars w) /\ call (rq_weight_quantizer c) tr r (st v) = Ok (u, r') /\ shape u = shp v).
  { intros k d a u Hk Hu. rewrite nth_error_map in Hu. destruct (nth_error qs k) as [x|] eqn:Ex; [|discriminate]. cbn in Hu. injection Hu as <-. pose proof (Forall2_nth _ _ _ _ _ _ G Hk Ex) as [O S1]. cbv beta in S1.
    destruct (Forall2_nth_l _ _ _ _ _ I3 Hk) as (x' & Ex' & _). pose proof (Forall2_nth _ _ _ _ _ _ K Ex' Ex) as (v & q & r & r' & -> & Ey & Ecl). destruct x as [u y]. cbn [fst snd] in *. subst y. destruct O as (O1 & O2 & -> & O4). exists v, r, r'. split; [exact O1|]. split; [now apply nth_error_In in Ex'|]. auto. }
  assert (Eset : exists h1, set_loop st (rw_heap w) WP (map fst qs) = (h1, Ok tt)).
  { apply set_loop_ok with (shp := fun d a => match get_weight h d a with Ok (AVar v) => shp v | _ => [] end); [exact Lq| |].
    - intros d a Hin. destruct (Hw d a Hin) as (v & Hv & L2). rewrite Hv. destruct (I5 d a v Hin Hv) as [-> | (t & -> & St)]; eexists; (split; [reflexivity|]); cbn; auto.
    - intros k d a u Hk Hu. destruct (AT k d a u Hk Hu) as (v & r & r' & -> & _ & _ & S1). exact S1. }
  destruct Eset as (h1 & E1). rewrite E1. cbn [bind].
  assert (LA : List.length AP = List.length (rw_acts w)) by now apply F2len in I4. assert (LAc : List.length AP = List.length (List.concat (rq_activation_attrs c))) by (now apply loop_length).
  rewrite map_length, seq_length, <- LAc, <- LA, Nat.eqb_refl. cbn [negb]. fold AP. destruct (set_act_ok AP h1 (map Aware (seq 0 (List.length AP)))) as (h2 & E2); [now rewrite map_length, seq_length|]. rewrite E2. cbn [bind].
  destruct (set_loop_spec _ _ _ _ _ E1) as (S1 & S2 & S3). destruct (set_act_spec _ _ _ _ E2) as (T1 & T2 & T3).
  eexists. split; [reflexivity|]. split; [|split; [reflexivity|]].
  - constructor; cbn [rw_cfg rw_layer rw_vars rw_acts rw_heap]; auto.
    + clear - G. induction G as [|p x ps qs [H _] G IH]; cbn [map]; constructor; auto.
    + intros d a v Hin Hv. right. destruct (S1 d a Hin) as (k & u & Hk & Hu & Eu). destruct (AT k d a u Hk Hu) as (v' & r & r' & Hv' & _ & _ & Su). exists u. rewrite T3, Eu. split; [reflexivity|]. congruence.
    + intros d a Hn. rewrite T3, S2 by exact Hn. auto.
    + intros d a Hn. rewrite T2 by exact Hn. rewrite S3. auto.
  - split; cbn [rw_heap rw_acts].
    + intros d a v Hin Hv. destruct (S1 d a Hin) as (k & u & Hk & Hu & Eu). destruct (AT k d a u Hk Hu) as (v' & r & r' & Hv' & Hin' & Ecl & _). rewrite Hv in Hv'. injection Hv' as <-. exists r, u, r'. rewrite T3. auto.
    + intros d a n f Hin Hv. destruct (T1 d a Hin) as (k & x & Hk & Hx & Ex). rewrite nth_error_map in Hx. destruct (nth_error (seq 0 _) k) as [m|] eqn:Em; [|discriminate]. cbn in Hx. injection Hx as <-.
      assert (m = k). { pose proof (nth_error_nth _ _ 0 Em) as N. rewrite seq_nth in N; [lia|]. assert (k < List.length (seq 0 (List.length AP))) by (apply nth_error_Some; congruence). now rewrite seq_length in *. } subst m.
      destruct (Forall2_nth_l _ _ _ _ _ I4 Hk) as (qa & Hqa & n' & f' & Hg & Q1 & Q2 & Q3). cbn [fst snd] in Hg. rewrite Hv in Hg. injection Hg as <- <-. exists k, qa. auto.
Qed.
Lemma rrun evs : forall st w, (forall v, shape (st v) = shp v) -> (forall st', In (RUpdate st') evs -> forall v, shape (st' v) = shp v) -> rinv w ->
  exists w', run_rq st w evs = Ok (final_store st evs, w') /\ rinv w' /\ (forall v, shape (final_store st evs v) = shp v).
Proof.
  induction evs as [|[tr|st'] evs IH]; intros st w Es Eu Iw; cbn [run_rq final_store]; [eauto| |].
  - destruct (rcall st w tr Es Iw) as (w' & -> & Iw' & _). cbn [bind]. apply IH; auto. intros st' Hin. apply Eu. now right.
  - apply IH; auto; [apply Eu; now left|]. intros st'' Hin. apply Eu. now right.
Qed.
End W.

Theorem rq_forward : forall c st0 h l evs tr, 2 <= rq_weight_bits c <= 16 -> one_list_per_cell (rq_weight_attrs c) l -> one_list_per_cell (rq_activation_attrs c) l ->
  suits c st0 h l -> keeps_shapes st0 evs ->
  exists w0 w1 w2, build_rq c st0 h l = Ok w0 /\ run_rq st0 w0 evs = Ok (final_store st0 evs, w1) /\ call_rq (final_store st0 evs) w1 tr = Ok w2 /\
    (forall d a v, declared_for (rq_weight_attrs c) l d a -> holds_weight h d a (AVar v) ->
       exists r y r', In (v, rq_weight_quantizer c, r) (rw_vars w1) /\ call (rq_weight_quantizer c) tr r (final_store st0 evs v) = Ok (y, r') /\ holds_weight (rw_heap w2) d a (ATensor y)) /\
    (forall d a n f, declared_for (rq_activation_attrs c) l d a -> holds_act h d a (Raw n f) ->
       exists k qa, holds_act (rw_heap w2) d a (Aware k) /\ nth_error (rw_acts w2) k = Some qa /\ a_name qa = n /\ a_fun qa = f /\ a_quantizer qa = rq_activation_quantizer c) /\
    (forall d a, ~ declared_for (rq_weight_attrs c) l d a -> get_weight (rw_heap w2) d a = get_weight h d a) /\
    (forall d a, ~ declared_for (rq_activation_attrs c) l d a -> get_act (rw_heap w2) d a = get_act h d a).
Proof.
  intros c st0 h l evs tr Bw Ow Oa [Sw Sa] Ks. destruct (one_list_len _ _ Ow) as (cells & Ec & Lw & Iw). destruct (one_list_len _ _ Oa) as (cells' & Ec' & La & Ia). rewrite Ec in Ec'. injection Ec' as <-.
  set (shp := fun v => shape (st0 v)).
  assert (Hw : forall d a, In (d, a) (loop (rq_weight_attrs c) cells) -> exists v, get_weight h d a = Ok (AVar v) /\ List.length (shp v) = 2) by (intros d a Hin; apply Sw; now apply Iw).
  assert (Ha : forall d a, In (d, a) (loop (rq_activation_attrs c) cells) -> exists n f, get_act h d a = Ok (Raw n f) /\ declared n <> None) by (intros d a Hin; apply Sa; now apply Ia).
  destruct (rbuild c h l cells shp Ec Bw Hw Ha st0 (fun v => eq_refl)) as (w0 & B & I0).
  destruct (rrun c h l cells shp Ec Bw Lw La Hw Ha evs st0 w0 (fun v => eq_refl) Ks I0) as (w1 & R & I1 & Es).
  destruct (rcall c h l cells shp Ec Bw Lw La Hw Ha (final_store st0 evs) w1 tr Es I1) as (w2 & C & I2 & _ & S1 & S2).
  exists w0, w1, w2. split; [exact B|]. split; [exact R|]. split; [exact C|]. split; [|split; [|split]].
  - intros d a v Hd Hv. apply Iw in Hd. exact (S1 d a v Hd Hv).
  - intros d a n f Hd Hv. apply Ia in Hd. exact (S2 d a n f Hd Hv).
  - intros d a Hd. apply (ri_w' _ _ _ _ _ _ I2). intros X. apply Hd. now apply Iw.
  - intros d a Hd. apply (ri_a' _ _ _ _ _ _ I2). intros X. apply Hd. now apply Ia.
Qed.
