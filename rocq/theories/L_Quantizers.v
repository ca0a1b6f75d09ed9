(** Lemmas about quantizers. *)
From Verif Require Import Base M_Num L_Num M_Tensor L_Tensor M_Stages L_Stages M_Quant S_Quant L_Quant.
Open Scope Q_scope.

Lemma reduce_le l : reduce_min l <= reduce_max l.
Proof.
  destruct l as [|a r]; [cbn; lra|]. destruct (reduce_min_spec (a :: r)) as [A B]; [discriminate|]. destruct (reduce_max_spec (a :: r)) as [C D]; [discriminate|].
  apply (Qle_trans _ _ _ (B a (or_introl eq_refl))). apply D. now left.
Qed.
Definition ordered (w : ranges) : Prop := Forall (fun p => fst p <= snd p) (range_list w).
Definition zero_in (w : ranges) : Prop := Forall (fun p => fst p <= 0 /\ 0 <= snd p) (range_list w).
Lemma batch_ordered pc x b : batch_ranges pc x = Ok b -> ordered b.
Proof.
  unfold batch_ranges, ordered. destruct pc.
  - destruct (rank x) as [|[|[|[|[|]]]]]; try discriminate; intros [= <-]; cbn.
    + constructor; [cbn; lra|constructor].
    + apply Forall_forall. intros p H. apply in_map_iff in H. destruct H as (v & <- & _). cbn; lra.
    + apply Forall_forall. intros p H. apply in_map_iff in H. destruct H as (v & <- & _). apply reduce_le.
    + apply Forall_forall. intros p H. apply in_map_iff in H. destruct H as (v & <- & _). apply reduce_le.
  - intros [= <-]. constructor; [apply reduce_le|constructor].
Qed.
Lemma ratio_neg bits narrow : (2 <= bits)%nat -> min_max_ratio bits narrow < 0.
Proof.
  intros B. unfold min_max_ratio. destruct narrow; [lra|]. apply pow_ge4 in B.
  assert (0 < inject_Z (2 ^ Z.of_nat bits - 2) / inject_Z (2 ^ Z.of_nat bits)); [|lra].
  apply div_pos_lt; change 0 with (inject_Z 0); apply inj_lt; lia.
Qed.
Lemma div_neg_le a r : r < 0 -> 0 <= a -> a / r <= 0.
Proof. intros R A. assert (a / r == - (a / - r)) as -> by (field; lra). assert (0 <= a / - r) by (apply Qle_shift_div_l; lra). lra. Qed.
Lemma mult_neg_ge a r : r < 0 -> a <= 0 -> 0 <= a * r.
Proof. intros R A. assert (a * r == (- a) * (- r)) as -> by ring. apply Qmult_le_0_compat; lra. Qed.
Lemma widen_zero sym bits narrow lo hi : (2 <= bits)%nat -> lo <= hi -> fst (widen sym bits narrow lo hi) <= 0 /\ 0 <= snd (widen sym bits narrow lo hi).
Proof.
  intros B L. unfold widen. destruct sym; cbn [fst snd].
  - pose proof (ratio_neg bits narrow B) as R. split.
    + destruct (qmin_spec lo (hi / min_max_ratio bits narrow)) as [[C ->]|[C ->]].
      * destruct (Qlt_le_dec 0 lo) as [P|P]; [|auto]. assert (hi / min_max_ratio bits narrow <= 0) by (apply div_neg_le; lra). lra.
      * destruct (Qlt_le_dec hi 0) as [P|P]; [|apply div_neg_le; auto]. lra.
    + destruct (qmax_spec hi (lo * min_max_ratio bits narrow)) as [[C ->]|[C ->]].
      * destruct (Qlt_le_dec 0 lo) as [P|P]; [lra|]. apply mult_neg_ge; auto.
      * destruct (Qlt_le_dec hi 0) as [P|P]; [|auto]. assert (0 <= lo * min_max_ratio bits narrow) by (apply mult_neg_ge; lra). lra.
  - split; [destruct (qmin_spec lo 0) as [[? ->]|[? ->]]; lra|destruct (qmax_spec hi 0) as [[? ->]|[? ->]]; lra].
Qed.
(** Symmetric widening: hi = r * lo. *)
Lemma widen_symmetric bits narrow lo hi : (2 <= bits)%nat -> snd (widen true bits narrow lo hi) == min_max_ratio bits narrow * fst (widen true bits narrow lo hi).
Proof.
  intros B. unfold widen. cbn [fst snd]. pose proof (ratio_neg bits narrow B) as R. set (r := min_max_ratio bits narrow) in *.
  assert (forall a b, a <= b / r <-> b <= a * r) as X.
  { intros a b. assert (b / r == - (b / - r)) as -> by (field; lra). split; intros H.
    - assert (b / - r <= - a) as H' by lra. apply Qmult_le_r with (z := - r) in H'; [|lra]. assert (b / - r * - r == b) as E by (field; lra). rewrite E in H'. lra.
    - assert (b / - r <= - a); [|lra]. apply Qle_shift_div_r; lra. }
  destruct (qmin_spec lo (hi / r)) as [[C ->]|[C ->]]; destruct (qmax_spec hi (lo * r)) as [[D ->]|[D ->]].
  - ring. - apply X in C. lra. - apply X in D. lra. - field. lra.
Qed.
Lemma widen_all_symmetric bits narrow lo hi : (2 <= bits)%nat -> snd (widen_all true bits narrow lo hi) == min_max_ratio bits narrow * fst (widen_all true bits narrow lo hi).
Proof.
  intros B. unfold widen_all. cbn [fst snd]. pose proof (ratio_neg bits narrow B) as R. set (r := min_max_ratio bits narrow) in *.
  assert (hi / r * r == hi) as E by (field; lra).
  destruct (qmin_spec lo (hi / r)) as [[C ->]|[C ->]].
  - assert (hi <= lo * r). { assert ((hi / r - lo) * - r >= 0) by (apply Qmult_le_0_compat; lra). lra. }
    destruct (qmax_spec hi (lo * r)) as [[D ->]|[D ->]]; lra.
  - destruct (qmax_spec hi (hi / r * r)) as [[D ->]|[D ->]]; lra.
Qed.

Lemma fq_bits bits narrow pc w x y : FakeQuantWithMinMaxVars bits narrow pc w x = Ok y -> (2 <= bits <= 16)%nat.
Proof.
  unfold FakeQuantWithMinMaxVars. destruct pc, w; try discriminate.
  - destruct ((2 <=? bits) && (bits <=? 16))%nat eqn:E; cbn; [|discriminate]. apply andb_true_iff in E. destruct E as [A B]. apply Nat.leb_le in A, B. auto.
  - destruct ((2 <=? bits) && (bits <=? 16))%nat eqn:E; cbn; [|discriminate]. apply andb_true_iff in E. destruct E as [A B]. apply Nat.leb_le in A, B. auto.
Qed.

(** Pointwise invariants through assignment. *)
Definition rall (P : Q * Q -> Prop) (w : ranges) := Forall P (range_list w).
Lemma rall_rmap (P Q0 : Q * Q -> Prop) f w : (forall a b, P (a, b) -> Q0 (f a b)) -> rall P w -> rall Q0 (rmap f w).
Proof.
  intros H. unfold rall. destruct w as [a b|l]; cbn.
  - intros F. inversion F; subst. specialize (H a b H2). destruct (f a b). repeat constructor; auto.
  - intros F. apply Forall_forall. intros p Hp. apply in_map_iff in Hp. destruct Hp as ([a b] & <- & I). apply H. rewrite Forall_forall in F. auto.
Qed.
Lemma rall_assign (P Q1 Q2 : Q * Q -> Prop) f w v w' : (forall a b, P a -> Q1 b -> Q2 (f a b)) -> rall P w -> rall Q1 v -> assign_with f w v = Ok w' -> rall Q2 w'.
Proof.
  intros H. unfold rall, assign_with. destruct w as [a b|l], v as [c d|m]; try discriminate; cbn.
  - intros F G. inversion F; inversion G; subst. destruct (f (a, b) (c, d)) as [x y] eqn:E. intros [= <-]. cbn. constructor; [|constructor]. rewrite <- E. auto.
  - intros F G. destruct (length l =? length m)%nat; [|discriminate]. intros [= <-]. cbn. revert m G. induction F as [|x l Px F IH]; intros [|y m] G; cbn; try constructor.
    + inversion G; subst. auto. + inversion G; subst. auto.
Qed.
Lemma rall_true w : rall (fun _ => True) w.
Proof. apply Forall_forall. auto. Qed.
Lemma rall_impl (P Q0 : Q * Q -> Prop) w : (forall p, P p -> Q0 p) -> rall P w -> rall Q0 w.
Proof. intros H. unfold rall. apply Forall_impl. exact H. Qed.

(** The update each class performs in training. *)
Definition upd (q : quantizer) (x : tensor Q) (w w' : ranges) : Prop :=
  match q with
  | LastValueQuantizer c b pa sy na =>
      exists r, (2 <= b)%nat /\ batch_ranges pa (match c with CConvTransposeWeights => transpose 0 [0; 1; 3; 2]%nat x | _ => x end) = Ok r /\
        assign_with (fun _ n => n) w (rmap (widen sy b na) r) = Ok w'
  | MovingAverageQuantizer b pa sy na =>
      exists r, (2 <= b)%nat /\ batch_ranges pa x = Ok r /\ assign_with (fun v n => (ema1 (999#1000) (fst v) (fst n), ema1 (999#1000) (snd v) (snd n))) w (rmap (widen sy b na) r) = Ok w'
  | AllValuesQuantizer b _ sy na =>
      exists r, (2 <= b)%nat /\ batch_ranges false x = Ok r /\ assign_with (fun v n => (qmin (qmin (fst v) (fst n)) 0, qmax (qmax (snd v) (snd n)) 0)) w (rmap (widen_all sy b na) r) = Ok w'
  | _ => w' = w
  end.
Lemma call_upd q tr w x y w' : call q tr w x = Ok (y, w') ->
  match w, w' with
  | Some v, Some v' => if tr then upd q x v v' else v' = v
  | None, None => True
  | _, _ => False
  end.
Proof.
  destruct q as [c b pa sy na|b pa sy na|b pa sy na|b lo hi na|]; cbn [call].
  - assert (forall x' (k : tensor Q -> tensor Q) , (do w0 <- need_w w;; (do (y0, w1) <- LastValueQuantize b pa sy na tr w0 x' ;; Ok (k y0, Some w1))) = Ok (y, w') ->
      match w, w' with
      | Some v, Some v' => if tr then exists r, (2 <= b)%nat /\ batch_ranges pa x' = Ok r /\ assign_with (fun _ n => n) v (rmap (widen sy b na) r) = Ok v' else v' = v
      | None, None => True
      | _, _ => False end) as G.
    { intros x' k. destruct w as [v|]; cbn [need_w bind]; [|discriminate]. unfold LastValueQuantize. destruct tr; cbn [negb].
      - destruct (batch_ranges pa x') as [r|] eqn:Er; cbn [bind]; [|discriminate]. destruct (assign_with _ _ _) as [v'|] eqn:Ea; cbn [bind]; [|discriminate].
        destruct (FakeQuantWithMinMaxVars _ _ _ _ _) eqn:Ef; cbn [bind]; [|discriminate]. intros [= _ <-]. apply fq_bits in Ef. exists r. intuition.
      - destruct (FakeQuantWithMinMaxVars _ _ _ _ _) eqn:Ef; cbn [bind]; [|discriminate]. intros [= _ <-]. reflexivity. }
    destruct c; cbn [upd].
    + intros H. apply (G x (fun t => t)). unfold lift in H. exact H.
    + intros H. apply (G x (fun t => t)). unfold lift in H. exact H.
    + destruct (Nat.eqb (rank x) 4); cbn [negb]; [|discriminate]. intros H. apply (G _ (transpose 0 [0; 1; 3; 2]%nat)). exact H.
  - destruct w as [v|]; cbn [need_w bind]; [|discriminate]. unfold MovingAvgQuantize, lift. destruct tr; cbn [negb].
    + destruct (batch_ranges pa x) as [r|] eqn:Er; cbn [bind]; [|discriminate]. destruct (assign_with _ _ _) as [v'|] eqn:Ea; cbn [bind]; [|discriminate].
      destruct (FakeQuantWithMinMaxVars _ _ _ _ _) eqn:Ef; cbn [bind]; [|discriminate]. intros [= _ <-]. apply fq_bits in Ef. exists r. intuition.
    + destruct (FakeQuantWithMinMaxVars _ _ _ _ _) eqn:Ef; cbn [bind]; [|discriminate]. intros [= _ <-]. reflexivity.
  - destruct w as [v|]; cbn [need_w bind]; [|discriminate]. unfold AllValuesQuantize, lift. destruct tr; cbn [negb].
    + destruct (batch_ranges false x) as [r|] eqn:Er; cbn [bind]; [|discriminate]. destruct (assign_with _ _ _) as [v'|] eqn:Ea; cbn [bind]; [|discriminate].
      destruct (FakeQuantWithMinMaxVars _ _ _ _ _) eqn:Ef; cbn [bind]; [|discriminate]. intros [= _ <-]. apply fq_bits in Ef. exists r. intuition.
    + destruct (FakeQuantWithMinMaxVars _ _ _ _ _) eqn:Ef; cbn [bind]; [|discriminate]. intros [= _ <-]. reflexivity.
  - destruct (FixedQuantize lo hi na x); cbn [bind]; [|discriminate]. intros [= _ <-]. destruct w; [destruct tr; reflexivity|exact I].
  - intros [= _ <-]. destruct w; [destruct tr; reflexivity|exact I].
Qed.
(** Induction over histories. *)
Lemma run_ind q (P : ranges -> Prop) : (forall x v v', upd q x v v' -> P v -> P v') ->
  forall calls v w, P v -> run q (Some v) calls = Ok w -> exists v', w = Some v' /\ P v'.
Proof.
  intros H calls. induction calls as [|[tr x] r IH]; intros v w Pv; cbn [run]; [intros [= <-]; eauto|].
  destruct (call q tr (Some v) x) as [[y w']|] eqn:E; cbn [bind]; [|discriminate]. apply call_upd in E. destruct w' as [v'|]; [|contradiction].
  apply IH. destruct tr; [eapply H; eauto|subst; auto].
Qed.
Lemma run_none q calls w : run q None calls = Ok w -> w = None.
Proof.
  revert w. induction calls as [|[tr x] r IH]; intros w; cbn [run]; [intros [= <-]; auto|].
  destruct (call q tr None x) as [[y w']|] eqn:E; cbn [bind]; [|discriminate]. apply call_upd in E. destruct w' as [v'|]; [contradiction|]. apply IH.
Qed.
Lemma ema_nonpos v x : v <= 0 -> x <= 0 -> ema1 (999#1000) v x <= 0. Proof. unfold ema1. lra. Qed.
Lemma ema_nonneg v x : 0 <= v -> 0 <= x -> 0 <= ema1 (999#1000) v x. Proof. unfold ema1. lra. Qed.
Lemma upd_zero_in q x v v' : upd q x v v' -> zero_in v -> zero_in v'.
Proof.
  intros U Z. destruct q as [c b pa sy na|b pa sy na|b pa sy na|b lo hi na|]; cbn [upd] in U; try (subst; exact Z).
  - destruct U as (r & B & E & A). apply batch_ordered in E.
    eapply (rall_assign (fun _ => True) (fun p => fst p <= 0 /\ 0 <= snd p) _ _ v); [|apply rall_true| |exact A]; [auto|].
    eapply rall_rmap; [|exact E]. intros a b0 L. apply widen_zero; auto.
  - destruct U as (r & B & E & A). apply batch_ordered in E.
    eapply (rall_assign (fun p => fst p <= 0 /\ 0 <= snd p) (fun p => fst p <= 0 /\ 0 <= snd p)); [|exact Z| |exact A].
    + intros a b0 [A1 A2] [B1 B2]. cbn. split; [apply ema_nonpos|apply ema_nonneg]; auto.
    + eapply rall_rmap; [|exact E]. intros a b0 L. apply widen_zero; auto.
  - destruct U as (r & B & E & A).
    eapply (rall_assign (fun _ => True) (fun _ => True)); [|apply rall_true|apply rall_true|exact A]. intros a b0 _ _. cbn.
    split; [match goal with |- qmin ?u 0 <= 0 => destruct (qmin_spec u 0) as [[? ->]|[? ->]] end; lra|match goal with |- 0 <= qmax ?u 0 => destruct (qmax_spec u 0) as [[? ->]|[? ->]] end; lra].
Qed.
Lemma build_zero_in q shp w : build q shp = Ok (Some w) -> zero_in w.
Proof.
  assert (zero_in (Scalar (-6) 6)) as Z6 by (repeat constructor; cbn; lra).
  assert (forall pa s r, add_range_weights pa s = Ok r -> zero_in r) as H.
  { intros pa s r. unfold add_range_weights. destruct pa; [|intros [= <-]; exact Z6]. destruct s as [[|d s]|]; [discriminate| |intros [= <-]; exact Z6].
    intros [= <-]. apply Forall_forall. intros p Hp. apply repeat_spec in Hp. subst. cbn. lra. }
  destruct q as [c b pa sy na|b pa sy na|b pa sy na|b lo hi na|]; cbn [build].
  - destruct c.
    + destruct (add_range_weights pa shp) as [r|] eqn:E; cbn; [|discriminate]. intros [= <-]. eauto.
    + destruct shp as [s|]; [|discriminate]. destruct (add_range_weights true (Some s)) as [r|] eqn:E; cbn [bind]; [|discriminate]. intros [= <-]. eauto.
    + destruct (add_range_weights pa shp) as [r|] eqn:E; cbn; [|discriminate]. intros [= <-]. eauto.
  - intros [= <-]. exact Z6.
  - intros [= <-]. repeat constructor; cbn; lra.
  - discriminate. - discriminate.
Qed.
Theorem ranges_contain_zero q shp w0 calls w : build q shp = Ok w0 -> run q w0 calls = Ok w ->
  match w with Some r => forall lo hi, In (lo, hi) (range_list r) -> lo <= 0 <= hi | None => True end.
Proof.
  destruct w0 as [v|]; intros B R; [|apply run_none in R; subst; exact I].
  apply build_zero_in in B. eapply (run_ind q zero_in) in R as (v' & -> & Z); [|apply upd_zero_in|exact B].
  intros lo hi H. unfold zero_in in Z. rewrite Forall_forall in Z. apply (Z _ H).
Qed.
Definition sym_rel bits narrow (p : Q * Q) := snd p == min_max_ratio bits narrow * fst p.
Theorem last_value_symmetric c bits pa na w x y v' : call (LastValueQuantizer c bits pa true na) true w x = Ok (y, Some v') ->
  forall lo hi, In (lo, hi) (range_list v') -> hi == min_max_ratio bits na * lo.
Proof.
  intros E. apply call_upd in E. destruct w as [v|]; [|contradiction]. cbn [upd] in E. destruct E as (r & B & E & A).
  assert (rall (sym_rel bits na) v') as S.
  { eapply (rall_assign (fun _ => True) (sym_rel bits na)); [|apply rall_true| |exact A]; [auto|]. eapply rall_rmap with (P := fun _ => True); [|apply rall_true].
    intros a b _. now apply widen_symmetric. }
  intros lo hi H. unfold rall in S. rewrite Forall_forall in S. apply (S _ H).
Qed.
Lemma ratio_min r a b a' b' : r < 0 -> b == r * a -> b' == r * a' -> qmax b b' == r * qmin a a'.
Proof.
  intros R E E'. assert (forall u v, u <= v -> r * v <= r * u) as M. { intros u v L. assert ((v - u) * - r >= 0) by (apply Qmult_le_0_compat; lra). lra. }
  destruct (qmax_spec b b') as [[C ->]|[C ->]]; destruct (qmin_spec a a') as [[D ->]|[D ->]]; try lra.
  - specialize (M _ _ D). lra. - assert (a' <= a) as D' by lra. specialize (M _ _ D'). lra.
Qed.
Theorem all_values_symmetric bits pa na shp w0 calls v : build (AllValuesQuantizer bits pa true na) shp = Ok w0 -> run (AllValuesQuantizer bits pa true na) w0 calls = Ok (Some v) ->
  forall lo hi, In (lo, hi) (range_list v) -> hi == min_max_ratio bits na * lo.
Proof.
  intros [= <-] R. eapply (run_ind _ (rall (sym_rel bits na))) in R as (v' & [= <-] & S).
  - intros lo hi H. unfold rall in S. rewrite Forall_forall in S. apply (S _ H).
  - intros x u u' U Z. cbn [upd] in U. destruct U as (r & B & E & A).
    eapply (rall_assign (sym_rel bits na) (sym_rel bits na)); [|exact Z| |exact A].
    + intros [a1 a2] [b1 b2] A1 B1. unfold sym_rel in *. cbn in *. pose proof (ratio_neg bits na B) as Rn.
      apply ratio_min; [auto| |ring]. apply ratio_min; auto.
    + eapply rall_rmap with (P := fun _ => True); [|apply rall_true]. intros a b _. now apply widen_all_symmetric.
  - repeat constructor. unfold sym_rel. cbn. ring.
Qed.
Theorem moving_average_symmetric bits pa shp w0 calls v : build (MovingAverageQuantizer bits pa true true) shp = Ok w0 -> run (MovingAverageQuantizer bits pa true true) w0 calls = Ok (Some v) ->
  forall lo hi, In (lo, hi) (range_list v) -> hi == - lo.
Proof.
  intros [= <-] R. eapply (run_ind _ (rall (fun p => snd p == - fst p))) in R as (v' & [= <-] & S).
  - intros lo hi H. unfold rall in S. rewrite Forall_forall in S. apply (S _ H).
  - intros x u u' U Z. cbn [upd] in U. destruct U as (r & B & E & A).
    eapply (rall_assign (fun p => snd p == - fst p) (fun p => snd p == - fst p)); [|exact Z| |exact A].
    + intros [a1 a2] [b1 b2] A1 B1. cbn in *. unfold ema1. rewrite A1, B1. ring.
    + eapply rall_rmap with (P := fun _ => True); [|apply rall_true]. intros a b _. rewrite (widen_symmetric bits true a b B). unfold min_max_ratio. ring.
  - repeat constructor.
Qed.
