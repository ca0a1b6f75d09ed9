(** More lemmas about quantizers: histories, channels, levels, configurations. *)
From Verif Require Import Base M_Num L_Num M_Tensor L_Tensor M_Stages L_Stages M_Quant S_Quant L_Quant L_Quantizers.
Open Scope Q_scope.

(** AllValues without symmetry: extremes of everything seen. *)
Lemma min0_step l lo d : d <> [] -> is_min0 l lo -> is_min0 (l ++ d) (qmin (qmin lo (reduce_min d)) 0).
Proof.
  intros N (A & B & C). destruct (reduce_min_spec d N) as [D E].
  assert (qmin (qmin lo (reduce_min d)) 0 == lo \/ qmin (qmin lo (reduce_min d)) 0 == reduce_min d) as X.
  { destruct (qmin_spec lo (reduce_min d)) as [[? ->]|[? ->]]; match goal with |- context [qmin ?u 0] => destruct (qmin_spec u 0) as [[? ->]|[? ->]] end; lra. }
  assert (qmin (qmin lo (reduce_min d)) 0 <= lo /\ qmin (qmin lo (reduce_min d)) 0 <= reduce_min d) as [Y1 Y2].
  { destruct (qmin_spec lo (reduce_min d)) as [[? ->]|[? ->]]; match goal with |- context [qmin ?u 0] => destruct (qmin_spec u 0) as [[? ->]|[? ->]] end; lra. }
  split; [|split].
  - destruct X as [X|X].
    + destruct A as [A|(v & Hv & A)]; [left; lra|]. right. exists v. split; [apply in_or_app; auto|lra].
    + right. exists (reduce_min d). split; [apply in_or_app; auto|exact X].
  - lra.
  - intros v Hv. apply in_app_or in Hv. destruct Hv as [Hv|Hv]; [specialize (C v Hv); lra|specialize (E v Hv); lra].
Qed.
Lemma max0_step l lo d : d <> [] -> is_max0 l lo -> is_max0 (l ++ d) (qmax (qmax lo (reduce_max d)) 0).
Proof.
  intros N (A & B & C). destruct (reduce_max_spec d N) as [D E].
  assert (qmax (qmax lo (reduce_max d)) 0 == lo \/ qmax (qmax lo (reduce_max d)) 0 == reduce_max d) as X.
  { destruct (qmax_spec lo (reduce_max d)) as [[? ->]|[? ->]]; match goal with |- context [qmax ?u 0] => destruct (qmax_spec u 0) as [[? ->]|[? ->]] end; lra. }
  assert (lo <= qmax (qmax lo (reduce_max d)) 0 /\ reduce_max d <= qmax (qmax lo (reduce_max d)) 0) as [Y1 Y2].
  { destruct (qmax_spec lo (reduce_max d)) as [[? ->]|[? ->]]; match goal with |- context [qmax ?u 0] => destruct (qmax_spec u 0) as [[? ->]|[? ->]] end; lra. }
  split; [|split].
  - destruct X as [X|X].
    + destruct A as [A|(v & Hv & A)]; [left; lra|]. right. exists v. split; [apply in_or_app; auto|lra].
    + right. exists (reduce_max d). split; [apply in_or_app; auto|exact X].
  - lra.
  - intros v Hv. apply in_app_or in Hv. destruct Hv as [Hv|Hv]; [specialize (C v Hv); lra|specialize (E v Hv); lra].
Qed.
Lemma min0_of d : d <> [] -> is_min0 d (qmin (reduce_min d) 0).
Proof.
  intros N. destruct (reduce_min_spec d N) as [D E]. destruct (qmin_spec (reduce_min d) 0) as [[? ->]|[? ->]].
  - split; [right; exists (reduce_min d); split; [auto|reflexivity]|]. split; [lra|auto].
  - split; [left; reflexivity|]. split; [lra|]. intros v Hv. specialize (E v Hv). lra.
Qed.
Lemma max0_of d : d <> [] -> is_max0 d (qmax (reduce_max d) 0).
Proof.
  intros N. destruct (reduce_max_spec d N) as [D E]. destruct (qmax_spec (reduce_max d) 0) as [[? ->]|[? ->]].
  - split; [left; reflexivity|]. split; [lra|]. intros v Hv. specialize (E v Hv). lra.
  - split; [right; exists (reduce_max d); split; [auto|reflexivity]|]. split; [lra|auto].
Qed.
(** Induction over histories that keeps track of the training batches. *)
Lemma run_hist q (P : list (tensor Q) -> ranges -> Prop) : (forall h x v v', data x <> [] -> upd q x v v' -> P h v -> P (h ++ [x]) v') ->
  forall calls h v w, Forall (fun c => batch (snd c)) calls -> P h v -> run q (Some v) calls = Ok w -> exists v', w = Some v' /\ P (h ++ training_batches calls) v'.
Proof.
  intros H calls. induction calls as [|[tr x] r IH]; intros h v w F Pv; cbn [run].
  - intros [= <-]. cbn. rewrite app_nil_r. eauto.
  - inversion F as [|? ? [Fw Fd] F']; subst. destruct (call q tr (Some v) x) as [[y w']|] eqn:E; cbn [bind]; [|discriminate]. apply call_upd in E. destruct w' as [v'|]; [|contradiction].
    intros R. destruct tr; cbn.
    + replace (h ++ x :: map snd (filter fst r)) with ((h ++ [x]) ++ training_batches r) by (rewrite <- app_assoc; reflexivity). eapply IH; eauto.
    + subst. eapply IH; eauto.
Qed.
Theorem all_values_exact bits pa na shp w0 calls w : build (AllValuesQuantizer bits pa false na) shp = Ok w0 -> Forall (fun c => batch (snd c)) calls ->
  run (AllValuesQuantizer bits pa false na) w0 calls = Ok w ->
  exists lo hi, w = Some (Scalar lo hi) /\ is_min0 (List.concat (map data (training_batches calls))) lo /\ is_max0 (List.concat (map data (training_batches calls))) hi.
Proof.
  intros [= <-] F R.
  eapply (run_hist _ (fun h v => exists lo hi, v = Scalar lo hi /\ is_min0 (List.concat (map data h)) lo /\ is_max0 (List.concat (map data h)) hi)) with (h := []) in R as (v' & -> & (lo & hi & -> & A & B)); auto.
  - exists lo, hi. auto.
  - clear. intros h x v v' N U (lo & hi & -> & A & B). cbn [upd] in U. destruct U as (r & Bb & E & As). cbn in E. injection E as <-. cbn in As. injection As as <-.
    do 2 eexists. split; [reflexivity|]. rewrite map_app, concat_app. cbn. rewrite app_nil_r. split; [now apply min0_step|now apply max0_step].
  - exists 0, 0. repeat split; try lra; try (left; reflexivity); intros ? [].
Qed.
Theorem last_value_forgets c bits pa sy na w w2 x y v y2 v2 : call (LastValueQuantizer c bits pa sy na) true w x = Ok (y, v) ->
  call (LastValueQuantizer c bits pa sy na) true w2 x = Ok (y2, v2) -> y2 = y /\ v2 = v.
Proof.
  assert (forall l m, length l = length m -> zip_ranges (fun _ n => n) l m = m) as Z. { induction l; intros [|? ?] H; cbn in *; try discriminate; auto. f_equal. auto. }
  assert (forall u u2 r z z2, assign_with (fun _ n => n) u r = Ok z -> assign_with (fun _ n => n) u2 r = Ok z2 -> z = z2) as G.
  { intros u u2 r z z2. unfold assign_with. destruct u as [a b|l], u2 as [a2 b2|l2], r as [c0 d|m]; try discriminate.
    - intros [= <-] [= <-]. reflexivity.
    - destruct (Nat.eqb_spec (length l) (length m)); [|discriminate]. destruct (Nat.eqb_spec (length l2) (length m)); [|discriminate]. intros [= <-] [= <-]. now rewrite !Z. }
  assert (forall x, forall u u2 a b, LastValueQuantize bits pa sy na true u x = Ok a -> LastValueQuantize bits pa sy na true u2 x = Ok b -> a = b) as L.
  { clear x. intros x u u2 a b. unfold LastValueQuantize. cbn [negb]. destruct (batch_ranges pa x) as [r|]; cbn [bind]; [|discriminate].
    destruct (assign_with _ u _) as [z|] eqn:E1; cbn [bind]; [|discriminate]. destruct (assign_with _ u2 _) as [z2|] eqn:E2; cbn [bind]; [|discriminate].
    rewrite (G _ _ _ _ _ E1 E2). intros A B. congruence. }
  destruct w as [u|]; [|destruct c; cbn; try discriminate; destruct (rank x =? 4)%nat; discriminate].
  destruct w2 as [u2|]; [|destruct c; cbn; try discriminate; destruct (rank x =? 4)%nat; discriminate].
  destruct c; cbn [call need_w bind]; unfold lift.
  - destruct (LastValueQuantize _ _ _ _ _ u x) as [[? ?]|] eqn:E1; cbn [bind]; [|discriminate]. destruct (LastValueQuantize _ _ _ _ _ u2 x) as [[? ?]|] eqn:E2; cbn [bind]; [|discriminate].
    pose proof (L _ _ _ _ _ E1 E2) as X. injection X as -> ->. intros [= <- <-] [= <- <-]. auto.
  - destruct (LastValueQuantize _ _ _ _ _ u x) as [[? ?]|] eqn:E1; cbn [bind]; [|discriminate]. destruct (LastValueQuantize _ _ _ _ _ u2 x) as [[? ?]|] eqn:E2; cbn [bind]; [|discriminate].
    pose proof (L _ _ _ _ _ E1 E2) as X. injection X as -> ->. intros [= <- <-] [= <- <-]. auto.
  - destruct (rank x =? 4)%nat; cbn [negb]; [|discriminate].
    destruct (LastValueQuantize _ _ _ _ _ u _) as [[? ?]|] eqn:E1; cbn [bind]; [|discriminate]. destruct (LastValueQuantize _ _ _ _ _ u2 _) as [[? ?]|] eqn:E2; cbn [bind]; [|discriminate].
    pose proof (L _ _ _ _ _ E1 E2) as X. injection X as -> ->. intros [= <- <-] [= <- <-]. auto.
Qed.
Theorem last_value_range bits na w x y v : batch x -> call (LastValueQuantizer CLastValue bits false false na) true w x = Ok (y, v) ->
  exists lo hi, v = Some (Scalar lo hi) /\ is_min0 (data x) lo /\ is_max0 (data x) hi.
Proof.
  intros [_ N] E. destruct w as [u|]; [|discriminate E]. apply call_upd in E. destruct v as [v|]; [|contradiction]. cbn [upd] in E. destruct E as (r & B & E & A).
  cbn in E. injection E as <-. cbn in A. destruct u; cbn in A; [|discriminate]. injection A as <-. do 2 eexists. split; [reflexivity|].
  split; [now apply min0_of|now apply max0_of].
Qed.
Lemma exp_average_app d v xs x : exp_average d v (xs ++ [x]) = d * exp_average d v xs + (1 - d) * x.
Proof. revert v; induction xs as [|a r IH]; intros v; cbn; [reflexivity|]. apply IH. Qed.
Theorem moving_average_exact bits na shp w0 calls w : build (MovingAverageQuantizer bits false false na) shp = Ok w0 -> Forall (fun c => batch (snd c)) calls ->
  run (MovingAverageQuantizer bits false false na) w0 calls = Ok w ->
  exists lo hi los his, w = Some (Scalar lo hi) /\
    Forall2 (fun x m => is_min0 (data x) m) (training_batches calls) los /\ lo == exp_average (999#1000) (-6) los /\
    Forall2 (fun x m => is_max0 (data x) m) (training_batches calls) his /\ hi == exp_average (999#1000) 6 his.
Proof.
  intros [= <-] F R.
  eapply (run_hist _ (fun h v => exists lo hi los his, v = Scalar lo hi /\ Forall2 (fun x m => is_min0 (data x) m) h los /\ lo == exp_average (999#1000) (-6) los /\
    Forall2 (fun x m => is_max0 (data x) m) h his /\ hi == exp_average (999#1000) 6 his)) with (h := []) in R as (v' & -> & (lo & hi & los & his & -> & A)); auto.
  - exists lo, hi, los, his. auto.
  - clear. intros h x v v' N U (lo & hi & los & his & -> & A & B & C & D). cbn [upd] in U. destruct U as (r & Bb & E & As). cbn in E. injection E as <-. cbn in As. injection As as <-.
    exists (ema1 (999#1000) lo (qmin (reduce_min (data x)) 0)), (ema1 (999#1000) hi (qmax (reduce_max (data x)) 0)),
      (los ++ [qmin (reduce_min (data x)) 0]), (his ++ [qmax (reduce_max (data x)) 0]). split; [reflexivity|].
    split; [apply Forall2_app; [auto|constructor; [now apply min0_of|constructor]]|]. split; [rewrite exp_average_app, <- B; unfold ema1; ring|].
    split; [apply Forall2_app; [auto|constructor; [now apply max0_of|constructor]]|]. rewrite exp_average_app, <- D. unfold ema1. ring.
  - exists (-6), 6, [], []. repeat split; try constructor.
Qed.
Lemma exp_average_hull d a b xs : 0 <= d <= 1 -> forall v, a <= v <= b -> (forall x, In x xs -> a <= x <= b) -> a <= exp_average d v xs <= b.
Proof.
  intros [D0 D1]. induction xs as [|x r IH]; intros v V H; cbn; [auto|]. apply IH; [|intros; apply H; now right].
  destruct (H x (or_introl eq_refl)) as [X1 X2]. destruct V as [V1 V2].
  assert (0 <= d * (v - a) /\ 0 <= (1 - d) * (x - a) /\ 0 <= d * (b - v) /\ 0 <= (1 - d) * (b - x)) as (P1 & P2 & P3 & P4)
    by (repeat split; apply Qmult_le_0_compat; lra).
  split; lra.
Qed.

(** Inference and training outputs. *)
Theorem inference_keeps_state q w x y w' : call q false w x = Ok (y, w') -> w' = w.
Proof. intros E. apply call_upd in E. destruct w, w'; try contradiction; congruence. Qed.
Theorem training_output_uses_new_state q w x y w' : call q true w x = Ok (y, w') -> call q false w' x = Ok (y, w').
Proof.
  destruct q as [c b pa sy na|b pa sy na|b pa sy na|b lo hi na|]; cbn [call]; auto.
  - assert (forall u x' a, LastValueQuantize b pa sy na true u x' = Ok a -> LastValueQuantize b pa sy na false (snd a) x' = Ok a) as L.
    { intros u x' a. unfold LastValueQuantize. cbn [negb]. destruct (batch_ranges pa x') as [r|]; cbn [bind]; [|discriminate].
      destruct (assign_with _ _ _) as [z|]; cbn [bind]; [|discriminate]. destruct (FakeQuantWithMinMaxVars b na pa z x') eqn:E; cbn [bind]; [|discriminate].
      intros [= <-]. cbn. now rewrite E. }
    destruct c; destruct w as [u|]; cbn [need_w bind]; try discriminate; unfold lift.
    + destruct (LastValueQuantize _ _ _ _ true u x) as [[? ?]|] eqn:E; cbn [bind]; [|discriminate]. intros [= <- <-]. cbn [need_w bind]. apply L in E. cbn [snd] in E. now rewrite E.
    + destruct (LastValueQuantize _ _ _ _ true u x) as [[? ?]|] eqn:E; cbn [bind]; [|discriminate]. intros [= <- <-]. cbn [need_w bind]. apply L in E. cbn [snd] in E. now rewrite E.
    + destruct (rank x =? 4)%nat; cbn [negb]; [|discriminate].
      destruct (LastValueQuantize _ _ _ _ true u _) as [[? ?]|] eqn:E; cbn [bind]; [|discriminate]. intros [= <- <-]. cbn [need_w bind]. apply L in E. cbn [snd] in E. now rewrite E.
    + destruct (rank x =? 4)%nat; cbn [negb]; discriminate.
  - destruct w as [u|]; cbn [need_w bind]; [|discriminate]. unfold lift, MovingAvgQuantize. cbn [negb]. destruct (batch_ranges pa x) as [r|]; cbn [bind]; [|discriminate].
    destruct (assign_with _ _ _) as [z|]; cbn [bind]; [|discriminate]. destruct (FakeQuantWithMinMaxVars b na pa z x) eqn:E; cbn [bind]; [|discriminate].
    intros [= <- <-]. cbn [need_w bind]. now rewrite E.
  - destruct w as [u|]; cbn [need_w bind]; [|discriminate]. unfold lift, AllValuesQuantize. cbn [negb]. destruct (batch_ranges false x) as [r|]; cbn [bind]; [|discriminate].
    destruct (assign_with _ _ _) as [z|]; cbn [bind]; [|discriminate]. destruct (FakeQuantWithMinMaxVars b na false z x) eqn:E; cbn [bind]; [|discriminate].
    intros [= <- <-]. cbn [need_w bind]. now rewrite E.
  - destruct (FixedQuantize lo hi na x) as [z|]; cbn [bind]; [|discriminate]. intros [= <- <-]. reflexivity.
  - intros [= <- <-]. reflexivity.
Qed.
