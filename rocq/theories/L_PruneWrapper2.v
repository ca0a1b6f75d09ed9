(** Once training with the callback has begun, every later epoch end masks the weights. *)
From Verif Require Import Base M_Tensor M_Mask M_PruneWrapper S_PruneWrapper L_PruneWrapper.

Lemma prun_split a : forall m b m' xs, prun m (a ++ b) = (m', xs) -> exists m1 ys zs, prun m a = (m1, ys) /\ prun m1 b = (m', zs) /\ xs = ys ++ zs.
Proof.
  induction a as [|e a IH]; intros m b m' xs H; cbn [app prun] in *; [exists m, [], xs; auto|].
  destruct (pstep m e) as [m1 x]. destruct (prun m1 (a ++ b)) as [m2 ys] eqn:F. injection H as <- <-. destruct (IH _ _ _ _ F) as (m3 & us & vs & -> & F2 & ->). exists m3, (x :: us), vs. auto.
Qed.
Lemma collected_kept e m m' x : pstep m e = (m', x) -> pm_collected m = true -> pm_collected m' = true.
Proof.
  destruct e; cbn [pstep]; intros H C.
  - injection H as <- <-. reflexivity.
  - destruct (forward true (pm_layers m)) as [ls y]. injection H as <- <-. exact C.
  - destruct (forward false (pm_layers m)) as [ls y]. injection H as <- <-. exact C.
  - injection H as <- <-. exact C.
  - injection H as <- <-. unfold on_epoch_end. rewrite C. reflexivity.
Qed.
Lemma collected_run es : forall m m' xs, prun m es = (m', xs) -> pm_collected m = true -> pm_collected m' = true.
Proof.
  induction es as [|e es IH]; intros m m' xs H C; cbn [prun] in H; [injection H as <- <-; exact C|].
  destruct (pstep m e) as [m1 x] eqn:E. destruct (prun m1 es) as [m2 ys] eqn:F. injection H as <- <-. apply (IH _ _ _ F). exact (collected_kept _ _ _ _ E C).
Qed.
Lemma every_epoch_end m es1 es2 m2 xs : model_ok m -> prun m (es1 ++ TrainBegin :: es2 ++ [EpochEnd]) = (m2, xs) -> all_masked m2.
Proof.
  intros O H. replace (es1 ++ TrainBegin :: es2 ++ [EpochEnd]) with ((es1 ++ TrainBegin :: es2) ++ [EpochEnd]) in H by now rewrite <- app_assoc.
  destruct (prun_split _ _ _ _ _ H) as (m1 & ys & zs & R1 & R2 & _). cbn [prun] in R2. destruct (pstep m1 EpochEnd) as [m3 x] eqn:E. injection R2 as <- <-.
  apply (masked_after m (es1 ++ TrainBegin :: es2) m1 ys EpochEnd m3 x O R1 E). cbn. destruct (prun_split _ _ _ _ _ R1) as (m4 & us & vs & _ & R3 & _). cbn [prun pstep] in R3.
  destruct (prun _ es2) as [m5 ws] eqn:F. injection R3 as <- <-. now apply (collected_run _ _ _ _ F).
Qed.
