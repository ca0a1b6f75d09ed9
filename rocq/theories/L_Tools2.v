From Coq Require Import String Ascii Qabs Qround.
From Verif Require Import Base M_Num M_Tensor L_Tensor M_Mask S_Mask L_Mask L_Block L_MbyN M_PruneWrapper S_PruneWrapper L_PruneWrapper M_Tools S_Tools L_Tools.
Open Scope list_scope.
Open Scope Q_scope.

Lemma ceil_div_one r b : (0 < r)%nat -> (0 < b)%nat -> ceil_div r b <> 1%nat <-> (b < r)%nat.
Proof.
  intros R B. unfold ceil_div. pose proof (Nat.div_mod (r + b - 1) b ltac:(lia)) as E. pose proof (Nat.mod_upper_bound (r + b - 1) b ltac:(lia)) as M.
  set (q := ((r + b - 1) / b)%nat) in *. split; intros H; [|intros ->; lia].
  destruct q as [|[|q]]; [nia|lia|nia].
Qed.
Lemma bench_blocks t bh bw w v r c : (bh, bw) <> (1, 1)%nat -> (0 < bh)%nat -> (0 < bw)%nat -> wf w -> shape w = [r; c] -> (bh < r)%nat -> (bw < c)%nat ->
  bench_var t [bh; bw] w v -> pruned_in_blocks t bh bw w v.
Proof.
  intros N Hh Hw W Sw Hr Hc (U & E). exists r, c.
  pose proof (block_constant (bench_pp [bh; bw]) t w r c bh bw _ _ eq_refl eq_refl N Hh Hw W Sw ltac:(lia) ltac:(lia) U) as (S1 & K & Z1).
  pose proof (block_mask_spec (bench_pp [bh; bw]) t w _ _ bh bw _ _ eq_refl eq_refl N Hh Hw W Sw ltac:(lia) ltac:(lia) U) as (Wm & _).
  split; auto. split; [congruence|]. split. { rewrite E. exact Sw. }
  split. { intros i j Hi Hj. assert (V : valid (shape w) [i; j]) by (rewrite Sw; apply valid2; auto).
    rewrite E, tget_tmul by congruence. destruct (Z1 i j Hi Hj) as [M|M]; rewrite M; [right|left]; split; auto; ring. }
  split; auto.
  intros kr kc -> ->. destruct (block_aligned (bench_pp [bh; bw]) t w kr kc bh bw _ _ eq_refl eq_refl N Hh Hw W Sw ltac:(lia) ltac:(lia) U) as (_ & _ & q & A & B & C & D & F).
  exists q. repeat split; auto.
Qed.
Lemma update_err t bh bw ws : (bh, bw) <> (1, 1)%nat -> (0 < bh)%nat -> (0 < bw)%nat -> 0 <= t ->
  (forall w, In w ws -> wf w /\ exists r c, shape w = [r; c] /\ (0 < r)%nat /\ (0 < c)%nat) ->
  match (do l0 <- build_layer (step_independent t) (bench_pp [bh; bw]) ws ;; apply_pruning_layer l0) with
  | Ok _ => forall w r c, In w ws -> shape w = [r; c] -> (bh < r)%nat /\ (bw < c)%nat
  | Err e => e = ValueError /\ exists w r c, In w ws /\ shape w = [r; c] /\ ((r <= bh)%nat \/ (c <= bw)%nat)
  end.
Proof.
  intros N Hh Hw T H. unfold build_layer, validate_block. cbn [pp_block bench_pp].
  assert (R : forallb (fun w => Nat.eqb (rank w) 2) ws = true).
  { apply forallb_forall. intros w I0. destruct (H w I0) as (_ & r & c & E & _). unfold rank. now rewrite E. }
  rewrite R. replace (if list_nat_eqb [bh; bw] [1; 1]%nat then Ok tt else Ok tt) with (Ok tt) by (now destruct (list_nat_eqb _ _)). cbn [bind].
  unfold apply_pruning_layer, conditional_mask_update, mask_update_due.
  cbn [pl_pp bench_pp pp_m_by_n pl_sched step_independent fst pl_vars pl_step].
  match goal with |- context [mapM ?f (map ?g ws)] => set (F := f); set (G := g) end.
  assert (X : forall w, In w ws -> forall r c, shape w = [r; c] ->
     match F (G w) with Ok _ => (bh < r)%nat /\ (bw < c)%nat | Err e => e = ValueError /\ ((r <= bh)%nat \/ (c <= bw)%nat) end).
  { intros w I0 r c E. destruct (H w I0) as (W & r' & c' & E' & Hr & Hc). rewrite E in E'. injection E' as <- <-.
    destruct (block_mask_rejects (bench_pp [bh; bw]) t w r c bh bw eq_refl eq_refl N Hh Hw W E Hr Hc T) as (A & B).
    subst F G. cbn beta. unfold update_var. cbn [pl_pp pl_sched step_independent snd pv_w pl_step].
    fold (bench_pp [bh; bw]). destruct (maybe_update_block_mask (bench_pp [bh; bw]) t w) as [[thr mask]|e] eqn:U; cbn [bind].
    - destruct A as (A & _). specialize (A eq_refl). rewrite !ceil_div_one in A by auto. exact A.
    - split. { now apply B. } destruct (Nat.lt_ge_cases bh r) as [L1|]; [|now left]. destruct (Nat.lt_ge_cases bw c) as [L2|]; [|now right].
      destruct A as (_ & A). rewrite !ceil_div_one in A by auto. specialize (A (conj L1 L2)). discriminate. }
  clearbody F G. clear - X H.
  assert (Y : match mapM F (map G ws) with Ok _ => forall w r c, In w ws -> shape w = [r; c] -> (bh < r)%nat /\ (bw < c)%nat
     | Err e => e = ValueError /\ exists w r c, In w ws /\ shape w = [r; c] /\ ((r <= bh)%nat \/ (c <= bw)%nat) end).
  { induction ws as [|w ws IH]; cbn [map mapM]. { intros w r c []. }
    destruct (H w (or_introl eq_refl)) as (_ & r & c & E & _). pose proof (X w (or_introl eq_refl) r c E) as Xw.
    destruct (F (G w)) as [v|e]; cbn [bind].
    - assert (IH' := IH (fun w0 I0 => H w0 (or_intror I0)) (fun w0 I0 => X w0 (or_intror I0))).
      destruct (mapM F (map G ws)) as [vs|e]; cbn [bind].
      + intros w' r' c' [<-|I0] E'; [|now apply (IH' w')]. rewrite E in E'. injection E' as <- <-. exact Xw.
      + destruct IH' as (-> & w' & r' & c' & I0 & Z0). split; auto. exists w', r', c'. split; [now right|auto].
    - destruct Xw as (-> & D). split; auto. exists w, r, c. split; [now left|auto]. }
  destruct (mapM F (map G ws)); cbn [bind]; exact Y.
Qed.
(** Two passes (build all, then prune all) accept what one pass accepts. *)
Lemma two_passes {A B C} (f : A -> res B) (g : B -> res C) l :
  (forall a, In a l -> is_ok (f a) = true) -> (do bs <- mapM f l ;; mapM g bs) = mapM (fun a => do b <- f a ;; g b) l.
Proof.
  induction l as [|a l IH]; cbn [mapM]; intros H; [reflexivity|]. destruct (f a) as [b|] eqn:E; [|specialize (H a (or_introl eq_refl)); rewrite E in H; discriminate].
  cbn [bind]. rewrite <- IH by (intros; apply H; now right).
  destruct (mapM f l) as [bs|] eqn:F; cbn [bind mapM].
  - destruct (g b); reflexivity.
  - exfalso. clear IH. assert (K : forall a, In a l -> is_ok (f a) = true) by (intros; apply H; now right). clear - F K.
    induction l as [|x l IH]; cbn in F; [discriminate|]. destruct (f x) as [y|] eqn:Ex; [|specialize (K x (or_introl eq_refl)); rewrite Ex in K; discriminate].
    cbn in F. destruct (mapM f l); cbn in F; [discriminate|]. apply IH; auto. intros z Hz. apply K. now right.
Qed.
Lemma bench_blocks_total t bh bw layers : (bh, bw) <> (1, 1)%nat -> (0 < bh)%nat -> (0 < bw)%nat -> 0 <= t ->
  (forall ws w, In ws layers -> In w ws -> wf w /\ exists r c, shape w = [r; c] /\ (0 < r)%nat /\ (0 < c)%nat) ->
  match prune_for_benchmark layers t [bh; bw] with
  | Ok _ => forall ws w r c, In ws layers -> In w ws -> shape w = [r; c] -> (bh < r)%nat /\ (bw < c)%nat
  | Err e => e = ValueError /\ exists ws w r c, In ws layers /\ In w ws /\ shape w = [r; c] /\ ((r <= bh)%nat \/ (c <= bw)%nat)
  end.
Proof.
  intros N Hh Hw T H. unfold prune_for_benchmark, apply_pruning. fold (bench_pp [bh; bw]). rewrite two_passes.
  2:{ intros ws I0. unfold build_layer, validate_block. cbn [pp_block bench_pp].
      replace (forallb _ ws) with true. { now destruct (list_nat_eqb _ _). }
      symmetry. apply forallb_forall. intros w I1. destruct (H ws w I0 I1) as (_ & r & c & E & _). unfold rank. now rewrite E. }
  induction layers as [|ws layers IH]; cbn [mapM]. { intros ws w r c []. }
  pose proof (update_err t bh bw ws N Hh Hw T (fun w I0 => H ws w (or_introl eq_refl) I0)) as X.
  destruct (do l0 <- build_layer (step_independent t) (bench_pp [bh; bw]) ws ;; apply_pruning_layer l0) as [l|e]; cbn [bind].
  - assert (IH' := IH (fun ws' w I0 I1 => H ws' w (or_intror I0) I1)).
    destruct (mapM _ layers) as [ls|e]; cbn [bind].
    + intros ws' w r c [<-|I0] I1 E; [now apply (X w)|now apply (IH' ws' w)].
    + destruct IH' as (-> & ws' & w & r & c & I0 & Z0). split; auto. exists ws', w, r, c. split; [now right|auto].
  - destruct X as (-> & w & r & c & Z0). split; auto. exists ws, w, r, c. split; [now left|auto].
Qed.
