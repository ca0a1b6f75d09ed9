From Verif Require Import Base M_Num L_Num M_Tensor L_Tensor M_Mask S_Mask L_Sort L_Mask L_Block L_MbyN
  M_Schedule L_Schedule M_PruneWrapper S_PruneWrapper.
Open Scope Q_scope.
Ltac lra := Lqa.lra.

(** ** Masks produced by an update are well-formed 0/1 tensors of the weight's shape *)
Lemma tget_In {A} (d : A) t idx : wf t -> valid (shape t) idx -> In (tget d t idx) (data t).
Proof. intros W V. apply nth_In. unfold wf in W. rewrite W. apply ravel_lt. auto. Qed.
Lemma is_mask_tab s f : (forall idx, valid s idx -> f idx == 0 \/ f idx == 1) -> is_mask (tab s f).
Proof.
  intros H x Hx. unfold tab in Hx. cbn [data] in Hx. apply in_map_iff in Hx as (n & <- & Hn).
  apply in_seq in Hn. apply H. apply unravel_valid. lia.
Qed.
Lemma is_mask_get t idx : wf t -> is_mask t -> valid (shape t) idx -> tget 0 t idx == 0 \/ tget 0 t idx == 1.
Proof. intros W M V. apply M. apply tget_In; auto. Qed.

Lemma update_mask_is_mask s w t m : update_mask s w = Ok (t, m) -> is_mask m.
Proof.
  intros H x Hx. apply update_mask_spec in H as (_ & HL & k & _ & _ & HM).
  apply (In_nth _ _ 0) in Hx as (i & Hi & <-). rewrite HL in Hi. rewrite HM by auto.
  destruct (Qle_bool _ _); [right|left]; reflexivity.
Qed.
Lemma update_mask_wf s w t m : wf w -> update_mask s w = Ok (t, m) -> wf m /\ shape m = shape w.
Proof.
  intros W H. apply update_mask_spec in H as (HS & HL & _). split; auto. unfold wf in *. congruence.
Qed.

Lemma transpose2_is_mask t r c : wf t -> shape t = [r; c] -> is_mask t -> is_mask (transpose 0 [1;0]%nat t).
Proof.
  intros W S M. unfold transpose. apply is_mask_tab. rewrite S. cbn [map nth]. intros idx V.
  apply valid2_inv in V as (i & j & -> & Hi & Hj). cbn. apply is_mask_get; auto. rewrite S. apply valid2. auto.
Qed.
Lemma replicate_is_mask t r c m : wf t -> shape t = [r; c] -> (0 < m)%nat -> is_mask t ->
  is_mask (replicate_rows t m).
Proof.
  intros W S Hm M. destruct (replicate_rows_spec t r c m S Hm) as (SR & WR & GR).
  rewrite <- (tab_tget 0 (replicate_rows t m) WR). apply is_mask_tab. rewrite SR. intros idx V.
  apply valid2_inv in V as (i & j & -> & Hi & Hj). rewrite GR by auto. apply is_mask_get; auto.
  rewrite S. apply valid2. split; auto. apply Nat.div_lt_upper_bound; lia.
Qed.
Lemma expand_is_mask t bh bw e : wf t -> is_mask t -> expand_tensor t [bh; bw] = Ok e -> wf e /\ is_mask e.
Proof.
  intros W M. unfold expand_tensor. destruct (Nat.eqb_spec (rank t) 2) as [R|R]; [|discriminate]. cbn [negb].
  unfold rank in R. destruct (shape t) as [|r [|c [|]]] eqn:S; try discriminate R.
  set (e1 := if (1 <? bh)%nat then replicate_rows t bh else t).
  assert (E1 : wf e1 /\ is_mask e1 /\ exists r' c', shape e1 = [r'; c']).
  { unfold e1. destruct (Nat.ltb_spec 1 bh).
    - destruct (replicate_rows_spec t r c bh S ltac:(lia)) as (SR & WR & _). split; auto.
      split; [apply (replicate_is_mask t r c); auto; lia|]. eauto.
    - eauto. }
  destruct E1 as (W1 & M1 & r' & c' & S1).
  intros H. injection H as <-. destruct (Nat.ltb_spec 1 bw).
  - pose proof (transpose2_shape 0 e1 r' c' S1) as S2.
    destruct (replicate_rows_spec (transpose 0 [1;0]%nat e1) c' r' bw S2 ltac:(lia)) as (SR & WR & _).
    split; [apply transpose_wf|]. apply (transpose2_is_mask _ _ _ WR SR).
    apply (replicate_is_mask _ c' r'); auto; [apply transpose_wf|lia|].
    apply (transpose2_is_mask _ r' c'); auto.
  - auto.
Qed.
Lemma slice2_is_mask t r c s : wf t -> is_mask t -> slice2 t r c = Ok s -> wf s /\ shape s = [r; c] /\ is_mask s.
Proof.
  intros W M. unfold slice2. destruct (shape t) as [|r' [|c' [|]]] eqn:S; try discriminate.
  destruct (_ && _) eqn:B; [|discriminate]. intros H. injection H as <-.
  split; [apply tab_wf|]. split; auto. apply is_mask_tab. intros idx V.
  apply valid2_inv in V as (i & j & -> & Hi & Hj). apply is_mask_get; auto. rewrite S. apply valid2. lia.
Qed.
Lemma reshape_inv {A} (t : tensor A) s u : reshape t s = Ok u -> shape u = s /\ data u = data t /\ wf u.
Proof.
  unfold reshape. destruct (Nat.eqb_spec (prod s) (length (data t))); [|discriminate].
  intros H. injection H as <-. unfold wf. cbn. auto.
Qed.
Lemma prod_filter1 l : prod (filter (fun d => negb (d =? 1)%nat) l) = prod l.
Proof.
  induction l as [|a l IH]; auto. cbn [filter]. destruct (Nat.eqb_spec a 1); cbn [negb].
  - subst. cbn [prod]. lia.
  - cbn [prod]. rewrite IH. auto.
Qed.
Lemma squeeze_wf {A} (t : tensor A) : wf t -> wf (squeeze t).
Proof. unfold wf, squeeze. cbn [shape data]. intros ->. symmetry. apply prod_filter1. Qed.
Lemma factorized_pool_wf t bh bw p q : factorized_pool t bh bw p = Ok q -> wf q.
Proof.
  unfold factorized_pool. destruct (negb _); [discriminate|]. intros H. injection H as <-.
  apply squeeze_wf. apply transpose_wf.
Qed.

Lemma mbyn_is_mask w m n mask : wf w -> update_mask_m_by_n w m n = Ok mask ->
  wf mask /\ shape mask = shape w /\ is_mask mask.
Proof.
  intros W H.
  assert (R : rank w = 2%nat \/ rank w = 4%nat).
  { destruct (Nat.eq_dec (rank w) 2); auto. destruct (Nat.eq_dec (rank w) 4); auto.
    unfold update_mask_m_by_n in H. rewrite rearrange_error in H by auto. discriminate. }
  assert (L : (m < n)%nat).
  { destruct (Nat.lt_ge_cases m n); auto. exfalso. unfold update_mask_m_by_n in H.
    destruct (weights_rearrange 0 w); [|discriminate]. cbn [bind] in H. rewrite generate_error in H by auto. discriminate. }
  destruct (mbyn_ok w m n W R L) as (p & m2 & mask' & Ep & Wp & Eg & E' & Wm & Sm & Rm & S2 & W2 & r & c & Sp).
  rewrite H in E'. injection E' as <-. split; auto. split; auto.
  rewrite Sp in S2. pose proof (prepare_rearrange 0 mask m2 Wm Rm) as PR.
  rewrite <- (tab_tget 0 mask Wm). apply is_mask_tab. intros idx V.
  assert (HM : is_mask m2).
  { rewrite <- (tab_tget 0 m2 W2). apply is_mask_tab. rewrite S2. intros k Vk.
    apply valid2_inv in Vk as (i & j & -> & Hi & Hj).
    destruct (generate_01 p r c m n m2 i j Wp Sp Eg Hi Hj) as [-> | ->]; [left|right]; reflexivity. }
  (* every entry of mask is an entry of its rearrangement *)
  assert (In (tget 0 mask idx) (data m2)); [|apply HM; auto].
  unfold m_by_n_sparsity_mask_prepare in PR.
  destruct (negb _); [discriminate|]. destruct (negb _); [discriminate|].
  destruct (shape mask) as [|h [|x [|ci [|co [|y l]]]]] eqn:SM; try discriminate PR; cbn [bind] in PR.
  - destruct (list_nat_eqb _ _); [|discriminate]. injection PR as PR. rewrite <- PR.
    apply valid2_inv in V as (i & j & -> & Hi & Hj).
    assert (SS : shape m2 = [x; h]).
    { rewrite (rearrange2 0 mask h x SM) in Rm. injection Rm as <-. apply transpose2_shape. auto. }
    rewrite (transpose2_get 0 m2 x h) by auto. apply tget_In; auto. rewrite SS. apply valid2; auto.
  - clear PR. apply valid4_inv in V as (a & b & i & o & -> & Ha & Hb & Hi & Ho).
    destruct (rearrange4 0 mask h x ci co Wm SM) as (p' & E & Wp' & Sp' & Gp'). rewrite Rm in E. injection E as <-.
    rewrite <- Gp' by auto. apply tget_In; auto. rewrite Sp'. apply valid2. split; [assert (o*h+a < co*h)%nat by nia; nia | auto].
Qed.

Lemma mubm_mask pp s w t m : wf w -> maybe_update_block_mask pp s w = Ok (t, m) ->
  wf m /\ shape m = shape w /\ is_mask m.
Proof.
  intros W H. unfold maybe_update_block_mask in H. destruct (pp_m_by_n pp) as [[a b]|].
  - destruct (update_mask_m_by_n w a b) as [mk|] eqn:E; [|discriminate]. cbn [bind] in H. injection H as <- <-.
    apply (mbyn_is_mask w a b); auto.
  - assert (G : forall bh bw, (let squeezed := squeeze w in
          let absw := tmap Qabs squeezed in
          do pooled <- factorized_pool absw bh bw (pp_pool pp) ;;
          let pooled := if negb (Nat.eqb (rank pooled) 2) then squeeze pooled else pooled in
          do tm <- update_mask s pooled ;;
          let '(thr, new_mask) := tm in
          do updated <- expand_tensor new_mask [bh; bw] ;;
          match shape squeezed with
          | r :: c :: _ =>
              do sliced <- slice2 updated r c ;;
              do out <- reshape sliced (shape w) ;;
              Ok (thr, out)
          | _ => Err IndexError
          end) = Ok (t, m) -> wf m /\ shape m = shape w /\ is_mask m).
    { clear H. intros bh bw H. cbn zeta in H.
      destruct (factorized_pool (tmap Qabs (squeeze w)) bh bw (pp_pool pp)) as [q|] eqn:EP; [|discriminate].
      cbn [bind] in H. set (q' := if negb (rank q =? 2)%nat then squeeze q else q) in H.
      assert (Wq : wf q').
      { apply factorized_pool_wf in EP. unfold q'. destruct (negb _); auto. apply squeeze_wf; auto. }
      destruct (update_mask s q') as [[t' qm]|] eqn:EU; [|discriminate]. cbn [bind] in H.
      pose proof (update_mask_wf _ _ _ _ Wq EU) as [Wm _]. pose proof (update_mask_is_mask _ _ _ _ EU) as Mm.
      destruct (expand_tensor qm [bh; bw]) as [e|] eqn:EE; [|discriminate]. cbn [bind] in H.
      destruct (expand_is_mask _ _ _ _ Wm Mm EE) as [We Me].
      destruct (shape (squeeze w)) as [|r [|c l]]; try discriminate.
      destruct (slice2 e r c) as [sl|] eqn:ES; [|discriminate]. cbn [bind] in H.
      destruct (slice2_is_mask _ _ _ _ We Me ES) as (Wsl & _ & Msl).
      destruct (reshape sl (shape w)) as [o|] eqn:ER; [|discriminate]. cbn [bind] in H. injection H as <- <-.
      apply reshape_inv in ER as (E1 & E2 & E3). split; auto. split; auto.
      unfold is_mask. rewrite E2. exact Msl. }
    destruct (pp_block pp) as [|bh [|bw [|]]]; try discriminate H.
    + destruct bh as [|[|]]; discriminate H.
    + destruct bh as [|[|bh]]; destruct bw as [|[|bw]]; try (apply (G _ _ H)).
      pose proof (update_mask_wf _ _ _ _ W H) as [A B]. split; auto. split; auto.
      apply (update_mask_is_mask _ _ _ _ H).
    + destruct bh as [|[|]]; try destruct bw as [|[|]]; discriminate H.
Qed.

(** errors of a mask update are never the "missing callback" error *)
Lemma slice2_err t r c : slice2 t r c <> Err StepNotSet.
Proof. unfold slice2. destruct (shape t) as [|? [|? [|]]]; try discriminate. destruct (_ && _); discriminate. Qed.
Lemma reshape_err {A} (t : tensor A) s : reshape t s <> Err StepNotSet.
Proof. unfold reshape. destruct (_ =? _)%nat; discriminate. Qed.
Lemma update_mask_err s w : update_mask s w <> Err StepNotSet.
Proof. unfold update_mask. destruct (nth_error _ _) as [[? ?]|]; discriminate. Qed.
Lemma expand_err t b : expand_tensor t b <> Err StepNotSet.
Proof. unfold expand_tensor. destruct (negb _); try discriminate. destruct b as [|? [|? [|]]]; discriminate. Qed.
Lemma pool_err t a b p : factorized_pool t a b p <> Err StepNotSet.
Proof. unfold factorized_pool. destruct (negb _); discriminate. Qed.
Lemma rearrange_err {A} (d : A) w : weights_rearrange d w <> Err StepNotSet.
Proof.
  unfold weights_rearrange. destruct (shape w) as [|? [|? [|? [|? [|]]]]]; try discriminate. apply reshape_err.
Qed.
Lemma generate_err w m n : generate_m_by_n_mask w m n <> Err StepNotSet.
Proof.
  unfold generate_m_by_n_mask. destruct (negb _); try discriminate.
  destruct (shape w) as [|? [|? [|]]]; try discriminate.
  match goal with |- context [bind (reshape ?t ?s) _] =>
    pose proof (reshape_err t s); destruct (reshape t s); cbn [bind]; [|congruence] end.
  match goal with |- context [bind (reshape ?t ?s) _] =>
    pose proof (reshape_err t s); destruct (reshape t s); cbn [bind]; [|congruence] end.
  apply slice2_err.
Qed.
Lemma prepare_err {A} (d : A) m s : m_by_n_sparsity_mask_prepare d m s <> Err StepNotSet.
Proof.
  unfold m_by_n_sparsity_mask_prepare. destruct (negb _); try discriminate. destruct (negb _); try discriminate.
  destruct s as [|? [|? [|? [|? [|]]]]]; cbn [bind]; try discriminate.
  - destruct (list_nat_eqb _ _); discriminate.
  - match goal with |- context [bind (reshape ?t ?s) _] =>
      pose proof (reshape_err t s); destruct (reshape t s); cbn [bind]; [|congruence] end.
    destruct (list_nat_eqb _ _); discriminate.
Qed.
Lemma mubm_err pp s w : maybe_update_block_mask pp s w <> Err StepNotSet.
Proof.
  unfold maybe_update_block_mask. destruct (pp_m_by_n pp) as [[a b]|].
  - unfold update_mask_m_by_n.
    pose proof (rearrange_err 0 w). destruct (weights_rearrange 0 w); cbn [bind]; [|congruence].
    pose proof (generate_err a0 a b). destruct (generate_m_by_n_mask a0 a b); cbn [bind]; [|congruence].
    pose proof (prepare_err 0 a1 (shape w)). destruct (m_by_n_sparsity_mask_prepare 0 a1 (shape w)); cbn [bind]; congruence.
  - assert (G : forall bh bw, (let squeezed := squeeze w in
          let absw := tmap Qabs squeezed in
          do pooled <- factorized_pool absw bh bw (pp_pool pp) ;;
          let pooled := if negb (Nat.eqb (rank pooled) 2) then squeeze pooled else pooled in
          do tm <- update_mask s pooled ;;
          let '(thr, new_mask) := tm in
          do updated <- expand_tensor new_mask [bh; bw] ;;
          match shape squeezed with
          | r :: c :: _ =>
              do sliced <- slice2 updated r c ;;
              do out <- reshape sliced (shape w) ;;
              Ok (thr, out)
          | _ => Err IndexError
          end) <> Err StepNotSet).
    { intros bh bw. cbn zeta.
      pose proof (pool_err (tmap Qabs (squeeze w)) bh bw (pp_pool pp)).
      destruct (factorized_pool _ _ _ _) as [pl|]; cbn [bind]; [|congruence].
      pose proof (update_mask_err s (if negb (rank pl =? 2)%nat then squeeze pl else pl)).
      destruct (update_mask s _) as [[? qm]|]; cbn [bind]; [|congruence].
      pose proof (expand_err qm [bh; bw]). destruct (expand_tensor qm [bh; bw]) as [b0|]; cbn [bind]; [|congruence].
      destruct (shape (squeeze w)) as [|r [|c l]]; try discriminate.
      pose proof (slice2_err b0 r c). destruct (slice2 b0 r c) as [b1|]; cbn [bind]; [|congruence].
      pose proof (reshape_err b1 (shape w)). destruct (reshape b1 (shape w)); cbn [bind]; congruence. }
    pose proof (update_mask_err s w).
    destruct (pp_block pp) as [|bh [|bw [|]]]; try discriminate.
    + destruct bh as [|[|]]; discriminate.
    + destruct bh as [|[|bh]]; destruct bw as [|[|bw]]; try apply G. auto.
    + destruct bh as [|[|]]; try destruct bw as [|[|]]; discriminate.
Qed.

Lemma mapM_err {A B} (f : A -> res B) l e : mapM f l = Err e -> exists a, In a l /\ f a = Err e.
Proof.
  induction l as [|a l IH]; cbn; [discriminate|]. destruct (f a) eqn:E; cbn [bind].
  - destruct (mapM f l); cbn [bind]; [discriminate|]. intros H. injection H as ->. destruct IH as (x & Hx & Hf); eauto.
  - intros H. injection H as ->. eauto.
Qed.
Lemma mapM_ok {A B} (f : A -> res B) l l' : mapM f l = Ok l' -> Forall2 (fun a b => f a = Ok b) l l'.
Proof.
  revert l'. induction l as [|a l IH]; cbn; intros l' H.
  - injection H as <-. constructor.
  - destruct (f a) eqn:E; cbn [bind] in H; [|discriminate].
    destruct (mapM f l); cbn [bind] in H; [|discriminate]. injection H as <-. constructor; auto.
Qed.

Lemma cmu_err l : conditional_mask_update l <> Err StepNotSet.
Proof.
  unfold conditional_mask_update. destruct (mask_update_due l); [|discriminate].
  destruct (mapM (update_var l) (pl_vars l)) eqn:E; cbn [bind]; [discriminate|].
  apply mapM_err in E as (v & _ & H). unfold update_var in H.
  pose proof (mubm_err (pl_pp l) (snd (pl_sched l (pl_step l))) (pv_w v)).
  destruct (maybe_update_block_mask _ _ _) as [[? ?]|]; cbn [bind] in H; congruence.
Qed.

(** ** Effect of one call *)
Lemma cmu_step l l' : conditional_mask_update l = Ok l' -> pl_step l' = pl_step l.
Proof.
  unfold conditional_mask_update. destruct (mask_update_due l); [|congruence].
  destruct (mapM _ _); cbn [bind]; [|discriminate]. intros H. injection H as <-. auto.
Qed.

Lemma call_false l : call_layer false l = (weight_mask_op l, None).
Proof. reflexivity. Qed.

Lemma forward_false ls : forward false ls = (map weight_mask_op ls, None).
Proof. induction ls as [|l ls IH]; cbn [forward]; auto. rewrite call_false, IH. auto. Qed.

Lemma call_true_none l l' : call_layer true l = (l', None) ->
  pl_step l' = (pl_step l + 1)%Z /\ (0 <= pl_step l)%Z.
Proof.
  unfold call_layer. cbn [set_step pl_step].
  destruct (Z.ltb_spec (pl_step l + 1) 1); [discriminate|].
  destruct (conditional_mask_update (set_step l (pl_step l + 1))) eqn:E; [|discriminate].
  intros K. injection K as <-. cbn. rewrite (cmu_step _ _ E). cbn. split; auto. lia.
Qed.
Lemma call_true_some l l' e : call_layer true l = (l', Some e) -> pl_step l' = (pl_step l + 1)%Z.
Proof.
  unfold call_layer. cbn [set_step pl_step].
  destruct (Z.ltb_spec (pl_step l + 1) 1); [intros K; injection K as <- <-; auto|].
  destruct (conditional_mask_update (set_step l (pl_step l + 1))) eqn:E; [discriminate|].
  intros K. injection K as <- <-. auto.
Qed.

Lemma forward_true_none ls ls' : forward true ls = (ls', None) ->
  Forall2 (fun l l' => call_layer true l = (l', None)) ls ls'.
Proof.
  revert ls'. induction ls as [|l ls IH]; cbn [forward]; intros ls' H.
  - injection H as <-. constructor.
  - destruct (call_layer true l) as [l1 [e|]] eqn:E; [discriminate|].
    destruct (forward true ls) as [r x] eqn:F. injection H as <- ->. constructor; auto.
Qed.


Lemma forward_nonneg b ls ls' x : forward b ls = (ls', x) -> steps_nonneg ls -> steps_nonneg ls' /\ x <> Some StepNotSet.
Proof.
  revert ls' x. induction ls as [|l ls IH]; intros ls' x H N.
  - cbn in H. injection H as <- <-. split; [constructor|discriminate].
  - inversion N as [|? ? N1 N2]; subst. cbn [forward] in H.
    destruct (call_layer b l) as [l1 [e|]] eqn:E.
    + injection H as <- <-. destruct b; [|discriminate E].
      pose proof (call_true_some _ _ _ E). split.
      * constructor; auto. lia.
      * intros K. injection K as ->. unfold call_layer in E. cbn [set_step pl_step] in E.
        destruct (Z.ltb_spec (pl_step l + 1) 1); [lia|].
        pose proof (cmu_err (set_step l (pl_step l + 1))).
        destruct (conditional_mask_update _); [discriminate|]. injection E as _ ->. congruence.
    + destruct (forward b ls) as [r y] eqn:F. injection H as <- <-.
      destruct (IH _ _ eq_refl N2) as [A B]. split; auto. constructor; auto.
      destruct b.
      * apply call_true_none in E. lia.
      * rewrite call_false in E. injection E as <-. auto.
Qed.

Lemma assign_steps_gen f k ls :
  map pl_step (map (fun il => let '(i, l) := il in
         mkL (pl_sched l) (pl_pp l)
             (map (fun jv => let '(j, v) := jv in
                     mkV (mkT (shape (pv_w v)) (map (f i j) (seq 0 (length (data (pv_w v))))))
                         (pv_mask v) (pv_thr v))
                  (combine (seq 0 (length (pl_vars l))) (pl_vars l)))
             (pl_step l))
      (combine (seq k (length ls)) ls)) = map pl_step ls.
Proof. revert k. induction ls as [|l ls IH]; intros k; cbn; auto. f_equal. apply IH. Qed.
Lemma assign_steps f ls : map pl_step (assign_weights f ls) = map pl_step ls.
Proof. apply assign_steps_gen. Qed.

Lemma steps_nonneg_map ls : steps_nonneg ls <-> Forall (fun z => 0 <= z)%Z (map pl_step ls).
Proof. unfold steps_nonneg. rewrite Forall_map. tauto. Qed.

Lemma mask_steps ls : map pl_step (map weight_mask_op ls) = map pl_step ls.
Proof. rewrite map_map. apply map_ext. auto. Qed.

Lemma on_train_begin_nonneg ls : steps_nonneg ls -> on_train_begin ls = ls.
Proof.
  intros H. destruct ls as [|l r]; auto. inversion H; subst. cbn [on_train_begin].
  destruct (Z.eqb_spec (pl_step l) (-1)); auto. lia.
Qed.

Lemma pstep_nonneg m e m' x : pstep m e = (m', x) -> steps_nonneg (pm_layers m) ->
  steps_nonneg (pm_layers m') /\ x <> Some StepNotSet.
Proof.
  intros H N. destruct e; cbn [pstep] in H.
  - injection H as <- <-. cbn. rewrite on_train_begin_nonneg by auto. split; auto. discriminate.
  - destruct (forward true (pm_layers m)) as [ls y] eqn:F. injection H as <- <-.
    apply (forward_nonneg _ _ _ _ F N).
  - destruct (forward false (pm_layers m)) as [ls y] eqn:F. injection H as <- <-.
    apply (forward_nonneg _ _ _ _ F N).
  - injection H as <- <-. cbn. split; [|discriminate]. apply steps_nonneg_map. rewrite assign_steps.
    apply steps_nonneg_map. auto.
  - injection H as <- <-. split; [|discriminate]. unfold on_epoch_end. destruct (pm_collected m); auto. cbn.
    apply steps_nonneg_map. rewrite mask_steps. apply steps_nonneg_map. auto.
Qed.

Lemma prun_nonneg es m m' xs : prun m es = (m', xs) -> steps_nonneg (pm_layers m) ->
  steps_nonneg (pm_layers m') /\ ~ In (Some StepNotSet) xs.
Proof.
  revert m m' xs. induction es as [|e es IH]; intros m m' xs H N; cbn [prun] in H.
  - injection H as <- <-. auto.
  - destruct (pstep m e) as [m1 x] eqn:E. destruct (prun m1 es) as [m2 ys] eqn:F. injection H as <- <-.
    destruct (pstep_nonneg _ _ _ _ E N) as [N1 X]. destruct (IH _ _ _ F N1) as [N2 Y]. split; auto.
    intros [K|K]; [congruence|auto].
Qed.


Lemma on_train_begin_uniform z ls : uniform z ls -> (z = -1 \/ 0 <= z)%Z -> uniform (Z.max z 0) (on_train_begin ls).
Proof.
  intros U H. destruct ls as [|l r]; [constructor|]. cbn [on_train_begin].
  inversion U; subst. destruct (Z.eqb_spec (pl_step l) (-1)) as [E|E].
  - rewrite E. unfold uniform. apply Forall_map. apply Forall_forall. auto.
  - replace (Z.max (pl_step l) 0) with (pl_step l) by lia. auto.
Qed.
Lemma uniform_nonneg z ls : uniform z ls -> (0 <= z)%Z -> steps_nonneg ls.
Proof. intros U H. eapply Forall_impl; [|exact U]. intros a Ha. cbn in Ha. lia. Qed.

Lemma never_after_begin z m es m' xs : uniform z (pm_layers m) -> (z = -1 \/ 0 <= z)%Z ->
  prun m (TrainBegin :: es) = (m', xs) -> ~ In (Some StepNotSet) xs.
Proof.
  intros U H R. cbn [prun pstep] in R.
  destruct (prun _ es) as [m2 ys] eqn:F. injection R as <- <-.
  apply prun_nonneg in F.
  - destruct F as [_ F]. intros [K|K]; [discriminate|auto].
  - cbn. eapply uniform_nonneg; [apply on_train_begin_uniform; eauto|]. lia.
Qed.

Lemma forward_true_uniform z ls ls' : forward true ls = (ls', None) -> uniform z ls -> uniform (z + 1) ls'.
Proof.
  intros F U. apply forward_true_none in F. unfold uniform in *. induction F as [|l l' ls ls' Hc F IH].
  - constructor.
  - inversion U; subst. constructor; auto. apply call_true_none in Hc. lia.
Qed.


Lemma steps_count es : forall z m m' xs, uniform z (pm_layers m) -> (0 <= z)%Z ->
  prun m es = (m', xs) -> Forall (eq None) xs -> uniform (z + count_batches es) (pm_layers m').
Proof.
  induction es as [|e es IH]; intros z m m' xs U Hz R N; cbn [prun] in R.
  - injection R as <- <-. cbn. rewrite Z.add_0_r. auto.
  - destruct (pstep m e) as [m1 x] eqn:E. destruct (prun m1 es) as [m2 ys] eqn:F. injection R as <- <-.
    inversion N as [|? ? N1 N2]; subst.
    assert (exists d, (0 <= d)%Z /\ count_batches (e :: es) = (d + count_batches es)%Z /\ uniform (z + d) (pm_layers m1)) as (d & Hd & Ec & U1).
    { destruct e; cbn [pstep] in E.
      - injection E as <-. exists 0%Z. split; [lia|]. split; auto. cbn.
        rewrite on_train_begin_nonneg by (eapply uniform_nonneg; eauto). rewrite Z.add_0_r. auto.
      - destruct (forward true (pm_layers m)) as [ls y] eqn:FF. injection E as <- ->. exists 1%Z.
        split; [lia|]. split; auto. cbn. eapply forward_true_uniform; eauto.
      - rewrite forward_false in E. injection E as <-. exists 0%Z. split; [lia|]. split; auto. cbn. rewrite Z.add_0_r.
        unfold uniform. apply Forall_map. exact U.
      - injection E as <-. exists 0%Z. split; [lia|]. split; auto. cbn. rewrite Z.add_0_r.
        unfold uniform in *. rewrite <- (Forall_map pl_step (fun y => y = z)). rewrite assign_steps. rewrite Forall_map. auto.
      - injection E as <-. exists 0%Z. split; [lia|]. split; auto. rewrite Z.add_0_r. unfold on_epoch_end.
        destruct (pm_collected m); auto. cbn. unfold uniform. apply Forall_map. exact U. }
    rewrite Ec. replace (z + (d + count_batches es))%Z with ((z + d) + count_batches es)%Z by lia.
    eapply IH; eauto. lia.
Qed.

Lemma pruning_step_counts z m es m' xs : uniform z (pm_layers m) -> (z = -1 \/ 0 <= z)%Z ->
  prun m (TrainBegin :: es) = (m', xs) -> Forall (eq None) xs ->
  forall l, In l (pm_layers m') -> pl_step l = (Z.max z 0 + count_batches es)%Z.
Proof.
  intros U H R N l Hl. cbn [prun pstep] in R.
  destruct (prun _ es) as [m2 ys] eqn:F. injection R as <- <-. inversion N; subst.
  assert (uniform (Z.max z 0 + count_batches es) (pm_layers m2)) as K.
  { eapply steps_count; [|lia|exact F|auto]. cbn. apply on_train_begin_uniform; auto. }
  unfold uniform in K. rewrite Forall_forall in K. auto.
Qed.


Lemma harmless_uniform z es : Forall harmless es -> forall m m' xs, uniform z (pm_layers m) -> pm_layers m <> [] ->
  prun m es = (m', xs) -> uniform z (pm_layers m') /\ pm_layers m' <> [].
Proof.
  induction 1 as [|e es He Hes IH]; intros m m' xs U NE R; cbn [prun] in R.
  - injection R as <- <-. auto.
  - destruct (pstep m e) as [m1 x] eqn:E. destruct (prun m1 es) as [m2 ys] eqn:F. injection R as <- <-.
    apply IH in F; auto; destruct e; cbn in He; try tauto; cbn [pstep] in E.
    + rewrite forward_false in E. injection E as <- <-. cbn. unfold uniform. apply Forall_map. exact U.
    + injection E as <- <-. cbn. unfold uniform in *. rewrite <- (Forall_map pl_step (fun y => y = z)).
      rewrite assign_steps, Forall_map. auto.
    + injection E as <- <-. unfold on_epoch_end. destruct (pm_collected m); auto. cbn. unfold uniform. apply Forall_map. exact U.
    + rewrite forward_false in E. injection E as <- <-. cbn. intros K. apply map_eq_nil in K. auto.
    + injection E as <- <-. cbn. intros K. apply (f_equal (map pl_step)) in K. rewrite assign_steps in K. apply map_eq_nil in K. auto.
    + injection E as <- <-. unfold on_epoch_end. destruct (pm_collected m); auto. cbn. intros K. apply map_eq_nil in K. auto.
Qed.

Lemma error_without_callback m es m' xs m'' x :
  uniform (-1) (pm_layers m) -> pm_layers m <> [] -> Forall harmless es ->
  prun m es = (m', xs) -> pstep m' TrainBatch = (m'', x) -> x = Some StepNotSet.
Proof.
  intros U NE H R E. destruct (harmless_uniform (-1) es H _ _ _ U NE R) as [U' NE'].
  cbn [pstep] in E. destruct (pm_layers m') as [|l ls] eqn:L; [congruence|].
  inversion U'; subst. cbn [forward] in E. unfold call_layer in E. cbn [set_step pl_step] in E.
  rewrite H2 in E. cbn in E. injection E as _ <-. auto.
Qed.



Lemma tmul_nth t u i : length (data t) = length (data u) -> (i < length (data t))%nat ->
  nth i (data (tmul t u)) 0 = nth i (data t) 0 * nth i (data u) 0.
Proof.
  intros L Hi. unfold tmul. cbn [data].
  rewrite nth_indep with (d' := (fun p : Q * Q => fst p * snd p) (0, 0)) by (rewrite map_length, combine_length; lia).
  rewrite (map_nth (fun p : Q * Q => fst p * snd p)), combine_nth by auto. reflexivity.
Qed.
Lemma var_ok_len v : var_ok v -> length (data (pv_w v)) = length (data (pv_mask v)).
Proof. unfold var_ok, wf. intros (A & B & C & _). congruence. Qed.
Lemma mask_var_masked v : var_ok v -> var_masked (mask_var v).
Proof.
  intros H i Hi M. pose proof (var_ok_len v H) as L. unfold mask_var in *. cbn [pv_w pv_mask] in *.
  assert (i < length (data (pv_w v)))%nat.
  { unfold tmul in Hi. cbn [data] in Hi. rewrite map_length, combine_length in Hi. lia. }
  rewrite tmul_nth by auto. rewrite M. lra.
Qed.
Lemma mask_var_ok v : var_ok v -> var_ok (mask_var v).
Proof.
  intros (A & B & C & D). unfold mask_var, var_ok. cbn [pv_w pv_mask]. repeat split; auto.
  apply tmul_wf; auto.
Qed.
Lemma weight_mask_ok l : layer_ok l -> layer_ok (weight_mask_op l).
Proof.
  unfold layer_ok, weight_mask_op. cbn [pl_vars]. intros H. apply Forall_map. eapply Forall_impl; [|exact H].
  exact mask_var_ok.
Qed.
Lemma cmu_ok l l' : layer_ok l -> conditional_mask_update l = Ok l' -> layer_ok l'.
Proof.
  intros H. unfold conditional_mask_update. destruct (mask_update_due l); [|congruence].
  destruct (mapM (update_var l) (pl_vars l)) as [vs|] eqn:E; cbn [bind]; [|discriminate].
  intros K. injection K as <-. unfold layer_ok in *. cbn [pl_vars]. apply mapM_ok in E.
  revert H. induction E as [|v v' vs vs' Hv E IH]; intros H; [constructor|].
  inversion H as [|? ? H1 H2]; subst. constructor; auto. clear IH E H H2.
  unfold update_var in Hv. destruct (maybe_update_block_mask _ _ _) as [[t mk]|] eqn:EM; cbn [bind] in Hv; [|discriminate].
  injection Hv as <-. destruct H1 as (W & _). apply mubm_mask in EM as (A & B & C); auto. repeat split; auto.
Qed.
Lemma set_step_ok l z : layer_ok l -> layer_ok (set_step l z).
Proof. auto. Qed.
Lemma call_ok b l l' x : layer_ok l -> call_layer b l = (l', x) -> layer_ok l'.
Proof.
  intros H. destruct b; [|rewrite call_false; intros K; injection K as <- <-; apply weight_mask_ok; auto].
  unfold call_layer. destruct (_ <? 1)%Z; [intros K; injection K as <- <-; apply set_step_ok; auto|].
  destruct (conditional_mask_update _) eqn:E; intros K; injection K as <- <-.
  - apply weight_mask_ok. eapply cmu_ok; [|exact E]. apply set_step_ok; auto.
  - apply set_step_ok; auto.
Qed.
Lemma call_none_masked b l l' : layer_ok l -> call_layer b l = (l', None) -> forall v, In v (pl_vars l') -> var_masked v.
Proof.
  intros H E.
  assert (exists l1, l' = weight_mask_op l1 /\ layer_ok l1) as (l1 & -> & O).
  { destruct b; [|rewrite call_false in E; injection E as <-; eauto].
    unfold call_layer in E. destruct (_ <? 1)%Z; [discriminate|].
    destruct (conditional_mask_update _) eqn:F; [|discriminate]. injection E as <-.
    exists a. split; auto. eapply cmu_ok; [|exact F]. apply set_step_ok; auto. }
  intros v Hv. cbn [weight_mask_op pl_vars] in Hv. apply in_map_iff in Hv as (u & <- & Hu).
  apply mask_var_masked. unfold layer_ok in O. rewrite Forall_forall in O. auto.
Qed.
Lemma forward_ok b ls ls' x : Forall layer_ok ls -> forward b ls = (ls', x) -> Forall layer_ok ls'.
Proof.
  revert ls' x. induction ls as [|l ls IH]; intros ls' x H F; cbn [forward] in F.
  - injection F as <- <-. constructor.
  - inversion H; subst. destruct (call_layer b l) as [l1 [e|]] eqn:E.
    + injection F as <- <-. constructor; auto. eapply call_ok; eauto.
    + destruct (forward b ls) as [r y] eqn:G. injection F as <- <-. constructor; eauto. eapply call_ok; eauto.
Qed.
Lemma forward_none_masked b ls ls' : Forall layer_ok ls -> forward b ls = (ls', None) ->
  forall l v, In l ls' -> In v (pl_vars l) -> var_masked v.
Proof.
  revert ls'. induction ls as [|l ls IH]; intros ls' H F; cbn [forward] in F.
  - injection F as <-. intros ? ? [].
  - inversion H; subst. destruct (call_layer b l) as [l1 [e|]] eqn:E; [discriminate|].
    destruct (forward b ls) as [r y] eqn:G. injection F as <- ->.
    intros l0 v [<-|Hl] Hv.
    + eapply call_none_masked; eauto.
    + eapply IH; eauto.
Qed.

Lemma Forall_combine_r {A B} (P : B -> Prop) (l : list A) l' : Forall P l' -> Forall (fun p => P (snd p)) (combine l l').
Proof.
  intros H. apply Forall_forall. intros [a b] Hp. apply in_combine_r in Hp. rewrite Forall_forall in H. auto.
Qed.

Lemma assign_ok f ls : Forall layer_ok ls -> Forall layer_ok (assign_weights f ls).
Proof.
  intros H. unfold assign_weights. apply Forall_map.
  eapply Forall_impl; [|apply Forall_combine_r; exact H]. intros [i l] O. cbn [snd] in O. unfold layer_ok in *.
  cbn [pl_vars]. apply Forall_map. eapply Forall_impl; [|apply Forall_combine_r; exact O].
  intros [j v] (A & B & C & D). cbn [snd] in *. unfold var_ok. cbn [pv_w pv_mask shape]. repeat split; auto.
  unfold wf in *. cbn [shape data]. rewrite map_length, seq_length. auto.
Qed.

Lemma pstep_ok m e m' x : model_ok m -> pstep m e = (m', x) -> model_ok m'.
Proof.
  intros H E. unfold model_ok in *. destruct e; cbn [pstep] in E.
  - injection E as <- <-. cbn. destruct (pm_layers m) as [|l r]; auto. cbn [on_train_begin].
    destruct (_ =? -1)%Z; auto. apply Forall_map. eapply Forall_impl; [|exact H]. intros; apply set_step_ok; auto.
  - destruct (forward true (pm_layers m)) as [ls y] eqn:F. injection E as <- <-. eapply forward_ok; eauto.
  - destruct (forward false (pm_layers m)) as [ls y] eqn:F. injection E as <- <-. eapply forward_ok; eauto.
  - injection E as <- <-. apply assign_ok; auto.
  - injection E as <- <-. unfold on_epoch_end. destruct (pm_collected m); auto. cbn. apply Forall_map.
    eapply Forall_impl; [|exact H]. exact weight_mask_ok.
Qed.
Lemma prun_ok es : forall m m' xs, model_ok m -> prun m es = (m', xs) -> model_ok m'.
Proof.
  induction es as [|e es IH]; intros m m' xs H R; cbn [prun] in R.
  - injection R as <- <-. auto.
  - destruct (pstep m e) as [m1 x] eqn:E. destruct (prun m1 es) as [m2 ys] eqn:F. injection R as <- <-.
    eapply IH; [|exact F]. eapply pstep_ok; eauto.
Qed.

Lemma build_ok sched pp ws l : Forall wf ws -> build_layer sched pp ws = Ok l -> layer_ok l /\ pl_step l = (-1)%Z.
Proof.
  intros H. unfold build_layer. destruct (validate_block pp ws); cbn [bind]; [|discriminate].
  intros K. injection K as <-. split; auto. unfold layer_ok. cbn [pl_vars]. apply Forall_map.
  eapply Forall_impl; [|exact H]. intros w W. unfold var_ok. cbn [pv_w pv_mask shape]. repeat split; auto.
  - unfold wf in *. cbn [shape data]. rewrite repeat_length. auto.
  - intros x Hx. cbn [data] in Hx. apply repeat_spec in Hx. subst. right. reflexivity.
Qed.


Lemma masked_after m es m1 xs e m2 x : model_ok m -> prun m es = (m1, xs) -> pstep m1 e = (m2, x) ->
  masks_weights e m1 x -> all_masked m2.
Proof.
  intros O R E HM. pose proof (prun_ok _ _ _ _ O R) as O1. unfold all_masked. destruct e; cbn in HM; try tauto;
  cbn [pstep] in E.
  - subst x. destruct (forward true (pm_layers m1)) as [ls y] eqn:F. injection E as <- ->. cbn.
    eapply forward_none_masked; eauto.
  - subst x. destruct (forward false (pm_layers m1)) as [ls y] eqn:F. injection E as <- ->. cbn.
    eapply forward_none_masked; eauto.
  - injection E as <- <-. unfold on_epoch_end. rewrite HM. cbn. intros l v Hl Hv.
    apply in_map_iff in Hl as (l0 & <- & Hl). cbn [weight_mask_op pl_vars] in Hv.
    apply in_map_iff in Hv as (u & <- & Hu). apply mask_var_masked.
    unfold model_ok in O1. rewrite Forall_forall in O1. specialize (O1 l0 Hl). unfold layer_ok in O1.
    rewrite Forall_forall in O1. auto.
Qed.




Lemma masks_weight_mask l : masks_of (weight_mask_op l) = masks_of l.
Proof. unfold masks_of, weight_mask_op. cbn [pl_vars]. rewrite map_map. auto. Qed.

Lemma due_iff l : mask_update_due l = true <-> due_at l (pl_step l).
Proof.
  unfold mask_update_due, due_at. destruct (pp_m_by_n (pl_pp l)); [apply Z.eqb_eq|tauto].
Qed.

Lemma call_masks l l' x : call_layer true l = (l', x) ->
  masks_of l' = masks_of l \/
  (due_at l (pl_step l + 1) /\ pl_step l' = (pl_step l + 1)%Z /\ x = None /\ recomputed l l').
Proof.
  unfold call_layer. cbn [set_step pl_step].
  destruct (_ <? 1)%Z; [intros K; injection K as <- <-; auto|].
  unfold conditional_mask_update.
  destruct (mask_update_due (set_step l (pl_step l + 1))) eqn:D.
  - cbn [pl_vars set_step].
    destruct (mapM _ (pl_vars l)) as [vs|] eqn:E; cbn [bind]; [|intros K; injection K as <- <-; auto].
    intros K. injection K as <- <-. right. apply due_iff in D. cbn in D. split; auto. split; auto. split; auto.
    unfold recomputed. cbn [weight_mask_op pl_vars pl_step]. apply mapM_ok in E.
    clear D. induction E as [|v v' us us' Hv E IH]; cbn [map]; constructor; auto.
    unfold update_var in Hv. cbn [pl_pp pl_sched pl_step] in Hv.
    destruct (maybe_update_block_mask _ _ _) as [[t mk]|]; cbn [bind] in Hv; [|discriminate].
    injection Hv as <-. cbn. auto.
  - intros K. injection K as <- <-. left. rewrite masks_weight_mask. auto.
Qed.

Lemma call_due l l' : call_layer true l = (l', None) -> due_at l (pl_step l + 1) -> recomputed l l'.
Proof.
  intros E D. unfold call_layer in E. cbn [set_step pl_step] in E.
  destruct (_ <? 1)%Z; [discriminate|]. unfold conditional_mask_update in E.
  assert (mask_update_due (set_step l (pl_step l + 1)) = true) as HD by (apply due_iff; exact D).
  rewrite HD in E. cbn [pl_vars set_step] in E.
  destruct (mapM _ (pl_vars l)) as [vs|] eqn:EM; cbn [bind] in E; [|discriminate].
  injection E as <-. unfold recomputed. cbn [weight_mask_op pl_vars pl_step]. apply mapM_ok in EM.
  clear D HD. induction EM as [|v v' us us' Hv EM IH]; cbn [map]; constructor; auto.
  unfold update_var in Hv. cbn [pl_pp pl_sched pl_step] in Hv.
  destruct (maybe_update_block_mask _ _ _) as [[t mk]|]; cbn [bind] in Hv; [|discriminate].
  injection Hv as <-. cbn. auto.
Qed.

Lemma forward_nth b ls : forall ls' x i l l', forward b ls = (ls', x) -> nth_error ls i = Some l ->
  nth_error ls' i = Some l' -> l' = l \/ exists y, call_layer b l = (l', y) /\ (y = None \/ y = x).
Proof.
  induction ls as [|a ls IH]; intros ls' x i l l' F A B; [destruct i; discriminate|].
  cbn [forward] in F. destruct (call_layer b a) as [a1 [e|]] eqn:E.
  - injection F as <- <-. destruct i as [|i]; cbn in A, B.
    + injection A as ->. injection B as ->. right. eauto.
    + left. congruence.
  - destruct (forward b ls) as [r y] eqn:G. injection F as <- <-. destruct i as [|i]; cbn in A, B.
    + injection A as ->. injection B as ->. right. eauto.
    + destruct (IH _ _ _ _ _ eq_refl A B) as [->|(z & C & D)]; auto. right. exists z. split; auto.
Qed.

Lemma nth_error_combine_seq {A} (l : list A) k i : nth_error (combine (seq k (length l)) l) i =
  match nth_error l i with Some a => Some ((k + i)%nat, a) | None => None end.
Proof.
  revert k i. induction l as [|a l IH]; intros k [|i]; cbn; auto.
  - rewrite Nat.add_0_r. auto.
  - rewrite IH. destruct (nth_error l i); auto. f_equal. f_equal. lia.
Qed.

Lemma assign_masks f ls i l l' : nth_error ls i = Some l -> nth_error (assign_weights f ls) i = Some l' ->
  masks_of l' = masks_of l.
Proof.
  intros A B. unfold assign_weights in B. rewrite nth_error_map, nth_error_combine_seq, A in B. cbn in B.
  injection B as <-. unfold masks_of. cbn [pl_vars]. rewrite map_map.
  assert (forall k vs, map (fun x : nat * pvar => (fun v => (pv_mask v, pv_thr v))
     (let '(j, v) := x in mkV (mkT (shape (pv_w v)) (map (f i j) (seq 0 (length (data (pv_w v)))))) (pv_mask v) (pv_thr v)))
     (combine (seq k (length vs)) vs) = map (fun v => (pv_mask v, pv_thr v)) vs) as K.
  { intros k vs. revert k. induction vs as [|v vs IH]; intros k; cbn; auto. f_equal. apply IH. }
  apply K.
Qed.

Lemma masks_change_only_when_due m e m' x i l l' :
  pstep m e = (m', x) -> nth_error (pm_layers m) i = Some l -> nth_error (pm_layers m') i = Some l' ->
  masks_of l' = masks_of l \/
  (e = TrainBatch /\ due_at l (pl_step l + 1) /\ pl_step l' = (pl_step l + 1)%Z /\ recomputed l l').
Proof.
  intros E A B. destruct e; cbn [pstep] in E.
  - left. injection E as <- <-. cbn in B. destruct (pm_layers m) as [|a r] eqn:L; [destruct i; discriminate|].
    cbn [on_train_begin] in B. destruct (_ =? -1)%Z.
    + rewrite nth_error_map, A in B. injection B as <-. auto.
    + congruence.
  - destruct (forward true (pm_layers m)) as [ls y] eqn:F. injection E as <- <-. cbn in B.
    destruct (forward_nth _ _ _ _ _ _ _ F A B) as [->|(z & C & D)]; auto.
    apply call_masks in C as [C|(C1 & C2 & C3 & C4)]; auto.
  - left. destruct (forward false (pm_layers m)) as [ls y] eqn:F. injection E as <- <-. cbn in B.
    rewrite forward_false in F. injection F as <- <-. rewrite nth_error_map, A in B. injection B as <-.
    apply masks_weight_mask.
  - left. injection E as <- <-. cbn in B. eapply assign_masks; eauto.
  - left. injection E as <- <-. unfold on_epoch_end in B. destruct (pm_collected m); cbn in B; [|congruence].
    rewrite nth_error_map, A in B. injection B as <-. apply masks_weight_mask.
Qed.

Lemma due_batch_recomputes m m' i l l' :
  pstep m TrainBatch = (m', None) -> nth_error (pm_layers m) i = Some l -> nth_error (pm_layers m') i = Some l' ->
  due_at l (pl_step l + 1) -> recomputed l l'.
Proof.
  intros E A B D. cbn [pstep] in E. destruct (forward true (pm_layers m)) as [ls y] eqn:F. injection E as <- ->.
  cbn in B. apply forward_true_none in F. clear -F A B D. revert i A B.
  induction F as [|a a' r r' C F IH]; intros [|i] A B; cbn in A, B; try discriminate; eauto.
  injection A as ->. injection B as ->. eapply call_due; eauto.
Qed.


Lemma pstep_step m e m' x i l l' : pstep m e = (m', x) -> nth_error (pm_layers m) i = Some l ->
  nth_error (pm_layers m') i = Some l' -> pl_sched l' = pl_sched l /\ pl_pp l' = pl_pp l /\
  ((0 <= pl_step l)%Z -> (pl_step l <= pl_step l')%Z \/ e = TrainBegin).
Proof.
  intros E A B. destruct e; cbn [pstep] in E.
  - injection E as <- <-. cbn in B. destruct (pm_layers m) as [|a r] eqn:L; [destruct i; discriminate|].
    cbn [on_train_begin] in B. destruct (_ =? -1)%Z.
    + rewrite nth_error_map, A in B. injection B as <-. auto.
    + rewrite A in B. injection B as <-. auto.
  - destruct (forward true (pm_layers m)) as [ls y] eqn:F. injection E as <- <-. cbn in B.
    destruct (forward_nth _ _ _ _ _ _ _ F A B) as [->|(z & C & D)]. { repeat split; auto. left. lia. }
    assert (pl_step l' = (pl_step l + 1)%Z) as St.
    { destruct z; [eapply call_true_some; eauto|apply call_true_none in C; tauto]. }
    repeat split; [| |intros; left; lia].
    + unfold call_layer in C. destruct (_ <? 1)%Z; [injection C as <- <-; auto|].
      unfold conditional_mask_update in C. destruct (mask_update_due _); [|injection C as <- <-; auto].
      destruct (mapM _ _); cbn [bind] in C; injection C as <- <-; auto.
    + unfold call_layer in C. destruct (_ <? 1)%Z; [injection C as <- <-; auto|].
      unfold conditional_mask_update in C. destruct (mask_update_due _); [|injection C as <- <-; auto].
      destruct (mapM _ _); cbn [bind] in C; injection C as <- <-; auto.
  - rewrite forward_false in E. injection E as <- <-. cbn in B. rewrite nth_error_map, A in B. injection B as <-.
    repeat split; auto. left. cbn. lia.
  - injection E as <- <-. cbn in B. unfold assign_weights in B. rewrite nth_error_map, nth_error_combine_seq, A in B.
    cbn in B. injection B as <-. repeat split; auto. left. cbn. lia.
  - injection E as <- <-. unfold on_epoch_end in B. destruct (pm_collected m); cbn in B.
    + rewrite nth_error_map, A in B. injection B as <-. repeat split; auto. left. cbn. lia.
    + rewrite A in B. injection B as <-. repeat split; auto. left. lia.
Qed.

Lemma pstep_length m e m' x : pstep m e = (m', x) -> length (pm_layers m') = length (pm_layers m).
Proof.
  intros E. destruct e; cbn [pstep] in E.
  - injection E as <- <-. cbn. destruct (pm_layers m); auto. cbn [on_train_begin]. destruct (_ =? -1)%Z; auto.
    apply map_length.
  - destruct (forward true (pm_layers m)) as [ls y] eqn:F. injection E as <- <-. cbn.
    revert ls y F. induction (pm_layers m) as [|a r IH]; intros ls y F; cbn [forward] in F.
    + injection F as <- <-. auto.
    + destruct (call_layer true a) as [a1 [e|]]; [injection F as <- <-; auto|].
      destruct (forward true r) as [r' z]. injection F as <- <-. cbn. f_equal. eauto.
  - rewrite forward_false in E. injection E as <- <-. cbn. apply map_length.
  - injection E as <- <-. cbn. unfold assign_weights. rewrite map_length, combine_length, seq_length. lia.
  - injection E as <- <-. unfold on_epoch_end. destruct (pm_collected m); auto. cbn. apply map_length.
Qed.

Lemma frozen_after es : forall m m' xs i l l', prun m es = (m', xs) -> steps_nonneg (pm_layers m) ->
  nth_error (pm_layers m) i = Some l -> nth_error (pm_layers m') i = Some l' ->
  never_due_after l (pl_step l) -> masks_of l' = masks_of l.
Proof.
  induction es as [|e es IH]; intros m m' xs i l l' R N A B ND; cbn [prun] in R.
  - injection R as <- <-. congruence.
  - destruct (pstep m e) as [m1 x] eqn:E. destruct (prun m1 es) as [m2 ys] eqn:F. injection R as <- <-.
    assert (exists l1, nth_error (pm_layers m1) i = Some l1) as (l1 & A1).
    { destruct (nth_error (pm_layers m1) i) eqn:K; eauto. apply nth_error_None in K.
      rewrite (pstep_length _ _ _ _ E) in K. apply nth_error_None in K. congruence. }
    destruct (pstep_step _ _ _ _ _ _ _ E A A1) as (S1 & S2 & S3).
    assert (Hl : (0 <= pl_step l)%Z).
    { unfold steps_nonneg in N. rewrite Forall_forall in N. apply N. eapply nth_error_In; eauto. }
    assert (Hle : (pl_step l <= pl_step l1)%Z).
    { destruct (S3 Hl) as [?| ->]; auto. cbn [pstep] in E. injection E as <- <-. cbn in A1.
      rewrite on_train_begin_nonneg in A1 by auto. rewrite A in A1. injection A1 as <-. lia. }
    destruct (pstep_nonneg _ _ _ _ E N) as [N1 _].
    transitivity (masks_of l1).
    + eapply IH; eauto. intros t Ht. unfold never_due_after, due_at in *. rewrite S1, S2. apply ND. lia.
    + destruct (masks_change_only_when_due _ _ _ _ _ _ _ E A A1) as [|(-> & D & _)]; auto.
      exfalso. apply (ND (pl_step l + 1)%Z); auto. lia.
Qed.

Lemma constant_never_due t b e f s sp l : mk_constant t b e f = Ok s -> (0 <= e)%Z ->
  pl_sched l = sched_fun s sp -> pp_m_by_n (pl_pp l) = None -> never_due_after l e.
Proof.
  intros M He S N z Hz D. unfold due_at in D. rewrite N, S in D. cbn in D.
  apply (constant_fires _ _ _ _ _ z M) in D. lia.
Qed.
Lemma polynomial_never_due i fi b e p f s sp l : mk_polynomial i fi b e p f = Ok s ->
  pl_sched l = sched_fun s sp -> pp_m_by_n (pl_pp l) = None -> never_due_after l e.
Proof.
  intros M S N z Hz D. unfold due_at in D. rewrite N, S in D. cbn in D.
  apply (polynomial_fires _ _ _ _ _ _ _ z M) in D. lia.
Qed.
Lemma mbyn_never_due l m n : pp_m_by_n (pl_pp l) = Some (m, n) -> never_due_after l 1.
Proof. intros N z Hz D. unfold due_at in D. rewrite N in D. lia. Qed.

Lemma never_due_mono l s s' : (s <= s')%Z -> never_due_after l s -> never_due_after l s'.
Proof. intros H N t Ht. apply N. lia. Qed.

Lemma fresh_ok m : fresh m -> model_ok m /\ uniform (-1) (pm_layers m).
Proof.
  intros [_ F]. split; (eapply Forall_impl; [|exact F]); intros l (sc & pp & ws & W & B);
  destruct (build_ok sc pp ws l W B); auto.
Qed.

Lemma masked_from_op l : masked_from l (weight_mask_op l).
Proof. unfold masked_from, weight_mask_op. cbn [pl_vars]. induction (pl_vars l); constructor; auto. Qed.

Lemma call_masked_from b l l' : call_layer b l = (l', None) -> masked_from l l'.
Proof.
  destruct b; [|rewrite call_false; intros K; injection K as <-; apply masked_from_op].
  unfold call_layer. destruct (_ <? 1)%Z; [discriminate|].
  destruct (conditional_mask_update (set_step l (pl_step l + 1))) as [l2|] eqn:E; [|discriminate].
  intros K. injection K as <-. unfold conditional_mask_update in E.
  destruct (mask_update_due _).
  - cbn [pl_vars set_step] in E. destruct (mapM _ (pl_vars l)) as [vs|] eqn:M; cbn [bind] in E; [|discriminate].
    injection E as <-. apply mapM_ok in M. unfold masked_from, weight_mask_op. cbn [pl_vars].
    induction M as [|v v' r r' Hv M IH]; cbn [map]; constructor; auto.
    unfold update_var in Hv. destruct (maybe_update_block_mask _ _ _) as [[t k]|]; cbn [bind] in Hv; [|discriminate].
    injection Hv as <-. reflexivity.
  - injection E as <-. apply (masked_from_op (set_step l (pl_step l + 1))).
Qed.

Lemma forward_masked_from b ls ls' : forward b ls = (ls', None) -> Forall2 masked_from ls ls'.
Proof.
  revert ls'. induction ls as [|l ls IH]; intros ls' F; cbn [forward] in F.
  - injection F as <-. constructor.
  - destruct (call_layer b l) as [l1 [e|]] eqn:E; [discriminate|].
    destruct (forward b ls) as [r y] eqn:G. injection F as <- ->. constructor; auto.
    eapply call_masked_from; eauto.
Qed.

Lemma step_masked_from m e m' x : pstep m e = (m', x) -> masks_weights e m x ->
  Forall2 masked_from (pm_layers m) (pm_layers m').
Proof.
  intros E M. destruct e; cbn in M; try tauto; cbn [pstep] in E.
  - subst. destruct (forward true _) as [ls y] eqn:F. injection E as <- ->. eapply forward_masked_from; eauto.
  - subst. destruct (forward false _) as [ls y] eqn:F. injection E as <- ->. eapply forward_masked_from; eauto.
  - injection E as <- <-. unfold on_epoch_end. rewrite M. cbn. induction (pm_layers m); cbn; constructor; auto.
    apply masked_from_op.
Qed.

Lemma unmasked_unchanged l l' : layer_ok l -> layer_ok l' -> masked_from l l' ->
  Forall2 (fun v v' => forall i, (i < length (data (pv_w v)))%nat ->
     nth i (data (pv_mask v')) 0 == 1 -> nth i (data (pv_w v')) 0 == nth i (data (pv_w v)) 0) (pl_vars l) (pl_vars l').
Proof.
  intros O O' M. unfold layer_ok in O, O'. unfold masked_from in M. revert O O'.
  induction M as [|v v' r r' H M IH]; intros O O'; constructor.
  - inversion O as [|? ? A _]; inversion O' as [|? ? B _]; subst. intros i Hi K.
    destruct A as (A1 & _). destruct B as (_ & B2 & B3 & _). rewrite H in B3.
    assert (length (data (pv_w v)) = length (data (pv_mask v'))) as L.
    { unfold wf in *. rewrite A1, B2, B3. reflexivity. }
    rewrite H, tmul_nth, K by auto. ring.
  - inversion O; inversion O'; subst. auto.
Qed.

Lemma unmasked_unchanged_run m es m1 xs e m2 x : model_ok m -> prun m es = (m1, xs) -> pstep m1 e = (m2, x) ->
  masks_weights e m1 x ->
  Forall2 (fun l l' => Forall2 (fun v v' => forall i, (i < length (data (pv_w v)))%nat ->
     nth i (data (pv_mask v')) 0 == 1 -> nth i (data (pv_w v')) 0 == nth i (data (pv_w v)) 0) (pl_vars l) (pl_vars l'))
    (pm_layers m1) (pm_layers m2).
Proof.
  intros O R E M. pose proof (prun_ok _ _ _ _ O R) as O1. pose proof (pstep_ok _ _ _ _ O1 E) as O2.
  pose proof (step_masked_from _ _ _ _ E M) as F. unfold model_ok in *. clear -O1 O2 F.
  induction F; constructor; inversion O1; inversion O2; subst; auto. apply unmasked_unchanged; auto.
Qed.
