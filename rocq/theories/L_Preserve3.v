(** Cluster-preserving quantizer: histories. *)
From Coq Require Import String.
From Verif Require Import Base M_Num L_Num M_Tensor L_Tensor M_Stages L_Stages M_Cluster M_ClusterWrapper S_Cluster S_ClusterWrapper L_Cluster L_Cluster5 L_Cluster6 L_Cluster7 L_Cluster8 L_Cluster9 M_Quant S_Quant L_Quant L_Quantizers L_Quantizers3 L_Quantizers4 M_Preserve S_Preserve L_Preserve L_Preserve2.
Open Scope Q_scope.

(** ** A base quantizer maps equal weights (of a channel) to equal weights *)
Definition same_scale (k : kclass) (i j : list nat) : Prop := match k with KDense => True | KConv2D => output_channel i = output_channel j end.
Lemma last_output (s idx : list nat) : length s = 4%nat -> valid s idx -> last idx 0%nat = output_channel idx.
Proof. intros L V. destruct s as [|a [|b [|c [|d [|]]]]]; try discriminate. destruct (L_Quantizers4.perm4_valid _ _ _ _ _ V) as (i & j & k & l & -> & _). reflexivity. Qed.
Lemma base_call_equal k tr u x y u' : kernel k x -> call (base_quantizer k) tr u x = Ok (y, u') -> shape y = shape x /\ wf y /\
  forall i j, valid (shape x) i -> valid (shape x) j -> same_scale k i j -> tget 0 x i == tget 0 x j -> tget 0 y i == tget 0 y j.
Proof.
  intros (W & N & R) E. destruct k.
  - cbn [base_quantizer call] in E. destruct u as [r|]; try discriminate; cbn [need_w bind lift] in E; unfold lift, LastValueQuantize in E.
    destruct tr; cbn [negb] in E.
    + destruct (batch_ranges _ x); [|discriminate]; cbn [bind] in E; destruct (assign_with _ r _) as [w'|]; [|discriminate]; cbn [bind] in E.
      destruct w' as [lo hi|]; [|discriminate]. cbn [FakeQuantWithMinMaxVars Nat.leb negb andb bind] in E. injection E as <- <-.
      split; [reflexivity|]. split; [now apply tmap_wf|]. intros i j Vi Vj _ Q. rewrite !(tget_tmap _ 0 0) by auto. now apply fake_quant_compat.
    + destruct r as [lo hi|]; [|discriminate]. cbn [FakeQuantWithMinMaxVars Nat.leb negb andb bind] in E. injection E as <- <-.
      split; [reflexivity|]. split; [now apply tmap_wf|]. intros i j Vi Vj _ Q. rewrite !(tget_tmap _ 0 0) by auto. now apply fake_quant_compat.
  - apply per_axis_call in E as (l & -> & _ & F & _); [|reflexivity|split; auto]. apply fq_per_axis in F as (S & Wy & _ & _ & G); [|exact W]. split; [exact S|]. split; [exact Wy|].
    intros i j Vi Vj Sc Q. rewrite (G i Vi), (G j Vj). rewrite (last_output (shape x) i), (last_output (shape x) j) by auto. cbn in Sc. rewrite Sc. now apply fake_quant_compat.
Qed.
(** Hence numbers of distinct values carry over. *)
Lemma distinct_image {A} (P : A -> Prop) (f g : A -> Q) n lf lg :
  (forall q, In q lf -> exists a, P a /\ q = f a) -> (forall q, In q lg -> exists a, P a /\ In (f a) lf /\ q = g a) ->
  (forall a b, P a -> P b -> f a == f b -> g a == g b) -> (exists as_, forall a, P a -> In a as_) -> (forall a, P a \/ ~ P a) ->
  at_most_distinct n lf -> at_most_distinct n lg.
Proof.
  intros Hf Hg Eq (as_ & Fin) Dec (vals & L & H).
  assert (exists vals', length vals' = length vals /\ forall a v, P a -> In v vals -> f a == v -> exists v', In v' vals' /\ g a == v') as (vals' & L' & H').
  { clear H L. induction vals as [|v vals (vals' & L' & IH)]; [exists []; split; [auto|intros; contradiction]|].
    assert ((exists a, P a /\ f a == v) \/ ~ exists a, P a /\ f a == v) as [(a0 & Pa & Ea)|No].
    { assert ((exists a, In a as_ /\ P a /\ f a == v) \/ ~ exists a, In a as_ /\ P a /\ f a == v) as D.
      { clear Fin. induction as_ as [|a r IHr]; [right; intros (a & [] & _)|]. destruct IHr as [(b & I & Pb & Q)|No]; [left; exists b; split; [now right|auto]|].
        destruct (Dec a) as [Pa|Na]; [|right; intros (b & [<-|I] & Pb & Q); [auto|apply No; eauto]]. destruct (Qeq_dec (f a) v) as [Q|NQ]; [left; exists a; split; [now left|auto]|].
        right. intros (b & [<-|I] & Pb & Q); [auto|apply No; eauto]. }
      destruct D as [(a & _ & D)|No]; [left; eauto|right]. intros (a & Pa & Q). apply No. exists a. auto. }
    - exists (g a0 :: vals'). split; [cbn; lia|]. intros a u Pa' [<-|I] Q.
      + exists (g a0). split; [now left|]. apply Eq; auto. now rewrite Q, Ea.
      + destruct (IH a u Pa' I Q) as (v' & I' & Q'). exists v'. split; [now right|auto].
    - exists (0 :: vals'). split; [cbn; lia|]. intros a u Pa' [<-|I] Q.
      + exfalso. apply No. eauto.
      + destruct (IH a u Pa' I Q) as (v' & I' & Q'). exists v'. split; [now right|auto]. }
  exists vals'. split; [lia|]. intros q Iq. destruct (Hg q Iq) as (a & Pa & If & ->). destruct (H _ If) as (v & Iv & Q). exact (H' a v Pa Iv Q).
Qed.
Lemma valid_finite s : exists l, forall idx, valid s idx -> In idx l.
Proof. exists (map (unravel s) (seq 0 (prod s))). intros idx V. apply in_map_iff. exists (ravel s idx). split; [now apply unravel_ravel|]. apply in_seq. split; [lia|]. now apply ravel_lt. Qed.
Lemma valid_dec s : forall idx, valid s idx \/ ~ valid s idx.
Proof.
  intros idx. destruct (valid_finite s) as (l & H). assert (In idx l \/ ~ In idx l) as [I|N] by (destruct (in_dec (list_eq_dec Nat.eq_dec) idx l); auto).
  - destruct (list_eq_dec Nat.eq_dec (unravel s (ravel s idx)) idx) as [E|NE]; [|right; intros V; apply NE; now apply unravel_ravel].
    destruct (Nat.lt_ge_cases (ravel s idx) (prod s)) as [L|G]; [left; rewrite <- E; now apply unravel_valid|right; intros V; apply ravel_lt in V; lia].
  - right. auto.
Qed.
Lemma output_channel_intro t c idx : valid (shape t) idx -> output_channel idx = c -> In (tget 0 t idx) (output_channel_values t c).
Proof.
  intros V C. unfold output_channel_values. apply in_map. apply filter_In. split; [|now apply Nat.eqb_eq]. apply in_map_iff. exists (ravel (shape t) idx). split; [now apply unravel_ravel|].
  apply in_seq. split; [lia|]. now apply ravel_lt.
Qed.
Lemma In_data t idx : wf t -> valid (shape t) idx -> In (tget 0 t idx) (data t).
Proof. intros W V. unfold tget. apply nth_In. rewrite W. now apply ravel_lt. Qed.
Lemma base_call_dense tr u x y u' n : kernel KDense x -> call (base_quantizer KDense) tr u x = Ok (y, u') -> at_most_distinct n (data x) -> at_most_distinct n (data y).
Proof.
  intros K E D. pose proof K as (W & _ & _). destruct (base_call_equal _ _ _ _ _ _ K E) as (Sy & Wy & G). revert D. apply (distinct_image (valid (shape x)) (tget 0 x) (tget 0 y)).
  - intros q I. destruct (In_data_idx 0 x q W I) as (idx & V & <-). eauto.
  - intros q I. destruct (In_data_idx 0 y q Wy I) as (idx & V & <-). rewrite Sy in V. exists idx. split; [auto|]. split; [now apply In_data|reflexivity].
  - intros a b Va Vb. now apply G.
  - apply valid_finite.
  - apply valid_dec.
Qed.
Lemma base_call_channel tr u x y u' n c : kernel KConv2D x -> call (base_quantizer KConv2D) tr u x = Ok (y, u') -> at_most_distinct n (output_channel_values x c) -> at_most_distinct n (output_channel_values y c).
Proof.
  intros K E D. destruct (base_call_equal _ _ _ _ _ _ K E) as (Sy & Wy & G). revert D. apply (distinct_image (fun idx => valid (shape x) idx /\ output_channel idx = c) (tget 0 x) (tget 0 y)).
  - intros q I. apply output_channel_In in I as (idx & V & C & <-). eauto.
  - intros q I. apply output_channel_In in I as (idx & V & C & <-). rewrite Sy in V. exists idx. split; [auto|]. split; [now apply output_channel_intro|reflexivity].
  - intros a b [Va Ca] [Vb Cb]. apply G; auto. cbn. congruence.
  - destruct (valid_finite (shape x)) as (l & H). exists l. intros a [V _]. auto.
  - intros a. destruct (valid_dec (shape x) a) as [V|N]; [|right; tauto]. destruct (Nat.eq_dec (output_channel a) c); [left|right]; tauto.
Qed.

(** ** build *)
Definition has_zero_entry (w : tensor Q) : bool := existsb (fun v => Qeq_bool v 0) (data w).
Lemma cp_build_cases k df flag w flag' v : kernel k w -> cp_build k df flag w = Ok (flag', v) ->
  flag' = (flag && has_zero_entry w)%bool /\ cp_kernel v = w /\ cp_smask v = (if flag' then Some (sparsity_mask w) else None) /\ build (base_quantizer k) (Some (shape w)) = Ok (cp_range v) /\
  exists cs num lk, get_centroids k df w = Ok (cs, num, lk) /\
    ((cp_cluster v = None /\ (1024 < num \/ num <= 1)%nat) \/
     ((1 < num <= 1024)%nat /\ exists p, pull df cs w = Ok p /\ prod (shape p) = prod lk /\
        cp_cluster v = Some (mkCPC cs w (mkT lk (data p)) (if flag' then Some (centroids_mask cs) else None)))).
Proof.
  intros K H. unfold cp_build in H. destruct (get_centroids k df w) as [[[cs num] lk]|] eqn:G; [|discriminate]. cbn [bind] in H.
  change (existsb (fun v0 => Qeq_bool v0 0) (data w)) with (has_zero_entry w) in H.
  destruct ((1024 <? num) || (num <=? 1))%nat eqn:C; cbn [bind] in H.
  - destruct (build _ _) as [r|] eqn:B; [|discriminate]. cbn [bind] in H. injection H as <- <-. cbn [cp_kernel cp_smask cp_range cp_cluster]. repeat split; auto. exists cs, num, lk. split; [auto|]. left. split; [auto|].
    apply orb_true_iff in C as [C|C]; [apply Nat.ltb_lt in C|apply Nat.leb_le in C]; auto.
  - destruct (pull df cs w) as [p|] eqn:P; [|discriminate]. cbn [bind] in H. destruct (Nat.eqb_spec (prod (shape p)) (prod lk)) as [L|]; [|discriminate]. cbn [negb bind] in H.
    destruct (build _ _) as [r|] eqn:B; [|discriminate]. cbn [bind] in H. injection H as <- <-. cbn [cp_kernel cp_smask cp_range cp_cluster]. repeat split; auto. exists cs, num, lk. split; [auto|]. right.
    apply orb_false_iff in C as [C1 C2]. apply Nat.ltb_ge in C1. apply Nat.leb_gt in C2. split; [lia|]. exists p. auto.
Qed.

(** ** Histories *)
Section CP.
Context (k : kclass) (df : data_format) (flag0 flagb : bool) (w0 : tensor Q) (v0 : cpvars).
Context (K : kernel k w0) (B : cp_build k df flag0 w0 = Ok (flagb, v0)).
Definition cinv (c0 c : cpcluster) : Prop := same_form (cc_cents c0) (cc_cents c) /\ like w0 (cc_orig c) /\ cc_mask c = cc_mask c0.
Definition vinv (v : cpvars) : Prop :=
  like w0 (cp_kernel v) /\ cp_smask v = cp_smask v0 /\
  match cp_cluster v0, cp_cluster v with None, None => True | Some c0, Some c => cinv c0 c | _, _ => False end /\
  exists calls, run (base_quantizer k) (cp_range v0) calls = Ok (cp_range v).
Lemma W0 : wf w0. Proof. apply K. Qed.
Lemma like_refl : like w0 w0. Proof. split; [apply W0|reflexivity]. Qed.
Lemma smask0 m : cp_smask v0 = Some m -> m = sparsity_mask w0.
Proof. destruct (cp_build_cases _ _ _ _ _ _ K B) as (_ & _ & -> & _). destruct flagb; [now intros [= <-]|discriminate]. Qed.
Lemma cluster0 c0 : cp_cluster v0 = Some c0 -> compat df (cc_cents c0) w0 /\ (forall cm, cc_mask c0 = Some cm -> cm = centroids_mask (cc_cents c0)) /\ exists num lk, get_centroids k df w0 = Ok (cc_cents c0, num, lk) /\ (1 < num <= 1024)%nat.
Proof.
  destruct (cp_build_cases _ _ _ _ _ _ K B) as (_ & _ & _ & _ & cs & num & lk & G & [[-> _]|(N & p & P & L & ->)]); [discriminate|]. intros [= <-]. cbn [cc_cents cc_mask].
  split; [apply (get_centroids_cases k df w0 cs num lk K G)|]. split; [intros cm; destruct flagb; [now intros [= <-]|discriminate]|]. eauto.
Qed.
Lemma vinv0 : vinv v0.
Proof.
  destruct (cp_build_cases _ _ _ _ _ _ K B) as (_ & Ek & _ & _ & cs & num & lk & G & C). split; [rewrite Ek; apply like_refl|]. split; [reflexivity|]. split; [|exists []; reflexivity].
  destruct C as [[-> _]|(_ & p & _ & _ & ->)]; [exact I|]. split; [apply same_form_refl|]. split; [apply like_refl|reflexivity].
Qed.

(** What a training call does to a clustered weight. *)
Definition effective (flag : bool) (c : cpcluster) (cs : centroids) (og : tensor Q) : Prop :=
  if flag then og = tmap2 Qmult (cc_orig c) (sparsity_mask w0) else cs = cc_cents c /\ og = cc_orig c.
Lemma train_clustered flag v c c0 y v' : vinv v -> cp_cluster v0 = Some c0 -> cp_cluster v = Some c -> cp_call k df flag true v = Ok (y, v') ->
  exists cs og, same_form (cc_cents c0) cs /\ like w0 og /\ compat df cs og /\ effective flag c cs og /\ (flag = true -> cs = mask_centroids (cc_cents c) (centroids_mask (cc_cents c0))) /\
    (flag = true -> forall idx, valid (shape w0) idx -> exists z, In z (centroids_at df cs idx) /\ z == 0) /\
    cp_smask v' = cp_smask v /\ like w0 (cp_kernel v') /\ (exists p, cp_cluster v' = Some (mkCPC cs og p (cc_mask c))) /\
    (forall idx, valid (shape w0) idx -> tget 0 (cp_kernel v') idx = add_gradient (gather (centroids_at df cs idx) (pulling_index (centroids_at df cs idx) (tget 0 og idx))) (tget 0 og idx)) /\
    call (base_quantizer k) true (cp_range v) (cp_kernel v') = Ok (y, cp_range v').
Proof.
  intros (Lk & Sm & Ci & _) E0 E1 H. rewrite E0, E1 in Ci. destruct Ci as (F & L & M). destruct (cluster0 c0 E0) as (Co & Cm & _).
  unfold cp_call in H. rewrite E1 in H.
  assert (exists cs og, same_form (cc_cents c0) cs /\ like w0 og /\ effective flag c cs og /\ (flag = true -> cs = mask_centroids (cc_cents c) (centroids_mask (cc_cents c0))) /\
     (if flag then match cp_smask v, cc_mask c with Some m, Some cm => do og <- mask_product (cc_orig c) m ;; Ok (mkCPC (mask_centroids (cc_cents c) cm) og (cc_idx c) (cc_mask c)) | _, _ => Err KeyError end else Ok c) = Ok (mkCPC cs og (cc_idx c) (cc_mask c))) as (cs & og & F' & L' & Ef & Ec & E).
  { destruct flag.
    - destruct (cp_smask v) as [m|] eqn:Em; [|discriminate H]. symmetry in Sm. apply smask0 in Sm. subst m. destruct (cc_mask c) as [cm|] eqn:Ecm; [|discriminate H]. symmetry in M. apply Cm in M. subst cm.
      exists (mask_centroids (cc_cents c) (centroids_mask (cc_cents c0))), (tmap2 Qmult (cc_orig c) (sparsity_mask w0)). split; [now apply mask_form|]. split; [apply masked_like; [apply W0|exact L]|].
      split; [reflexivity|]. split; [reflexivity|]. rewrite product_ok by (apply L). reflexivity.
    - exists (cc_cents c), (cc_orig c). split; [exact F|]. split; [exact L|]. split; [split; reflexivity|]. split; [discriminate|]. destruct c; reflexivity. }
  rewrite E in H. cbn [bind cc_cents cc_orig cc_idx cc_mask] in H.
  assert (compat df cs og) as C' by (apply (same_form_compat df (cc_cents c0) cs w0 og F' Co); apply L').
  destruct (pull_cluster df cs og C') as (p & r & P & R & Sr & Wr & Gr & _). rewrite P in H. cbn [bind] in H. destruct (same_shape p (cc_idx c)); [|discriminate]. cbn [negb] in H. rewrite R in H. cbn [bind] in H.
  cbn [cp_range] in H. destruct (call (base_quantizer k) true (cp_range v) r) as [[y' u']|] eqn:Q; [|discriminate]. cbn [bind cp_kernel cp_smask cp_cluster] in H. injection H as <- <-. cbn [cp_kernel cp_smask cp_cluster cp_range].
  destruct L' as [Wo So]. exists cs, og. split; [exact F'|]. split; [split; assumption|]. split; [exact C'|]. split; [exact Ef|]. split; [exact Ec|].
  split. { intros E' idx V. rewrite (Ec E'). apply (mask_has_zero df (cc_cents c0) (cc_cents c) w0 idx Co F V). }
  split; [reflexivity|]. split; [split; [exact Wr|congruence]|]. split; [eauto|]. split; [|exact Q].
  intros idx V. apply Gr. now rewrite So.
Qed.
Lemma run_call_any r0 r tr x y u calls : run (base_quantizer k) r0 calls = Ok r -> call (base_quantizer k) tr r x = Ok (y, u) -> exists calls', run (base_quantizer k) r0 calls' = Ok u.
Proof. intros R C. exists (calls ++ [(tr, x)])%list. now apply (run_snoc _ _ _ _ _ y r). Qed.
Lemma step_inv flag v e v' : vinv v -> cp_fits w0 v0 e -> cp_step k df flag v e = Ok v' -> vinv v'.
Proof.
  intros I Fi H. destruct e as [tr|kr og cs]; cbn [cp_step] in H.
  - destruct (cp_call k df flag tr v) as [[y u]|] eqn:E; [|discriminate]. cbn [bind] in H. injection H as <-.
    pose proof I as (Lk & Sm & Ci & calls & R). destruct tr.
    + destruct (cp_cluster v0) as [c0|] eqn:E0, (cp_cluster v) as [c|] eqn:E1; try contradiction.
      * destruct (train_clustered flag v c c0 y u I E0 E1 E) as (cs & og & F & L & _ & _ & _ & _ & Sm' & Lk' & (p & Ecl) & _ & Q). split; [exact Lk'|]. split; [congruence|]. split; [|apply (run_call_any _ _ _ _ _ _ _ R Q)].
        rewrite E0, Ecl. split; [exact F|]. split; [exact L|]. cbn. apply Ci.
      * unfold cp_call in E. rewrite E1 in E.
        assert (exists x, (if flag then match cp_smask v with Some m => do x <- mask_product (cp_kernel v) m ;; Ok (x, v) | None => Err KeyError end else Ok (cp_kernel v, v)) = Ok (x, v)) as (x & X).
        { destruct flag; [|eexists; reflexivity]. destruct (cp_smask v); [|discriminate E]. destruct (mask_product _ _); [eexists; reflexivity|discriminate E]. }
        rewrite X in E. cbn [bind] in E. destruct (call (base_quantizer k) true (cp_range v) x) as [[y' u']|] eqn:Q; [|discriminate]. cbn [bind] in E. injection E as <- <-.
        split; [exact Lk|]. split; [exact Sm|]. cbn [cp_cluster cp_range]. split; [rewrite E0, E1; exact Logic.I|]. apply (run_call_any _ _ _ _ _ _ _ R Q).
    + unfold cp_call in E. cbn [bind] in E. destruct (call (base_quantizer k) false (cp_range v) (cp_kernel v)) as [[y' u']|] eqn:Q; [|discriminate]. cbn [bind] in E. injection E as <- <-.
      split; [exact Lk|]. split; [exact Sm|]. cbn [cp_cluster cp_range]. split; [exact Ci|]. apply (run_call_any _ _ _ _ _ _ _ R Q).
  - injection H as <-. destruct I as (Lk & Sm & Ci & R). destruct Fi as (L1 & L2 & Fo). unfold cp_assign. split; [exact L1|]. split; [exact Sm|]. cbn [cp_cluster cp_range]. split; [|exact R].
    destruct (cp_cluster v0) as [c0|], (cp_cluster v) as [c|]; try contradiction; [|exact Logic.I]. split; [exact Fo|]. split; [exact L2|]. apply Ci.
Qed.
Lemma run_inv flag evs : Forall (cp_fits w0 v0) evs -> forall v v', vinv v -> cp_run k df flag v evs = Ok v' -> vinv v'.
Proof.
  induction 1 as [|e r Fi F IH]; intros v v' I H; cbn [cp_run] in H; [now injection H as <-|]. destruct (cp_step k df flag v e) as [u|] eqn:E; [|discriminate]. cbn [bind] in H. eapply IH; [|exact H]. eapply step_inv; eauto.
Qed.
Lemma like_kernel x : like w0 x -> kernel k x.
Proof.
  intros [Wx Sx]. destruct K as (W & N & R). split; [exact Wx|]. split; [|now rewrite Sx]. intros E. apply N. assert (length (data x) = length (data w0)) as L by (rewrite Wx, W, Sx; reflexivity). rewrite E in L. now destruct (data w0).
Qed.

(** in_range carries over to the masked original weights *)
Lemma effective_range flag c cs og : like w0 (cc_orig c) -> effective flag c cs og -> in_range (cc_orig c) -> forall idx, valid (shape w0) idx -> -1000000 < tget 0 og idx.
Proof.
  intros L E R idx V. assert (-1000000 < tget 0 (cc_orig c) idx) as R' by (apply R, In_data; [apply L|destruct L as [_ ->]; exact V]).
  destruct flag; cbn in E; [|destruct E as [_ ->]; exact R']. subst og. rewrite masked_get by (auto using W0). destruct (Qeq_bool _ _); [lra|exact R'].
Qed.
Definition orig_in_range (v : cpvars) : Prop := match cp_cluster v with Some c => in_range (cc_orig c) | None => True end.

Theorem train_members flag v y v' : vinv v -> cp_cluster v0 <> None -> orig_in_range v -> cp_call k df flag true v = Ok (y, v') ->
  like w0 (cp_kernel v') /\ (exists u u', call (base_quantizer k) true u (cp_kernel v') = Ok (y, u')) /\
  exists c0 cs, cp_cluster v0 = Some c0 /\ same_form (cc_cents c0) cs /\ forall idx, valid (shape w0) idx -> exists z, In z (centroids_at df cs idx) /\ tget 0 (cp_kernel v') idx == z.
Proof.
  intros I N Ra H. pose proof I as (_ & _ & Ci & _). destruct (cp_cluster v0) as [c0|] eqn:E0; [|congruence]. destruct (cp_cluster v) as [c|] eqn:E1; [|contradiction].
  unfold orig_in_range in Ra. rewrite E1 in Ra. destruct (train_clustered flag v c c0 y v' I E0 E1 H) as (cs & og & F & L & C & Ef & _ & _ & _ & Lk & _ & G & Q). split; [exact Lk|]. split; [eauto|]. exists c0, cs. split; [reflexivity|]. split; [exact F|].
  intros idx V. exists (gather (centroids_at df cs idx) (pulling_index (centroids_at df cs idx) (tget 0 og idx))). split; [apply gather_In, (compat_row df cs og); [exact C|destruct L as [_ ->]; exact V]|].
  rewrite (G idx V). apply add_gradient_id. apply (effective_range flag c cs og); auto. apply Ci.
Qed.
Theorem train_zeros v y v' : vinv v -> cp_cluster v0 <> None -> cp_call k df true true v = Ok (y, v') -> zeros_kept w0 (cp_kernel v') /\ zeros_kept w0 y.
Proof.
  intros I N H. pose proof I as (_ & _ & Ci & calls & R). destruct (cp_cluster v0) as [c0|] eqn:E0; [|congruence]. destruct (cp_cluster v) as [c|] eqn:E1; [|contradiction].
  destruct (train_clustered true v c c0 y v' I E0 E1 H) as (cs & og & F & L & C & Ef & _ & Z & _ & Lk & _ & G & Q).
  assert (zeros_kept w0 (cp_kernel v')) as Zk.
  { split; [apply Lk|]. intros idx V E. rewrite (G idx V). apply add_gradient_zero, zero_nearest; [right; now apply Z|]. cbn in Ef. subst og. rewrite masked_get by (auto using W0; apply Ci). apply Qeq_bool_iff in E. now rewrite E. }
  split; [exact Zk|]. destruct (cp_build_cases _ _ _ _ _ _ K B) as (_ & _ & _ & Bu & _). destruct (base_call_zero _ _ _ _ _ _ _ _ _ Bu R Q) as (_ & Sy & Ly & Zy).
  apply (zeros_from_flat w0 (cp_kernel v') y); auto; [apply W0|apply Zk].
Qed.
Theorem train_zeros_unclustered v y v' : vinv v -> cp_cluster v0 = None -> cp_call k df true true v = Ok (y, v') -> cp_kernel v' = cp_kernel v /\ zeros_kept w0 y.
Proof.
  intros (Lk & Sm & Ci & calls & R) E0 H. rewrite E0 in Ci. destruct (cp_cluster v) as [c|] eqn:E1; [contradiction|]. unfold cp_call in H. rewrite E1 in H.
  destruct (cp_smask v) as [m|] eqn:Em; [|discriminate H]. symmetry in Sm. apply smask0 in Sm. subst m. rewrite product_ok in H by apply Lk. cbn [bind] in H.
  destruct (call (base_quantizer k) true (cp_range v) _) as [[y' u']|] eqn:Q; [|discriminate]. cbn [bind] in H. injection H as <- <-. split; [reflexivity|].
  destruct (cp_build_cases _ _ _ _ _ _ K B) as (_ & _ & _ & Bu & _). destruct (base_call_zero _ _ _ _ _ _ _ _ _ Bu R Q) as (_ & Sy & Ly & Zy).
  apply (zeros_from_flat w0 (tmap2 Qmult (cp_kernel v) (sparsity_mask w0)) _); auto using W0, masked_like. intros idx V E. rewrite masked_get by auto using W0. apply Qeq_bool_iff in E. now rewrite E.
Qed.
Theorem inference v flag y v' : vinv v -> cp_call k df flag false v = Ok (y, v') -> cp_kernel v' = cp_kernel v /\ call (base_quantizer k) false (cp_range v) (cp_kernel v) = Ok (y, cp_range v') /\ zeros_kept (cp_kernel v) y.
Proof.
  intros (Lk & _ & _ & calls & R) H. unfold cp_call in H. cbn [bind] in H. destruct (call (base_quantizer k) false (cp_range v) (cp_kernel v)) as [[y' u']|] eqn:Q; [|discriminate]. cbn [bind] in H. injection H as <- <-.
  split; [reflexivity|]. split; [reflexivity|]. destruct (cp_build_cases _ _ _ _ _ _ K B) as (_ & _ & _ & Bu & _). destruct (base_call_zero _ _ _ _ _ _ _ _ _ Bu R Q) as (_ & Sy & Ly & Zy).
  apply (zeros_from_flat (cp_kernel v) (cp_kernel v) _); auto; [apply Lk|split; [apply Lk|reflexivity]].
Qed.
End CP.
