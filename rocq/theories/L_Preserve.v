(** Lemmas about the prune-preserving quantizer. *)
From Coq Require Import String.
From Verif Require Import Base M_Num L_Num M_Tensor L_Tensor M_Stages L_Stages M_Cluster M_ClusterWrapper S_Cluster S_ClusterWrapper L_Cluster L_Cluster5 L_Cluster6 M_Quant S_Quant L_Quant L_Quantizers L_Quantizers4 M_Preserve S_Preserve.
Open Scope Q_scope.

Definition zero_in (r : ranges) : Prop := forall lo hi, In (lo, hi) (range_list r) -> lo <= 0 <= hi.
Lemma fq_zero b na lo hi x : (2 <= b)%nat -> lo <= 0 <= hi -> x == 0 -> fake_quant b na lo hi x == 0.
Proof.
  intros B R X. rewrite (fake_quant_compat b na lo hi lo hi x 0) by (auto; reflexivity).
  destruct (Qlt_le_dec lo hi) as [L|L].
  - destruct (fq_main b na lo hi B R L) as (s & nlo & nhi & _ & _ & _ & _ & _ & _ & _ & Z & _). exact Z.
  - rewrite (fq_zero_range b na 0 lo hi); [reflexivity| |]; lra.
Qed.
Lemma nth_map_indep {A B} (f : A -> B) l i d d' : (i < length l)%nat -> nth i (map f l) d = f (nth i l d').
Proof. intros H. rewrite (nth_indep _ d (f d')) by (now rewrite map_length). apply map_nth. Qed.
Lemma fqv_zero b na pc r x y : FakeQuantWithMinMaxVars b na pc r x = Ok y -> zero_in r -> shape y = shape x /\ length (data y) = length (data x) /\
  forall i, (i < length (data x))%nat -> nth i (data x) 0 == 0 -> nth i (data y) 0 == 0.
Proof.
  unfold FakeQuantWithMinMaxVars. destruct pc, r as [lo hi|l]; try discriminate; destruct (negb _) eqn:B; try discriminate; intros H Z.
  - destruct (_ || _)%bool; [discriminate|]. injection H as <-. cbn [shape data]. split; [reflexivity|]. split; [now rewrite map_length, combine_length, seq_length, Nat.min_id|].
    intros i Hi X. rewrite (nth_map_indep _ _ i 0 (0%nat, 0)) by (now rewrite combine_length, seq_length, Nat.min_id).
    rewrite combine_nth by (now rewrite seq_length). cbn [fst snd]. rewrite seq_nth by exact Hi. cbn [Nat.add].
    destruct (nth_in_or_default (i mod channels x) l (0, 0)) as [I|E].
    + destruct (nth (i mod channels x) l (0, 0)) as [lo hi] eqn:E. apply fq_zero; auto. lia.
    + rewrite E. cbn [fst snd]. apply fq_zero; [lia|lra|exact X].
  - injection H as <-. unfold tmap. cbn [shape data]. split; [reflexivity|]. split; [apply map_length|]. intros i Hi X. rewrite (nth_map_indep _ _ i 0 0) by exact Hi. apply fq_zero; [lia| |exact X]. apply Z. now left.
Qed.
(** A call of a base quantizer maps zeros to zeros. *)
Lemma base_call_zero k tr u x y u' shp w0 calls : build (base_quantizer k) shp = Ok w0 -> run (base_quantizer k) w0 calls = Ok u ->
  call (base_quantizer k) tr u x = Ok (y, u') -> run (base_quantizer k) w0 (calls ++ [(tr, x)]) = Ok u' /\ shape y = shape x /\ length (data y) = length (data x) /\
  forall i, (i < length (data x))%nat -> nth i (data x) 0 == 0 -> nth i (data y) 0 == 0.
Proof.
  intros B R E. pose proof (run_snoc _ _ _ _ _ _ _ _ R E) as R'. split; [exact R'|]. pose proof (ranges_contain_zero _ _ _ _ _ B R') as Z. pose proof (ranges_contain_zero _ _ _ _ _ B R) as Z0.
  destruct k; cbn [base_quantizer call Default8BitConvWeightsQuantizer] in E; destruct u as [r|]; try discriminate; cbn [need_w bind lift] in E; unfold lift, LastValueQuantize in E.
  all: destruct tr; cbn [negb] in E.
  all: try (destruct (batch_ranges _ x); [|discriminate]; cbn [bind] in E; destruct (assign_with _ r _) as [w'|]; [|discriminate]; cbn [bind] in E).
  all: destruct (FakeQuantWithMinMaxVars _ _ _ _ x) as [z|] eqn:F; [|discriminate]; cbn [bind] in E; injection E as <- <-; apply (fqv_zero _ _ _ _ _ _ F); [exact Z0 || exact Z].
Qed.
(** The mask is 0 at the zeros and 1 elsewhere. *)
Lemma mask_entry v : divide_no_nan v v == (if Qeq_bool v 0 then 0 else 1).
Proof. unfold divide_no_nan. destruct (Qeq_bool v 0) eqn:E; [reflexivity|]. apply Qeq_bool_neq in E. field. exact E. Qed.
Lemma smask_wf w : wf w -> wf (sparsity_mask w). Proof. apply tmap_wf. Qed.
Lemma smask_get w idx : wf w -> valid (shape w) idx -> tget 0 (sparsity_mask w) idx == (if Qeq_bool (tget 0 w idx) 0 then 0 else 1).
Proof. intros W V. unfold sparsity_mask. rewrite (tget_tmap _ 0 0) by auto. apply mask_entry. Qed.
Lemma product_ok x m : shape x = shape m -> mask_product x m = Ok (tmap2 Qmult x m).
Proof. intros E. unfold mask_product, same_shape. now destruct (list_eq_dec _ _ _). Qed.
Lemma product_inv x m p : mask_product x m = Ok p -> shape x = shape m /\ p = tmap2 Qmult x m.
Proof. unfold mask_product, same_shape. destruct (list_eq_dec _ _ _); [|discriminate]. now intros [= <-]. Qed.
Lemma masked_get w x idx : wf w -> like w x -> valid (shape w) idx -> tget 0 (tmap2 Qmult x (sparsity_mask w)) idx == (if Qeq_bool (tget 0 w idx) 0 then 0 else tget 0 x idx).
Proof.
  intros W [Wx Sx] V. rewrite (tget_tmap2 _ 0 0) by (auto using smask_wf; now rewrite Sx). rewrite smask_get by auto. destruct (Qeq_bool _ _); ring.
Qed.
Lemma masked_like w x : wf w -> like w x -> like w (tmap2 Qmult x (sparsity_mask w)).
Proof. intros W [Wx Sx]. split; [apply tmap2_wf; auto using smask_wf|exact Sx]. Qed.
(** zeros_kept from the flat form *)
Lemma zeros_from_flat w p y : wf w -> like w p -> shape y = shape p -> length (data y) = length (data p) ->
  (forall i, (i < length (data p))%nat -> nth i (data p) 0 == 0 -> nth i (data y) 0 == 0) ->
  (forall idx, valid (shape w) idx -> tget 0 w idx == 0 -> tget 0 p idx == 0) -> zeros_kept w y.
Proof.
  intros W [Wp Sp] Sy Ly Z M. split; [congruence|]. intros idx V E. specialize (M idx V E). unfold tget in *. rewrite Sy. apply Z; [|exact M].
  rewrite Wp, Sp. now apply ravel_lt.
Qed.

Section PP.
Context (k : kclass) (w0 : tensor Q) (W0 : wf w0).
Definition masked (c : bool * tensor Q) : bool * tensor Q := (fst c, tmap2 Qmult (snd c) (sparsity_mask w0)).
Lemma pp_run_inv calls : Forall (fun c => like w0 (snd c)) calls -> forall v v', pp_mask v = sparsity_mask w0 -> pp_run k v calls = Ok v' ->
  pp_mask v' = sparsity_mask w0 /\ run (base_quantizer k) (pp_range v) (map masked calls) = Ok (pp_range v').
Proof.
  induction 1 as [|[tr x] r [Wx Sx] F IH]; intros v v' M H; cbn [pp_run] in H.
  - injection H as <-. split; auto.
  - cbn [fst snd] in *. destruct (pp_call k tr v x) as [[y u]|] eqn:E; [|discriminate]. cbn [bind] in H.
    unfold pp_call in E. rewrite M in E. rewrite product_ok in E by exact Sx. cbn [bind] in E. destruct (call _ tr (pp_range v) _) as [[y' r']|] eqn:C; [|discriminate]. cbn [bind] in E. injection E as <- <-.
    apply IH in H; [|reflexivity]. destruct H as [H1 H2]. split; [exact H1|]. cbn [map run masked fst snd]. change (map masked r) with (map masked r) in H2. rewrite C. cbn [bind]. exact H2.
Qed.
Lemma pp_build_inv v0 : pp_build k w0 = Ok v0 -> pp_mask v0 = sparsity_mask w0 /\ build (base_quantizer k) (Some (shape w0)) = Ok (pp_range v0).
Proof. unfold pp_build. destruct (build _ _) as [r|]; [|discriminate]. cbn [bind]. intros [= <-]. auto. Qed.
Theorem pp_zeros v0 calls v tr x y v' : pp_build k w0 = Ok v0 -> Forall (fun c => like w0 (snd c)) calls -> pp_run k v0 calls = Ok v -> like w0 x ->
  pp_call k tr v x = Ok (y, v') -> zeros_kept w0 y.
Proof.
  intros B F R L E. apply pp_build_inv in B as [M B]. apply pp_run_inv in R as [M' R]; auto. unfold pp_call in E. rewrite M' in E. rewrite product_ok in E by (apply L). cbn [bind] in E.
  destruct (call _ tr (pp_range v) _) as [[y' r']|] eqn:C; [|discriminate]. cbn [bind] in E. injection E as <- <-.
  destruct (base_call_zero _ _ _ _ _ _ _ _ _ B R C) as (_ & S & N & Z). apply (zeros_from_flat w0 (tmap2 Qmult x (sparsity_mask w0))); auto using masked_like.
  intros idx V E0. rewrite masked_get by auto. apply Qeq_bool_iff in E0. now rewrite E0.
Qed.
Theorem pp_as_base v0 calls v tr x y v' : pp_build k w0 = Ok v0 -> Forall (fun c => like w0 (snd c)) calls -> pp_run k v0 calls = Ok v -> like w0 x ->
  pp_call k tr v x = Ok (y, v') -> exists p, like w0 p /\ (forall idx, valid (shape w0) idx -> tget 0 p idx == if Qeq_bool (tget 0 w0 idx) 0 then 0 else tget 0 x idx) /\
    call (base_quantizer k) tr (pp_range v) p = Ok (y, pp_range v').
Proof.
  intros B F R L E. apply pp_build_inv in B as [M B]. apply pp_run_inv in R as [M' R]; auto. unfold pp_call in E. rewrite M' in E. rewrite product_ok in E by (apply L). cbn [bind] in E.
  destruct (call _ tr (pp_range v) _) as [[y' r']|] eqn:C; [|discriminate]. cbn [bind] in E. injection E as <- <-.
  exists (tmap2 Qmult x (sparsity_mask w0)). split; [now apply masked_like|]. split; [intros; now apply masked_get|exact C].
Qed.
End PP.
Lemma base_well_used k w : kernel k w -> well_used (base_quantizer k) (shape w).
Proof. intros (_ & _ & L). destruct k; (split; [rewrite L; auto|]); cbn; [lia|reflexivity]. Qed.
Theorem pp_never_fails k w0 calls : kernel k w0 -> Forall (fun c => like w0 (snd c)) calls -> exists v0 v, pp_build k w0 = Ok v0 /\ pp_run k v0 calls = Ok v.
Proof.
  intros K F. pose proof (base_well_used k w0 K) as U. destruct (build_fits _ _ U) as (r & B & Fr). unfold pp_build. rewrite B. cbn [bind]. eexists.
  assert (forall calls, Forall (fun c => like w0 (snd c)) calls -> forall r, fits (base_quantizer k) (shape w0) r -> exists v, pp_run k (mkPP (sparsity_mask w0) r) calls = Ok v) as G.
  { clear F Fr B r calls. intros calls. induction 1 as [|[tr x] c [Wx Sx] F IH]; intros r Fr; cbn [pp_run]; [eauto|]. cbn [snd] in *. unfold pp_call. cbn [pp_mask pp_range]. rewrite product_ok by exact Sx. cbn [bind].
    set (p := tmap2 Qmult x _). assert (shape p = shape w0) as Sp by exact Sx. rewrite <- Sp in U, Fr. destruct (call_fits (base_quantizer k) p tr r U Fr) as (y & r' & E & _ & Fr').
    rewrite E. cbn [bind]. rewrite Sp in Fr'. apply IH, Fr'. }
  destruct (G calls F r Fr) as (v & E). exists v. split; [reflexivity|exact E].
Qed.
