From Coq Require Import String Ascii Qabs Qround.
From Verif Require Import Base M_Num M_Tensor M_Mask S_Mask L_Mask L_Block M_PruneWrapper S_PruneWrapper L_PruneWrapper M_Tools S_Tools.
Open Scope string_scope.
Open Scope list_scope.
Open Scope Q_scope.

(** ** C97 *)
Lemma mapM_ok2 {A B} (f : A -> res B) l : (forall a, In a l -> exists b, f a = Ok b) -> exists l', mapM f l = Ok l'.
Proof.
  induction l as [|a l IH]; cbn; intros H. eauto. destruct (H a) as (b & ->); auto. cbn.
  destruct IH as (l' & ->); auto. cbn. eauto.
Qed.
Definition bench_pp (bs : list nat) : prune_params := {| pp_block := bs; pp_pool := AVG; pp_m_by_n := None |}.
Definition bench_var (t : Q) (bs : list nat) (w : tensor Q) (v : pvar) : Prop :=
  maybe_update_block_mask (bench_pp bs) t w = Ok (pv_thr v, pv_mask v) /\ pv_w v = tmul w (pv_mask v).
Lemma bench_layer t bs ws l0 l : build_layer (step_independent t) (bench_pp bs) ws = Ok l0 -> apply_pruning_layer l0 = Ok l ->
  Forall2 (bench_var t bs) ws (pl_vars l) /\ pl_step l = (-1)%Z.
Proof.
  unfold build_layer, apply_pruning_layer. destruct (validate_block _ _); cbn [bind]; [|discriminate]. intros [= <-].
  unfold conditional_mask_update, mask_update_due. cbn [pl_pp bench_pp pp_m_by_n pl_sched step_independent fst pl_vars pl_step].
  destruct (mapM _ _) as [vs|] eqn:E; cbn [bind]; [|discriminate]. intros [= <-]. cbn [weight_mask_op pl_vars pl_step]. split; auto.
  apply mapM_ok in E. revert vs E. induction ws as [|w ws IH]; intros vs E; inversion E as [|a0 b0 la lb Hab Hl]; subst; constructor.
  - unfold update_var in Hab. cbn [pl_pp pl_sched step_independent snd pv_w pl_step] in Hab.
    destruct (maybe_update_block_mask _ _ _) as [[thr mask]|] eqn:U; cbn [bind] in Hab; [|discriminate]. injection Hab as <-.
    split; cbn; auto.
  - apply IH; auto.
Qed.
Lemma bench_all t bs layers ls : prune_for_benchmark layers t bs = Ok ls ->
  Forall2 (fun ws l => Forall2 (bench_var t bs) ws (pl_vars l) /\ pl_step l = (-1)%Z) layers ls.
Proof.
  unfold prune_for_benchmark. fold (bench_pp bs). destruct (mapM _ layers) as [l0|] eqn:E; cbn [bind]; [|discriminate].
  unfold apply_pruning. intros H. apply mapM_ok in E, H. revert ls H. induction E as [|ws p layers l0 Hb Hl IH]; intros ls H; inversion H as [|a0 b0 la0 lb0 Hab Hr]; subst; constructor.
  - eapply bench_layer; eauto.
  - apply IH; auto.
Qed.
Lemma bench_total t layers : 0 <= t -> (forall ws w, In ws layers -> In w ws -> (0 < List.length (data w))%nat) ->
  exists ls, prune_for_benchmark layers t [1; 1]%nat = Ok ls.
Proof.
  intros Ht Hn. unfold prune_for_benchmark. fold (bench_pp [1; 1]%nat).
  destruct (mapM_ok2 (build_layer (step_independent t) (bench_pp [1; 1]%nat)) layers) as (l0 & E). { intros ws _. cbn. eauto. }
  rewrite E. cbn [bind]. apply mapM_ok2. intros l Hl. apply mapM_ok in E.
  assert (B : exists ws, In ws layers /\ build_layer (step_independent t) (bench_pp [1; 1]%nat) ws = Ok l).
  { revert Hl. induction E as [|ws p la lb Hb Hr IH]; cbn; intros Hl; [contradiction|]. destruct Hl as [->|Hl].
    - exists ws. auto. - destruct IH as (ws' & I1 & I2); auto. { intros ws' w H1 H2. apply (Hn ws'); cbn; auto. } exists ws'. auto. }
  destruct B as (ws & Hw & B). cbn in B. injection B as <-. unfold apply_pruning_layer, conditional_mask_update, mask_update_due.
  cbn [pl_pp bench_pp pp_m_by_n pl_sched step_independent fst pl_vars pl_step].
  match goal with |- context [mapM ?f ?l] => destruct (mapM_ok2 f l) as (vs & ->); [|cbn; eauto] end.
  intros v Hv. apply in_map_iff in Hv as (w & <- & Hin). unfold update_var. cbn [pl_pp pl_sched step_independent snd pv_w pl_step].
  rewrite elementwise_case by reflexivity. destruct (update_mask_ok t w) as (thr & mask & ->); auto. { eapply Hn; eauto. } cbn. eauto.
Qed.
Lemma bench_pruned t w v : bench_var t [1; 1]%nat w v -> pruned_to t w v.
Proof.
  intros (U & E). rewrite elementwise_case in U by reflexivity. unfold pruned_to.
  pose proof (update_mask_spec t w _ _ U) as (S1 & S2 & k & K1 & K2 & K3).
  pose proof (update_mask_is_mask t w _ _ U) as M.
  rewrite E. split; [reflexivity|]. split. { unfold tmul. cbn. rewrite map_length, combine_length. lia. }
  split; auto. split. { destruct (ones_at_least t w _ _ U) as (k' & A & B & C). exists k'. repeat split; auto.
    intros D. pose proof (ones_exact t w _ _ U D) as X. pose proof (keep_count_unique _ _ _ _ A X). lia. }
  split.
  - intros i Hi. rewrite tmul_nth by lia. rewrite (K3 i Hi). destruct (Qle_bool _ _); [left|right]; split; try reflexivity; ring.
  - intros i j Hi Hj. apply (update_mask_separates t w _ _ U); auto.
Qed.

(** ** C98 *)
Fixpoint lastc (d : ascii) (s : string) : ascii := match s with EmptyString => d | String c r => lastc c r end.
Lemma lastc_app d a b : b <> "" -> lastc d (a ++ b)%string = lastc d b.
Proof. revert d. induction a as [|c a IH]; cbn; intros d H; auto. rewrite IH by auto. destruct b; [congruence|reflexivity]. Qed.
Lemma keys_differ a b : (a ++ "/sparsity")%string <> (b ++ "/threshold")%string.
Proof. intros H. apply (f_equal (lastc "x"%char)) in H. rewrite !lastc_app in H by discriminate. discriminate. Qed.
Lemma app_inj_r a b c : (a ++ c)%string = (b ++ c)%string -> a = b.
Proof.
  revert b. induction a as [|x a IH]; intros [|y b] H; cbn in H; auto.
  - exfalso. apply (f_equal String.length) in H. cbn in H.
    assert (L : forall s t, String.length (s ++ t)%string = (String.length s + String.length t)%nat) by (induction s; cbn; auto).
    rewrite L in H. lia.
  - exfalso. apply (f_equal String.length) in H. cbn in H.
    assert (L : forall s t, String.length (s ++ t)%string = (String.length s + String.length t)%nat) by (induction s; cbn; auto).
    rewrite L in H. lia.
  - injection H as -> H. f_equal. auto.
Qed.
Section Dict.
Context {A : Type}.
Lemma dict_set_fst (d : list (string * A)) k v : ~ In k (map fst d) -> dict_set d k v = d ++ [(k, v)].
Proof.
  induction d as [|[k' v'] d IH]; cbn; auto. intros H. destruct (String.eqb_spec k k'). { subst. tauto. } rewrite IH; auto.
Qed.
Lemma dict_sets_fresh (l d : list (string * A)) : NoDup (map fst d ++ map fst l) -> dict_sets d l = d ++ l.
Proof.
  unfold dict_sets. revert d. induction l as [|[k v] l IH]; intros d H; cbn [fold_left fst snd]. now rewrite app_nil_r.
  cbn [map fst] in H. rewrite dict_set_fst.
  - rewrite IH. now rewrite <- app_assoc. rewrite map_app, <- app_assoc. exact H.
  - apply NoDup_remove_2 in H. intros I. apply H. apply in_app_iff. auto.
Qed.
End Dict.
Lemma logs_distinct layers : NoDup (map nv_mask_name (List.concat layers)) -> NoDup (map nv_thr_name (List.concat layers)) ->
  pruning_logs layers = map (fun v => ((nv_mask_name v ++ "/sparsity")%string, 1 - mean (data (pv_mask (nv_var v))))) (List.concat layers)
    ++ map (fun v => ((nv_thr_name v ++ "/threshold")%string, pv_thr (nv_var v))) (List.concat layers).
Proof.
  intros N1 N2. unfold pruning_logs. cbn zeta. set (vs := List.concat layers) in *.
  assert (I : forall (f : named_var -> string) suffix, NoDup (map f vs) -> NoDup (map (fun v => (f v ++ suffix)%string) vs)).
  { intros f suffix N. rewrite <- (map_map f (fun s => (s ++ suffix)%string)). revert N. generalize (map f vs) as l.
    induction l as [|s l IH]; cbn; intros N; constructor; inversion N; subst; auto.
    intros H. apply in_map_iff in H as (s' & E & H). apply app_inj_r in E. subst. contradiction. }
  rewrite (dict_sets_fresh _ []).
  2:{ cbn. rewrite map_map. cbn. apply I. auto. }
  rewrite dict_sets_fresh; [reflexivity|]. cbn [app]. rewrite !map_map. cbn [fst].
  assert (NA : forall l1 l2 : list string, NoDup l1 -> NoDup l2 -> (forall x, In x l1 -> ~ In x l2) -> NoDup (l1 ++ l2)).
  { induction l1 as [|x l1 IH]; cbn; intros l2 H1 H2 H3; auto. inversion H1; subst. constructor; [|apply IH; auto].
    intros H. apply in_app_iff in H as [H|H]; auto. apply (H3 x); auto. }
  apply NA; [apply I; auto|apply I; auto|]. intros x H1 H2. apply in_map_iff in H1 as (a & <- & _). apply in_map_iff in H2 as (b & E & _).
  symmetry in E. now apply keys_differ in E.
Qed.
Lemma mask_fraction l : (l <> []) -> (forall x, In x l -> x == 0 \/ x == 1) -> zero_fraction l (1 - mean l).
Proof.
  intros Hn H. unfold zero_fraction, mean.
  assert (E : sumQ l + inject_Z (Z.of_nat (count_if (fun x => Qeq_bool x 0) l)) == inject_Z (Z.of_nat (List.length l))).
  { clear Hn. induction l as [|x l IH]. reflexivity. unfold count_if in *. cbn [filter sumQ fold_right List.length].
    assert (IH' := IH (fun y Hy => H y (or_intror Hy))). clear IH. destruct (H x (or_introl eq_refl)) as [X|X].
    - rewrite (proj2 (Qeq_bool_iff x 0) X). cbn [List.length]. rewrite !Nat2Z.inj_succ. unfold Z.succ. rewrite !inject_Z_plus, <- IH', X. cbn. ring.
    - assert (F : Qeq_bool x 0 = false). { destruct (Qeq_bool x 0) eqn:G; auto. apply Qeq_bool_iff in G. rewrite X in G. discriminate. }
      rewrite F. rewrite !Nat2Z.inj_succ. unfold Z.succ. rewrite inject_Z_plus, <- IH', X. cbn. ring. }
  assert (P : ~ inject_Z (Z.of_nat (List.length l)) == 0).
  { destruct l; [congruence|]. cbn [List.length]. unfold Qeq. cbn. lia. }
  rewrite Qmult_comm. field_simplify; auto. rewrite <- E at 1. ring.
Qed.

(** ** C99 *)
Definition seqZ (a n : nat) : list nat := seq a n.
Lemma loop1 f (Hf : (0 < f)%nat) : forall fuel n step c, (n <= step + fuel)%nat -> (Z.of_nat step <= cs_batch c)%Z -> (0 <= cs_batch c)%Z ->
  cs_freq c = FInt (Z.of_nat f) ->
  cs_epoch_loop fuel 1 (Z.of_nat n) (Z.of_nat step) c =
  Ok (mkCS (cs_freq c) (cs_batch c + Z.of_nat (n - step)),
      map Z.of_nat (filter (fun b => (b mod f =? 0)%nat) (seq (S (Z.to_nat (cs_batch c))) (n - step)))).
Proof.
  induction fuel as [|fuel IH]; intros n step c Hn Hc H0 Hq.
  - replace (n - step)%nat with 0%nat by lia. cbn. rewrite Z.add_0_r. destruct c; reflexivity.
  - cbn [cs_epoch_loop]. destruct (Z.ltb_spec (Z.of_nat step) (Z.of_nat n)).
    + replace (Z.min 1 (Z.of_nat n - Z.of_nat step)) with 1%Z by lia. unfold cs_batch_end. cbn [cs_batch_begin cs_batch cs_freq].
      replace (cs_batch c + 1 <? Z.of_nat step + 1 - 1)%Z with false by lia. rewrite Hq.
      replace (Z.of_nat f =? 0)%Z with false by lia.
      replace (Z.of_nat step + 1)%Z with (Z.of_nat (S step)) by lia.
      destruct (n - step)%nat as [|k] eqn:E; [lia|]. cbn [seq filter].
      assert (M : ((cs_batch c + 1) mod Z.of_nat f =? 0)%Z = (S (Z.to_nat (cs_batch c)) mod f =? 0)%nat).
      { replace (cs_batch c + 1)%Z with (Z.of_nat (S (Z.to_nat (cs_batch c)))) by lia. rewrite <- Nat2Z.inj_mod.
        destruct (Nat.eqb_spec (S (Z.to_nat (cs_batch c)) mod f) 0) as [->|N]; [reflexivity|]. lia. }
      rewrite M. specialize (IH n (S step) (mkCS (FInt (Z.of_nat f)) (cs_batch c + 1))). cbn [cs_batch cs_freq] in IH.
      unfold cs_batch_begin. rewrite Hq.
      destruct (S (Z.to_nat (cs_batch c)) mod f =? 0)%nat; cbn [bind]; rewrite IH by (auto; lia); cbn [bind fst snd app map];
        replace (n - S step)%nat with k by lia; replace (Z.to_nat (cs_batch c + 1)) with (S (Z.to_nat (cs_batch c))) by lia;
        do 3 f_equal; try lia.
    + replace (n - step)%nat with 0%nat by lia. cbn. rewrite Z.add_0_r. destruct c; reflexivity.
Qed.

Lemma loop_epoch : forall fuel n step c, (n <= step + fuel)%nat -> (Z.of_nat step <= cs_batch c)%Z -> cs_freq c = FEpoch ->
  cs_epoch_loop fuel 1 (Z.of_nat n) (Z.of_nat step) c = Ok (mkCS FEpoch (cs_batch c + Z.of_nat (n - step)), []).
Proof.
  induction fuel as [|fuel IH]; intros n step c Hn Hc Hq.
  - replace (n - step)%nat with 0%nat by lia. cbn. rewrite Z.add_0_r. destruct c; cbn in *. now subst.
  - cbn [cs_epoch_loop]. destruct (Z.ltb_spec (Z.of_nat step) (Z.of_nat n)).
    + replace (Z.min 1 (Z.of_nat n - Z.of_nat step)) with 1%Z by lia. unfold cs_batch_end. cbn [cs_batch_begin cs_batch cs_freq].
      replace (cs_batch c + 1 <? Z.of_nat step + 1 - 1)%Z with false by lia. rewrite Hq. cbn [bind].
      replace (Z.of_nat step + 1)%Z with (Z.of_nat (S step)) by lia. unfold cs_batch_begin. rewrite Hq.
      rewrite IH; cbn [cs_batch cs_freq]; auto; try lia. cbn [bind fst snd app]. do 3 f_equal. lia.
    + replace (n - step)%nat with 0%nat by lia. cbn. rewrite Z.add_0_r. destruct c; cbn in *. now subst.
Qed.
Lemma multiples_app f a b : (multiples f (a + b)) =
  multiples f a ++ map Z.of_nat (filter (fun x => (x mod f =? 0)%nat) (seq (S a) b)).
Proof. unfold multiples. rewrite seq_app, filter_app, map_app. reflexivity. Qed.
Definition total (ns : list nat) : nat := fold_right Nat.add 0%nat ns.
Lemma run_batches f (Hf : (0 < f)%nat) : forall ns acc,
  cs_run 1 ns (mkCS (FInt (Z.of_nat f)) (Z.of_nat acc)) =
  Ok (mkCS (FInt (Z.of_nat f)) (Z.of_nat (acc + total ns)), map Z.of_nat (filter (fun x => (x mod f =? 0)%nat) (seq (S acc) (total ns)))).
Proof.
  induction ns as [|n ns IH]; intros acc; cbn [cs_run total fold_right].
  - rewrite Nat.add_0_r. reflexivity.
  - unfold cs_epoch. change 0%Z with (Z.of_nat 0). change (Z.of_nat 1) with 1%Z.
    rewrite (loop1 f Hf) by (cbn; auto; lia). cbn [bind fst snd cs_batch cs_freq]. unfold cs_epoch_end. cbn [cs_freq bind fst snd].
    rewrite Nat.sub_0_r, app_nil_r, Nat2Z.id. replace (Z.of_nat acc + Z.of_nat n)%Z with (Z.of_nat (acc + n)) by lia.
    rewrite IH. cbn [bind fst snd]. fold (total ns). rewrite seq_app, filter_app, map_app. do 3 f_equal. lia.
Qed.
Lemma run_epochs : forall ns acc, cs_run 1 ns (mkCS FEpoch (Z.of_nat acc)) = Ok (mkCS FEpoch (Z.of_nat (acc + total ns)), totals acc ns).
Proof.
  induction ns as [|n ns IH]; intros acc; cbn [cs_run total fold_right totals].
  - rewrite Nat.add_0_r. reflexivity.
  - unfold cs_epoch. change 0%Z with (Z.of_nat 0). change (Z.of_nat 1) with 1%Z.
    rewrite loop_epoch by (cbn; auto; lia). cbn [bind fst snd cs_batch]. unfold cs_epoch_end. cbn [cs_freq cs_batch bind fst snd].
    rewrite Nat.sub_0_r. replace (Z.of_nat acc + Z.of_nat n)%Z with (Z.of_nat (acc + n)) by lia.
    rewrite IH. cbn [bind fst snd]. fold (total ns). do 3 f_equal. lia.
Qed.
(** steps_per_execution above 1: the second full execution of the first epoch trips the assertion. *)
Lemma run_spe f k n ns : (2 <= k)%nat -> (2 * k <= n)%nat -> (f = FEpoch \/ exists z, f = FInt z /\ z <> 0%Z) ->
  cs_run k (n :: ns) (cs_init f) = Err AssertionError.
Proof.
  intros Hk Hn Hf. cbn [cs_run]. unfold cs_epoch. destruct n as [|[|n]]; try lia. cbn [cs_epoch_loop].
  replace (0 <? Z.of_nat (S (S n)))%Z with true by lia.
  replace (Z.min (Z.of_nat k) (Z.of_nat (S (S n)) - 0)) with (Z.of_nat k) by lia. unfold cs_init.
  unfold cs_batch_end at 1. unfold cs_batch_begin. cbn [cs_batch cs_freq].
  destruct (Z.ltb_spec (0 + 1) (0 + Z.of_nat k - 1)); [reflexivity|].
  assert (k = 2)%nat as -> by lia.
  assert (W : exists w, match f with FEpoch => Ok [] | FInt n0 => if (n0 =? 0)%Z then Err ZeroDivisionError else if ((0 + 1) mod n0 =? 0)%Z then Ok [(0 + 1)%Z] else Ok [] | FOther => Err TypeError end = Ok w).
  { destruct Hf as [-> | (z & -> & Hz)]; [eauto|]. destruct (Z.eqb_spec z 0); [congruence|]. destruct (_ =? _)%Z; eauto. }
  destruct W as (w & ->). cbn [bind].
  destruct n as [|n]; [lia|].
  replace (0 + Z.of_nat 2 <? Z.of_nat (S (S (S n))))%Z with true by lia.
  replace (Z.min (Z.of_nat 2) (Z.of_nat (S (S (S n))) - (0 + Z.of_nat 2))) with 2%Z by lia.
  unfold cs_batch_end at 1. cbn [cs_batch cs_freq cs_batch_begin]. reflexivity.
Qed.

(** ** C100 *)
Lemma sparsity_fraction l : l <> [] -> zero_fraction l (calculate_sparsity l).
Proof.
  intros Hn. unfold zero_fraction, calculate_sparsity. cbn zeta.
  assert (E : (count_nonzero l + count_if (fun x => Qeq_bool x 0) l = List.length l)%nat).
  { unfold count_nonzero, count_if. clear Hn. induction l as [|x l IH]; cbn; auto. destruct (Qeq_bool x 0); cbn; lia. }
  assert (P : ~ inject_Z (Z.of_nat (List.length l)) == 0). { destruct l; [congruence|]. cbn [List.length]. unfold Qeq. cbn. lia. }
  destruct (Nat.eqb_spec (count_nonzero l) 0) as [Z|Z].
  - rewrite <- E, Z. cbn [Nat.add]. ring.
  - rewrite <- E in P. rewrite <- E. rewrite Nat2Z.inj_add, inject_Z_plus in *. field. auto.
Qed.
Lemma contains_spec sub s : contains sub s = true <-> exists a b, s = (a ++ sub ++ b)%string.
Proof.
  induction s as [|c s IH]; cbn [contains].
  - rewrite orb_false_r. split.
    + intros H. exists "", "". destruct sub; [reflexivity|discriminate].
    + intros (a & b & H). destruct a; [|discriminate]. destruct sub; [reflexivity|discriminate].
  - rewrite orb_true_iff, IH. split.
    + intros [H|(a & b & ->)].
      * exists "". cbn [append]. clear IH. revert H. generalize (String c s) as t. induction sub as [|d sub IH]; intros t H; cbn; [eauto|].
        destruct t as [|e t]; cbn in H; [discriminate|]. destruct (ascii_dec d e); [|discriminate]. subst. destruct (IH t H) as (b & ->). eauto.
      * exists (String c a), b. reflexivity.
    + intros (a & b & H). destruct a as [|d a].
      * left. cbn [append] in H. rewrite H. clear. induction sub as [|d sub IH]; cbn; [destruct b; reflexivity|]. destruct (ascii_dec d d); [auto|congruence].
      * right. injection H as -> H. eauto.
Qed.
