(** More lemmas about quantizers: levels, usability, configurations, transposed weights. *)
From Verif Require Import Base M_Num L_Num M_Tensor L_Tensor M_Stages L_Stages M_Quant S_Quant L_Quant L_Quantizers L_Quantizers2 L_Quantizers3.
Open Scope Q_scope.

(** * Levels *)
Lemma fq_levels bits na lo hi : (2 <= bits)%nat -> lo <= 0 <= hi -> exists L, (length L <= 2 ^ bits)%nat /\ forall x, exists u, In u L /\ fake_quant bits na lo hi x == u.
Proof.
  intros B H. destruct (Qlt_le_dec lo hi) as [Lt|Ge].
  - destruct (fq_main bits na lo hi B H Lt) as (step & nlo & nhi & _ & _ & _ & _ & _ & _ & F & _).
    exists (map (fun i => nlo + inject_Z (Z.of_nat i) * step) (seq 0 (Z.to_nat (levels bits na)))). split.
    + rewrite map_length, seq_length. unfold levels.
      assert (Z.of_nat (2 ^ bits) = 2 ^ Z.of_nat bits)%Z as E by (rewrite Nat2Z.inj_pow; reflexivity). destruct na; lia.
    + intros x. destruct (F x) as (i & Hi & E). exists (nlo + inject_Z i * step). split; [|exact E].
      apply in_map_iff. exists (Z.to_nat i). split; [rewrite Z2Nat.id by lia; reflexivity|]. apply in_seq. lia.
  - exists [0]. split; [cbn; pose proof (Nat.pow_nonzero 2 bits); lia|]. intros x. exists 0. split; [now left|]. rewrite fq_zero_range; [reflexivity| |]; lra.
Qed.
Lemma call_range q tr w x y w' : tracks_range q -> call q tr w x = Ok (y, w') ->
  exists v' na x', w' = Some v' /\ (2 <= bits_of q)%nat /\ (exists z, FakeQuantWithMinMaxVars (bits_of q) na (channelwise q) v' x' = Ok z /\
    match q with LastValueQuantizer CConvTransposeWeights _ _ _ _ => x' = transpose 0 [0;1;3;2]%nat x /\ y = transpose 0 [0;1;3;2]%nat z | _ => x' = x /\ y = z end).
Proof.
  intros T. destruct q as [c b pa sy na|b pa sy na|b pa sy na|b lo hi na|]; try contradiction; cbn [call bits_of channelwise].
  - assert (forall u x' a, LastValueQuantize b pa sy na tr u x' = Ok a -> FakeQuantWithMinMaxVars b na pa (snd a) x' = Ok (fst a)) as L.
    { intros u x' a. unfold LastValueQuantize. destruct tr; cbn [negb].
      - destruct (batch_ranges pa x') as [r|]; cbn [bind]; [|discriminate]. destruct (assign_with _ _ _) as [z|]; cbn [bind]; [|discriminate].
        destruct (FakeQuantWithMinMaxVars b na pa z x') eqn:E; cbn [bind]; [|discriminate]. intros [= <-]. exact E.
      - destruct (FakeQuantWithMinMaxVars b na pa u x') eqn:E; cbn [bind]; [|discriminate]. intros [= <-]. exact E. }
    destruct w as [u|]; cbn [need_w bind]; [|destruct c; try discriminate; destruct (negb _); discriminate].
    destruct c.
    + unfold lift. destruct (LastValueQuantize _ _ _ _ _ u x) as [[z v]|] eqn:E; cbn [bind]; [|discriminate]. intros [= <- <-]. apply L in E. cbn [fst snd] in E.
      exists v, na, x. split; [auto|]. split; [apply fq_bits in E; tauto|]. eauto.
    + unfold lift. destruct (LastValueQuantize _ _ _ _ _ u x) as [[z v]|] eqn:E; cbn [bind]; [|discriminate]. intros [= <- <-]. apply L in E. cbn [fst snd] in E.
      exists v, na, x. split; [auto|]. split; [apply fq_bits in E; tauto|]. eauto.
    + destruct (negb _); [discriminate|]. destruct (LastValueQuantize _ _ _ _ _ u _) as [[z v]|] eqn:E; cbn [bind]; [|discriminate]. intros [= <- <-]. apply L in E. cbn [fst snd] in E.
      exists v, na, (transpose 0 [0;1;3;2]%nat x). split; [auto|]. split; [apply fq_bits in E; tauto|]. eauto.
  - destruct w as [u|]; cbn [need_w bind]; [|discriminate]. unfold lift, MovingAvgQuantize. destruct tr; cbn [negb].
    + destruct (batch_ranges pa x) as [r|]; cbn [bind]; [|discriminate]. destruct (assign_with _ _ _) as [z|]; cbn [bind]; [|discriminate].
      destruct (FakeQuantWithMinMaxVars b na pa z x) eqn:E; cbn [bind]; [|discriminate]. intros [= <- <-]. exists z, na, x. split; [auto|]. split; [apply fq_bits in E; tauto|]. eauto.
    + destruct (FakeQuantWithMinMaxVars b na pa u x) eqn:E; cbn [bind]; [|discriminate]. intros [= <- <-]. exists u, na, x. split; [auto|]. split; [apply fq_bits in E; tauto|]. eauto.
  - destruct w as [u|]; cbn [need_w bind]; [|discriminate]. unfold lift, AllValuesQuantize. destruct tr; cbn [negb].
    + destruct (batch_ranges false x) as [r|]; cbn [bind]; [|discriminate]. destruct (assign_with _ _ _) as [z|]; cbn [bind]; [|discriminate].
      destruct (FakeQuantWithMinMaxVars b na false z x) eqn:E; cbn [bind]; [|discriminate]. intros [= <- <-]. exists z, na, x. split; [auto|]. split; [apply fq_bits in E; tauto|]. eauto.
    + destruct (FakeQuantWithMinMaxVars b na false u x) eqn:E; cbn [bind]; [|discriminate]. intros [= <- <-]. exists u, na, x. split; [auto|]. split; [apply fq_bits in E; tauto|]. eauto.
Qed.
Lemma run_snoc q w calls tr x y w1 w2 : run q w calls = Ok w1 -> call q tr w1 x = Ok (y, w2) -> run q w (calls ++ [(tr, x)]) = Ok w2.
Proof.
  revert w. induction calls as [|[t z] r IH]; intros w; cbn [run app].
  - intros [= ->] E. rewrite E. reflexivity.
  - destruct (call q t w z) as [[u w']|]; cbn [bind]; [|discriminate]. apply IH.
Qed.
Lemma In_transpose (v : Q) p (t : tensor Q) : In v (data (transpose 0 p t)) -> In v (data t) \/ v = 0.
Proof.
  unfold transpose, tab. cbn [data]. intros H. apply in_map_iff in H. destruct H as (n & <- & _). unfold tget.
  destruct (Nat.lt_ge_cases (ravel (shape t) (unperm p (unravel (map (fun p0 => nth p0 (shape t) 0%nat) p) n))) (length (data t))) as [L|L].
  - left. now apply nth_In.
  - right. now apply nth_overflow.
Qed.
Theorem levels_bound q shp w0 calls w tr x y w' : tracks_range q -> channelwise q = false -> build q shp = Ok w0 -> run q w0 calls = Ok w -> call q tr w x = Ok (y, w') ->
  exists L, (length L <= 2 ^ bits_of q)%nat /\ forall v, In v (data y) -> exists u, In u L /\ v == u.
Proof.
  intros T C B R E. pose proof (run_snoc _ _ _ _ _ _ _ _ R E) as R'. pose proof (ranges_contain_zero _ _ _ _ _ B R') as Z.
  apply call_range in E as (v' & na & x' & -> & Bt & z & F & M); auto. rewrite C in F. destruct v' as [lo hi|]; [|discriminate F]. cbn [FakeQuantWithMinMaxVars] in F.
  destruct (negb _); [discriminate|]. injection F as <-. specialize (Z lo hi (or_introl eq_refl)).
  destruct (fq_levels (bits_of q) na lo hi Bt Z) as (L & HL & HF). exists L. split; [auto|]. intros v Hv.
  assert (In v (data (tmap (fake_quant (bits_of q) na lo hi) x')) \/ v = 0) as [H| ->].
  { destruct q as [[]| | | |]; try contradiction; destruct M as [-> ->]; try (now left). apply In_transpose in Hv. exact Hv. }
  - cbn in H. apply in_map_iff in H. destruct H as (u & <- & _). apply HF.
  - (* 0 is a level *) destruct (HF 0) as (u & Hu & Eu). exists u. split; [auto|]. rewrite <- Eu.
    destruct (Qlt_le_dec lo hi) as [Lt|Ge].
    + destruct (fq_main _ na lo hi Bt Z Lt) as (? & ? & ? & _ & _ & _ & _ & _ & _ & _ & F0 & _). now symmetry.
    + rewrite fq_zero_range; [reflexivity| |]; lra.
Qed.
Theorem levels_bound_channel c b sy na shp w0 calls w tr x y w' ch : per_axis_weights c = true -> batch x ->
  let q := LastValueQuantizer c b true sy na in build q shp = Ok w0 -> run q w0 calls = Ok w -> call q tr w x = Ok (y, w') ->
  exists L, (length L <= 2 ^ b)%nat /\ forall idx, valid (shape y) idx -> last idx 0%nat = ch -> exists u, In u L /\ tget 0 y idx == u.
Proof.
  intros C Bx q B R E. pose proof (run_snoc _ _ _ _ _ _ _ _ R E) as R'. pose proof (ranges_contain_zero _ _ _ _ _ B R') as Z.
  apply per_axis_call in E as (l & -> & Bt & F & _); auto. apply fq_per_axis in F as (S & W & N & L & G); [|apply Bx].
  destruct (Nat.lt_ge_cases ch (length l)) as [Lc|Gc].
  - destruct (nth ch l (0, 0)) as [lo hi] eqn:En. assert (In (lo, hi) l) as I by (rewrite <- En; now apply nth_In).
    destruct (fq_levels b na lo hi) as (Ls & HL & HF); [lia|apply (Z lo hi I)|]. exists Ls. split; [auto|]. intros idx V La. rewrite S in V. rewrite (G idx V), La, En. apply HF.
  - exists []. split; [cbn; lia|]. intros idx V La. rewrite S in V. pose proof (last_lt _ _ N V). unfold channels in L. lia.
Qed.

(** * Usability *)
Definition fits (q : quantizer) (shp : list nat) (w : option ranges) : Prop :=
  match q with
  | LastValueQuantizer CConvTransposeWeights _ pa _ _ => if pa then False else exists lo hi, w = Some (Scalar lo hi)
  | LastValueQuantizer _ _ true _ _ => exists l, w = Some (PerAxis l) /\ length l = last shp 0%nat
  | LastValueQuantizer _ _ false _ _ | MovingAverageQuantizer _ _ _ _ | AllValuesQuantizer _ _ _ _ => exists lo hi, w = Some (Scalar lo hi)
  | _ => w = None
  end.
Lemma build_fits q shp : well_used q shp -> exists w, build q (Some shp) = Ok w /\ fits q shp w.
Proof.
  intros [R U]. assert (shp <> []) as N by (intros ->; cbn in R; lia). destruct shp as [|d s]; [congruence|].
  destruct q as [[] b pa sy na|b pa sy na|b pa sy na|b lo hi na|]; cbn [build].
  - destruct pa; cbn; [|eauto 10]. eexists. split; [reflexivity|]. cbn. eexists. split; [reflexivity|]. now rewrite repeat_length.
  - injection U as -> -> -> ->. cbn. eexists. split; [reflexivity|]. cbn. eexists. split; [reflexivity|]. now rewrite repeat_length.
  - destruct U as [U _]. injection U as -> -> -> ->. cbn. eauto 10.
  - cbn. eauto 10. - cbn; eauto 10. - cbn; eauto. - cbn; eauto.
Qed.
Lemma bits_ok b : (2 <= b <= 16)%nat -> (negb ((2 <=? b) && (b <=? 16)) = false)%nat.
Proof. intros [A B]. apply Nat.leb_le in A, B. now rewrite A, B. Qed.
Lemma lv_ok (b : nat) (pa sy na tr : bool) (x : tensor Q) (u : ranges) : (2 <= b <= 16)%nat -> (rank x = 2 \/ rank x = 4)%nat ->
  (if pa then exists l, u = PerAxis l /\ length l = channels x else exists lo hi, u = Scalar lo hi) ->
  exists y u', LastValueQuantize b pa sy na tr u x = Ok (y, u') /\ shape y = shape x /\ (if pa then exists l, u' = PerAxis l /\ length l = channels x else exists lo hi, u' = Scalar lo hi).
Proof.
  intros B R H. unfold LastValueQuantize. apply bits_ok in B.
  assert ((rank x =? 0)%nat = false) as R0 by (apply Nat.eqb_neq; lia).
  destruct pa.
  - destruct H as (l & -> & Ll). destruct tr; cbn [negb].
    + assert (batch_ranges true x = Ok (PerAxis (map (fun c => (reduce_min (channel_values x c), reduce_max (channel_values x c))) (seq 0 (channels x))))) as ->
        by (unfold batch_ranges; destruct R as [-> | ->]; reflexivity). cbn [bind rmap assign_with].
      rewrite !map_length, seq_length, Ll, Nat.eqb_refl. cbn [bind]. rewrite zip_new by (rewrite !map_length, seq_length; auto).
      cbn [FakeQuantWithMinMaxVars]. rewrite B, !map_length, seq_length, Nat.eqb_refl, R0. cbn. do 2 eexists. split; [reflexivity|]. split; [reflexivity|].
      eexists. split; [reflexivity|]. now rewrite !map_length, seq_length.
    + cbn [FakeQuantWithMinMaxVars]. rewrite B, Ll, Nat.eqb_refl, R0. cbn. eauto 10.
  - destruct H as (lo & hi & ->). destruct tr; cbn [negb].
    + cbn [batch_ranges bind rmap]. destruct (widen _ _ _ _ _) as [a c]. cbn [assign_with bind FakeQuantWithMinMaxVars]. rewrite B. cbn. eauto 10.
    + cbn [FakeQuantWithMinMaxVars]. rewrite B. cbn. eauto 10.
Qed.
Lemma transpose4_shape (x : tensor Q) : rank x = 4%nat -> shape (transpose 0 [0;1;3;2]%nat x) = [nth 0 (shape x) 0; nth 1 (shape x) 0; nth 3 (shape x) 0; nth 2 (shape x) 0]%nat.
Proof. reflexivity. Qed.
Lemma call_fits q x tr w : well_used q (shape x) -> fits q (shape x) w -> exists y w', call q tr w x = Ok (y, w') /\ shape y = shape x /\ fits q (shape x) w'.
Proof.
  intros [R U] F. destruct q as [[] b pa sy na|b pa sy na|b pa sy na|b lo hi na|]; cbn [call].
  - assert (exists u, w = Some u /\ if pa then exists l, u = PerAxis l /\ length l = channels x else exists lo hi, u = Scalar lo hi) as (u & -> & Hu).
    { cbn in F. destruct pa; [destruct F as (l & -> & ?); eauto|destruct F as (? & ? & ->); eauto]. }
    destruct (lv_ok b pa sy na tr x u U R Hu) as (y & u' & E & S & H'). cbn [need_w bind]. rewrite E. cbn. exists y, (Some u'). split; [auto|]. split; [auto|].
    destruct pa; [destruct H' as (l & -> & ?)|destruct H' as (? & ? & ->)]; eauto.
  - injection U as -> -> -> ->. cbn in F. destruct F as (l & -> & Hl).
    destruct (lv_ok 8 true true true tr x (PerAxis l)) as (y & u' & E & S & (l' & -> & ?)); [lia|auto|eauto|]. cbn [need_w bind]. rewrite E. cbn. eauto 10.
  - destruct U as [U R4]. injection U as -> -> -> ->. cbn in F. destruct F as (lo & hi & ->). change (rank x = 4)%nat in R4. rewrite R4. cbn [Nat.eqb negb need_w bind].
    destruct (lv_ok 8 false true true tr (transpose 0 [0;1;3;2]%nat x) (Scalar lo hi)) as (y & u' & E & S & (lo' & hi' & ->)); [lia|right; reflexivity|eauto|].
    rewrite E. cbn [bind]. do 2 eexists. split; [reflexivity|]. split; [|cbn; eauto].
    cbn. rewrite S. cbn. unfold rank in R4. destruct (shape x) as [|a [|b [|c [|d [|]]]]]; try discriminate. reflexivity.
  - destruct U as [U ->]. destruct F as (lo & hi & ->). cbn [need_w bind]. unfold MovingAvgQuantize, lift. apply bits_ok in U. destruct tr; cbn [negb batch_ranges bind rmap].
    + destruct (widen _ _ _ _ _) as [a c]. cbn [assign_with bind FakeQuantWithMinMaxVars]. rewrite U. cbn. eauto 10.
    + cbn [FakeQuantWithMinMaxVars]. rewrite U. cbn. eauto 10.
  - destruct F as (lo & hi & ->). cbn [need_w bind]. unfold AllValuesQuantize, lift. apply bits_ok in U. destruct tr; cbn [negb batch_ranges bind rmap].
    + destruct (widen_all _ _ _ _ _) as [a c]. cbn [assign_with bind FakeQuantWithMinMaxVars]. rewrite U. cbn. eauto 10.
    + cbn [FakeQuantWithMinMaxVars]. rewrite U. cbn. eauto 10.
  - unfold FixedQuantize. cbn in U. apply qltb_iff in U. rewrite U. cbn. eauto.
  - eauto.
Qed.
Theorem usable q shp calls : well_used q shp -> Forall (fun c => shape (snd c) = shp) calls -> exists w0 w, build q (Some shp) = Ok w0 /\ run q w0 calls = Ok w.
Proof.
  intros U F. destruct (build_fits q shp U) as (w0 & B & Fi). exists w0.
  assert (exists w, run q w0 calls = Ok w) as (w & R); [|eauto]. clear B. revert w0 Fi. induction F as [|[tr x] r Sx F IH]; intros w0 Fi; cbn [run]; [eauto|]. cbn in Sx. subst shp.
  destruct (call_fits q x tr w0 U Fi) as (y & w' & E & _ & F'). rewrite E. cbn [bind]. apply IH. exact F'.
Qed.
Theorem moving_average_per_axis_unusable b sy na shp tr x : (2 <= b <= 16)%nat -> (rank x = 2 \/ rank x = 4)%nat ->
  exists w0, build (MovingAverageQuantizer b true sy na) shp = Ok w0 /\
    call (MovingAverageQuantizer b true sy na) tr w0 x = Err (if tr then InvalidArgument else AssertionError).
Proof.
  intros B R. eexists. split; [reflexivity|]. cbn [call need_w bind]. unfold MovingAvgQuantize. destruct tr; cbn [negb]; [|reflexivity].
  assert (exists l, batch_ranges true x = Ok (PerAxis l)) as (l & ->) by (unfold batch_ranges; destruct R as [-> | ->]; eauto). reflexivity.
Qed.
(** per-axis weights: which ranks are accepted. *)
Theorem per_axis_ranks b sy na shp l x : (2 <= b <= 16)%nat -> shape x = shp -> shp <> [] -> length l = last shp 0%nat -> wf x ->
  ((length shp = 1 \/ length shp = 2 \/ length shp = 4)%nat -> exists y l', call (LastValueQuantizer CLastValue b true sy na) true (Some (PerAxis l)) x = Ok (y, Some (PerAxis l'))) /\
  (~ (length shp = 1 \/ length shp = 2 \/ length shp = 4)%nat -> call (LastValueQuantizer CLastValue b true sy na) true (Some (PerAxis l)) x = Err NameError).
Proof.
  intros B <- N L W. split; intros R.
  - destruct R as [R|R].
    + cbn [call need_w bind]. unfold LastValueQuantize, lift, batch_ranges, rank. rewrite R. cbn [negb bind rmap assign_with]. apply bits_ok in B.
      assert (length (data x) = channels x) as Ld. { unfold wf, channels in *. destruct (shape x) as [|d [|]]; try discriminate. cbn in *. lia. }
      rewrite !map_length, Ld, L. unfold channels at 1. rewrite Nat.eqb_refl. cbn [bind]. rewrite zip_new by (rewrite !map_length, Ld; exact L).
      cbn [FakeQuantWithMinMaxVars]. rewrite B, !map_length, Ld, Nat.eqb_refl. unfold rank. rewrite R. cbn. eauto.
    + destruct (lv_ok b true sy na true x (PerAxis l) B R) as (y & u & E & _ & (l' & -> & _)); [eauto|]. cbn [call need_w bind]. rewrite E. cbn. eauto.
  - cbn [call need_w bind]. unfold LastValueQuantize, batch_ranges, rank. destruct (shape x) as [|a [|b0 [|c [|d [|]]]]]; cbn in *; try congruence; try (exfalso; apply R; auto; fail); reflexivity.
Qed.

(** * Configurations *)
Theorem base_round_trip q : base_class q -> from_config (class_of q) (get_config q) = Ok q.
Proof. destruct q as [[]| | | |]; try contradiction; reflexivity. Qed.
Theorem quantizer_eq_iff a b : base_class a -> base_class b -> (quantizer_eq a b = true <-> class_of a = class_of b /\ config_equiv (get_config a) (get_config b)).
Proof.
  assert (forall n p s r n' p' s' r', (Nat.eqb n n' && Bool.eqb p p' && Bool.eqb s s' && Bool.eqb r r')%bool = true <-> n = n' /\ p = p' /\ s = s' /\ r = r') as X.
  { intros. rewrite !andb_true_iff, Nat.eqb_eq, !Bool.eqb_true_iff. tauto. }
  destruct a as [[]| | | |], b as [[]| | | |]; try contradiction; intros _ _; cbn [quantizer_eq class_of get_config config_equiv]; try (split; [discriminate|intros [? ?]; congruence || contradiction]).
  - rewrite X. tauto. - rewrite X. tauto. - rewrite X. tauto.
  - rewrite !andb_true_iff, Nat.eqb_eq, !Bool.eqb_true_iff, !Qeq_bool_iff. tauto.
  - tauto.
Qed.
Theorem default8bit_no_round_trip q : q = Default8BitConvWeightsQuantizer \/ q = Default8BitConvTransposeWeightsQuantizer -> from_config (class_of q) (get_config q) = Err TypeError.
Proof. intros [-> | ->]; reflexivity. Qed.
Theorem qat_round_trip c : qat_from_config (qc_class c) (qat_get_config c) = c.
Proof. destruct c; reflexivity. Qed.
Theorem qat_eq_iff a b : qat_config_eq a b = true <-> qc_weight_attrs a = qc_weight_attrs b /\ qc_quantize_output a = qc_quantize_output b /\ (qc_class a = CfgConv <-> qc_class b = CfgConv).
Proof.
  unfold qat_config_eq. destruct (list_eqb (qc_activation_attrs a) (qc_activation_attrs a)) as [_|]; [|congruence].
  destruct (list_eqb (qc_weight_attrs a) (qc_weight_attrs b)) as [E|E]; cbn [andb]; [|split; [discriminate|tauto]].
  rewrite !andb_true_iff, Bool.eqb_true_iff.
  assert (quantizer_eq (weight_quantizer a) (weight_quantizer b) = true <-> (qc_class a = CfgConv <-> qc_class b = CfgConv)) as ->.
  { unfold weight_quantizer. destruct (qc_class a), (qc_class b); cbn; split; intros; try reflexivity; try discriminate; try tauto; try (split; intros; discriminate); destruct H as [H1 H2]; try discriminate (H1 eq_refl); try discriminate (H2 eq_refl). }
  assert (quantizer_eq (activation_quantizer a) (activation_quantizer b) = true <-> True) as -> by (split; auto). tauto.
Qed.

(** * Transposed convolution weights *)
Lemma qltb_compat a b c d : a == b -> c == d -> qltb a c = qltb b d.
Proof. intros A C. destruct (qltb a c) eqn:E; symmetry; [apply qltb_iff in E; apply qltb_iff; lra|apply qltb_false in E; apply qltb_false; lra]. Qed.
Lemma qmin_compat a b c d : a == b -> c == d -> qmin a c == qmin b d.
Proof. intros A C. destruct (qmin_spec a c) as [[? ->]|[? ->]]; destruct (qmin_spec b d) as [[? ->]|[? ->]]; lra. Qed.
Lemma qmax_compat a b c d : a == b -> c == d -> qmax a c == qmax b d.
Proof. intros A C. destruct (qmax_spec a c) as [[? ->]|[? ->]]; destruct (qmax_spec b d) as [[? ->]|[? ->]]; lra. Qed.
Lemma Qeq_bool_compat a b c d : a == b -> c == d -> Qeq_bool a c = Qeq_bool b d.
Proof. intros A C. destruct (Qeq_bool b d) eqn:E; [apply Qeq_bool_iff in E; apply Qeq_bool_iff; lra|]. destruct (Qeq_bool a c) eqn:E2; [|auto]. apply Qeq_bool_iff in E2. assert (b == d) as X by lra. apply Qeq_bool_iff in X. congruence. Qed.
Lemma std_round_compat a b : a == b -> std_round a = std_round b.
Proof.
  intros A. unfold std_round. assert (Qle_bool 0 a = Qle_bool 0 b) as ->.
  { destruct (Qle_bool 0 b) eqn:E; [apply Qle_bool_iff in E; apply Qle_bool_iff; lra|]. apply Qle_bool_false in E. apply Qle_bool_false. lra. }
  destruct (Qle_bool 0 b); [|f_equal]; apply Qfloor_compat; lra.
Qed.
Lemma fake_quant_compat b na lo hi lo' hi' x x' : lo == lo' -> hi == hi' -> x == x' -> fake_quant b na lo hi x == fake_quant b na lo' hi' x'.
Proof.
  intros L H X. unfold fake_quant. rewrite (Qeq_bool_compat lo lo' 0 0), (Qeq_bool_compat hi hi' 0 0) by (auto; reflexivity). destruct (_ && _)%bool; [reflexivity|].
  assert (fq_scale b na lo hi == fq_scale b na lo' hi') as Es by (unfold fq_scale; rewrite L, H; reflexivity).
  assert (fq_zero_point b na lo hi == fq_zero_point b na lo' hi') as Ez.
  { unfold fq_zero_point. assert (fq_min na - lo / fq_scale b na lo hi == fq_min na - lo' / fq_scale b na lo' hi') as E by (rewrite Es, L; reflexivity).
    rewrite (qltb_compat _ _ (fq_min na) (fq_min na) E) by reflexivity. rewrite (qltb_compat (fq_max b) (fq_max b) _ _ ltac:(reflexivity) E). rewrite (std_round_compat _ _ E). reflexivity. }
  assert (fq_nmin b na lo hi == fq_nmin b na lo' hi') as En by (unfold fq_nmin; rewrite Ez, Es; reflexivity).
  assert (fq_nmax b na lo hi == fq_nmax b na lo' hi') as Ex by (unfold fq_nmax; rewrite Ez, Es; reflexivity).
  set (g1 := Qfloor (- fq_nmin b na lo hi / _ + _)). set (g2 := Qfloor (- fq_nmin b na lo' hi' / _ + _)).
  assert (g1 = g2) as -> by (apply Qfloor_compat; rewrite En, Es; reflexivity).
  match goal with |- inject_Z (Qfloor ?a) * _ == inject_Z (Qfloor ?c) * _ => assert (Qfloor a = Qfloor c) as -> end; [|rewrite Es; reflexivity].
  apply Qfloor_compat. apply Qplus_comp; [|reflexivity]. apply Qplus_comp; [|reflexivity]. apply Qdiv_comp; [|exact Es]. apply Qplus_comp; [|now rewrite En].
  apply qmax_compat; [apply qmin_compat; auto|auto].
Qed.
Lemma perm4_valid (a b c d : nat) idx : valid [a; b; c; d]%nat idx -> exists i j k l, idx = [i; j; k; l] /\ (i < a /\ j < b /\ k < c /\ l < d)%nat.
Proof.
  intros V. apply valid_cons_inv in V as (i & ? & -> & ? & V). apply valid_cons_inv in V as (j & ? & -> & ? & V). apply valid_cons_inv in V as (k & ? & -> & ? & V).
  apply valid_cons_inv in V as (l & ? & -> & ? & V). apply valid_nil_iff in V. subst. exists i, j, k, l. auto.
Qed.
Lemma valid4 a b c d i j k l : (i < a -> j < b -> k < c -> l < d -> valid [a; b; c; d] [i; j; k; l])%nat.
Proof. intros. repeat constructor; auto. Qed.
Lemma transpose_get (x : tensor Q) a b c d i j k l : shape x = [a; b; c; d]%nat -> (i < a)%nat -> (j < b)%nat -> (k < c)%nat -> (l < d)%nat ->
  tget 0 (transpose 0 [0;1;3;2]%nat x) [i; j; l; k] = tget 0 x [i; j; k; l].
Proof. intros S Hi Hj Hk Hl. unfold transpose. rewrite S. cbn [map nth]. rewrite tget_tab by (apply valid4; auto). reflexivity. Qed.
Lemma transpose_same_values (x : tensor Q) : wf x -> rank x = 4%nat -> forall v, In v (data (transpose 0 [0;1;3;2]%nat x)) <-> In v (data x).
Proof.
  intros W R v. unfold rank in R. destruct (shape x) as [|a [|b [|c [|d [|]]]]] eqn:S; try discriminate.
  assert (wf (transpose 0 [0;1;3;2]%nat x)) as Wt by apply transpose_wf. assert (shape (transpose 0 [0;1;3;2]%nat x) = [a; b; d; c]) as St by (cbn; rewrite S; reflexivity).
  split; intros H; apply (In_split_nth _ _ 0) in H; destruct H as (n & L & E).
  - rewrite Wt, St in L. pose proof (unravel_valid _ _ L) as V. apply perm4_valid in V as (i & j & l & k & Eq & Hi & Hj & Hl & Hk).
    assert (tget 0 (transpose 0 [0;1;3;2]%nat x) [i; j; l; k] = v) as T. { unfold tget. rewrite St, <- Eq, (ravel_unravel _ _ L). exact E. }
    rewrite (transpose_get x a b c d) in T by auto. rewrite <- T. unfold tget. apply nth_In. rewrite W, S. apply ravel_lt. apply valid4; auto.
  - rewrite W, S in L. pose proof (unravel_valid _ _ L) as V. apply perm4_valid in V as (i & j & k & l & Eq & Hi & Hj & Hk & Hl).
    assert (tget 0 x [i; j; k; l] = v) as T. { unfold tget. rewrite S, <- Eq, (ravel_unravel _ _ L). exact E. }
    rewrite <- (transpose_get x a b c d) in T by auto. rewrite <- T. unfold tget. apply nth_In. rewrite Wt, St. apply ravel_lt. apply valid4; auto.
Qed.
Lemma reduce_min_same l m : l <> [] -> (forall v, In v l <-> In v m) -> reduce_min l == reduce_min m.
Proof.
  intros N H. assert (m <> []) as M. { destruct l as [|a l]; [congruence|]. intros ->. apply (H a). now left. }
  destruct (reduce_min_spec l N) as [A B]. destruct (reduce_min_spec m M) as [C D]. apply Qle_antisym; [apply B, H, C|apply D, H, A].
Qed.
Lemma reduce_max_same l m : l <> [] -> (forall v, In v l <-> In v m) -> reduce_max l == reduce_max m.
Proof.
  intros N H. assert (m <> []) as M. { destruct l as [|a l]; [congruence|]. intros ->. apply (H a). now left. }
  destruct (reduce_max_spec l N) as [A B]. destruct (reduce_max_spec m M) as [C D]. apply Qle_antisym; [apply D, H, A|apply B, H, C].
Qed.
Lemma widen_compat sy b na lo hi lo' hi' : lo == lo' -> hi == hi' -> fst (widen sy b na lo hi) == fst (widen sy b na lo' hi') /\ snd (widen sy b na lo hi) == snd (widen sy b na lo' hi').
Proof.
  intros L H. unfold widen. destruct sy; cbn [fst snd]; split; (apply qmin_compat || apply qmax_compat); auto; try reflexivity; rewrite ?L, ?H; reflexivity.
Qed.
Theorem conv_transpose_plain tr lo hi x y w : batch x -> call Default8BitConvTransposeWeightsQuantizer tr (Some (Scalar lo hi)) x = Ok (y, w) ->
  exists lo1 hi1 lo2 hi2 y2, w = Some (Scalar lo1 hi1) /\ call (LastValueQuantizer CLastValue 8 false true true) tr (Some (Scalar lo hi)) x = Ok (y2, Some (Scalar lo2 hi2)) /\
    lo1 == lo2 /\ hi1 == hi2 /\ shape y = shape x /\ shape y2 = shape x /\ forall idx, valid (shape x) idx -> tget 0 y idx == tget 0 y2 idx.
Proof.
  intros [W N]. unfold Default8BitConvTransposeWeightsQuantizer. cbn [call]. destruct (Nat.eqb_spec (rank x) 4) as [R|]; cbn [negb]; [|discriminate]. cbn [need_w bind].
  assert (forall l1 h1 l2 h2, l1 == l2 -> h1 == h2 -> let y1 := transpose 0 [0;1;3;2]%nat (tmap (fake_quant 8 true l1 h1) (transpose 0 [0;1;3;2]%nat x)) in
    shape y1 = shape x /\ forall idx, valid (shape x) idx -> tget 0 y1 idx == tget 0 (tmap (fake_quant 8 true l2 h2) x) idx) as G.
  { intros l1 h1 l2 h2 El Eh y1. unfold rank in R. destruct (shape x) as [|a [|b [|c [|d [|]]]]] eqn:S; try discriminate. split; [unfold y1; cbn; rewrite S; reflexivity|].
    intros idx V. apply perm4_valid in V as (i & j & k & l & -> & Hi & Hj & Hk & Hl). unfold y1.
    rewrite (transpose_get _ a b d c i j l k) by (auto; cbn; rewrite S; reflexivity).
    rewrite (tget_tmap _ 0 0) by (try apply transpose_wf; cbn; rewrite S; apply valid4; auto). rewrite (transpose_get x a b c d) by auto.
    rewrite (tget_tmap _ 0 0) by (auto; rewrite S; apply valid4; auto). apply fake_quant_compat; auto. reflexivity. }
  unfold LastValueQuantize, lift. destruct tr; cbn [negb batch_ranges bind rmap].
  - pose proof (transpose_same_values x W R) as Sv.
    assert (data (transpose 0 [0;1;3;2]%nat x) <> []) as Nt. { intros Z. destruct (data x) as [|v ?] eqn:Dx; [congruence|]. specialize (Sv v). rewrite Z in Sv. apply Sv. now left. }
    assert (reduce_min (data (transpose 0 [0;1;3;2]%nat x)) == reduce_min (data x)) as E1 by (apply reduce_min_same; [auto|]; intros; apply Sv).
    assert (reduce_max (data (transpose 0 [0;1;3;2]%nat x)) == reduce_max (data x)) as E2 by (apply reduce_max_same; [auto|]; intros; apply Sv).
    pose proof (widen_compat true 8 true _ _ _ _ E1 E2) as [Wl Wh].
    destruct (widen true 8 true (reduce_min (data (transpose 0 [0;1;3;2]%nat x))) _) as [l1 h1]. destruct (widen true 8 true (reduce_min (data x)) _) as [l2 h2]. cbn [fst snd] in Wl, Wh.
    cbn [assign_with bind FakeQuantWithMinMaxVars]. cbn [negb Nat.leb andb bind]. intros [= <- <-]. exists l1, h1, l2, h2. eexists. split; [reflexivity|]. split; [reflexivity|].
    destruct (G l1 h1 l2 h2 Wl Wh) as [G1 G2]. repeat split; auto.
  - cbn [FakeQuantWithMinMaxVars]. cbn [negb Nat.leb andb bind]. intros [= <- <-]. exists lo, hi, lo, hi. eexists. split; [reflexivity|]. split; [reflexivity|].
    destruct (G lo hi lo hi) as [G1 G2]; [reflexivity|reflexivity|]. repeat split; auto; reflexivity.
Qed.
