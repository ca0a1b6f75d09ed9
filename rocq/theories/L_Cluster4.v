(** Zero-centroid initialisation (C27), linear initialisation (C28). *)
From Verif Require Import Base M_Tensor M_Num M_Stages M_Cluster S_Cluster L_Num L_Tensor L_Stages L_Cluster L_Cluster2 L_Cluster3.
Open Scope Q_scope.

Lemma half x : x / 2 == x * (1#2). Proof. reflexivity. Qed.
Lemma gap_le lo hi : weights_gap true lo hi <= Qabs lo * (1#2) /\ weights_gap true lo hi <= Qabs hi * (1#2).
Proof.
  unfold weights_gap. destruct (qmin_spec (Qabs lo) (Qabs hi)) as [[? E]|[? E]]; rewrite E;
  match goal with |- qmin ?a ?b <= _ /\ _ => destruct (qmin_spec a b) as [[A F]|[A F]]; rewrite F; clear F; rewrite half in A || idtac; rewrite ?half end; lra.
Qed.

Lemma cfi_spec init ps ws n l : sound_initialiser init -> (ps = true -> forall y, In y ws -> ~ y == 0) ->
  centroids_for_interval init ps ws n = Ok l -> length l = Z.to_nat n /\
  (ps = true -> (forall y, In y ws -> y < 0) -> forall x, In x l -> x < 0) /\ (ps = true -> (forall y, In y ws -> 0 < y) -> forall x, In x l -> 0 < x).
Proof.
  intros Si NZ. unfold centroids_for_interval. destruct (Z.leb_spec n 0) as [L|L].
  { intros [= <-]. split; [cbn; lia|]. split; intros _ _ x []. }
  destruct ws as [|w0 ws0] eqn:Ew; [discriminate|]. rewrite <- Ew in *. assert (N : ws <> []) by (rewrite Ew; discriminate). clear Ew w0 ws0.
  destruct (reduce_min_spec ws N) as [A1 A2], (reduce_max_spec ws N) as [B1 B2].
  assert (Sub : forall l, length l = Z.to_nat n -> (forall x, In x l -> reduce_min ws <= x <= reduce_max ws) ->
    length l = Z.to_nat n /\ (ps = true -> (forall y, In y ws -> y < 0) -> forall x, In x l -> x < 0) /\ (ps = true -> (forall y, In y ws -> 0 < y) -> forall x, In x l -> 0 < x)).
  { intros l' Hl R. split; [exact Hl|]. split; intros _ H x Hx; specialize (R x Hx); [specialize (H _ B1)|specialize (H _ A1)]; lra. }
  destruct init as [|uniform| |choose]; cbn in Si.
  - intros [= <-]. apply Sub; [apply linspace_length|]. intros x. apply linspace_range, min_le_max, N.
  - intros [= <-]. destruct (Si (Z.to_nat n) _ _ (min_le_max ws N)) as [S1 S2]. now apply Sub.
  - intros [= <-]. split; [apply density_length|]. split; intros -> H x Hx; pose proof (density_range true ws _ x N NZ Hx) as R; destruct (gap_le (reduce_min ws) (reduce_max ws)) as [G1 G2].
    + specialize (H _ B1). rewrite Qabs_neg in G2 by lra. lra.
    + specialize (H _ A1). rewrite Qabs_pos in G1 by lra. lra.
  - destruct (length ws <? Z.to_nat n)%nat eqn:E; [discriminate|]. apply Nat.ltb_ge in E. intros [= <-]. destruct (Si _ _ E) as [S1 S2]. apply Sub; auto.
Qed.
Lemma cfi_ok init ps ws n : (ws = [] -> (n <= 0)%Z) -> enough_points init n (length ws) -> exists l, centroids_for_interval init ps ws n = Ok l.
Proof.
  intros H E. unfold centroids_for_interval. destruct (Z.leb_spec n 0); [now eexists|]. destruct ws as [|w ws]; [specialize (H eq_refl); lia|].
  destruct init; try (now eexists). cbn in E. rewrite (proj2 (Nat.ltb_ge _ _)); [now eexists|]. cbn [length]. lia.
Qed.

Section ZeroInit.
  Variables (init : initialiser) (n : Z) (ws : list Q).
  Hypothesis Hn : (3 <= n)%Z.
  Let neg := filter (fun w => qltb w 0) ws.
  Let pos := filter (fun w => qltb 0 w) ws.
  Let nneg := Z.of_nat (length neg).
  Let npos := Z.of_nat (length pos).
  Hypothesis NZ : (0 < nneg + npos)%Z.
  Let share := inject_Z (n - 1) * (inject_Z nneg / inject_Z (nneg + npos)).
  Let kn := round_half_even share.

  Lemma tot_pos : 0 < inject_Z (nneg + npos). Proof. now apply inject_pos. Qed.
  Lemma share_mul : share * inject_Z (nneg + npos) == inject_Z (n - 1) * inject_Z nneg.
  Proof. unfold share. pose proof tot_pos. field. lra. Qed.
  Lemma share_range : 0 <= share <= inject_Z (n - 1).
  Proof.
    pose proof share_mul as E. pose proof tot_pos as T. assert (0 <= inject_Z nneg <= inject_Z (nneg + npos)) by (split; [apply (inj_le 0)|apply inj_le]; unfold nneg, npos; lia).
    assert (0 < inject_Z (n - 1)) by (apply inject_pos; lia). nra.
  Qed.
  Lemma kn_range : (0 <= kn <= n - 1)%Z.
  Proof. apply round_bounds. change (inject_Z 0) with 0. apply share_range. Qed.
  Lemma kn_no_neg : nneg = 0%Z -> kn = 0%Z.
  Proof.
    intros E. unfold kn. rewrite (round_compat share (inject_Z 0)); [apply round_inject|]. unfold share. rewrite E. change (inject_Z 0) with 0. unfold Qdiv. ring.
  Qed.
  Lemma kn_no_pos : npos = 0%Z -> kn = (n - 1)%Z.
  Proof.
    intros E. unfold kn. rewrite (round_compat share (inject_Z (n - 1))); [apply round_inject|]. pose proof share_mul as M. rewrite E, Z.add_0_r in M.
    assert (0 < inject_Z nneg) by (apply inject_pos; lia). nra.
  Qed.
  Lemma kn_le_neg : (n - 1 <= nneg + npos)%Z -> (kn <= nneg)%Z /\ (n - 1 - kn <= npos)%Z.
  Proof.
    intros L. pose proof share_mul as M. pose proof tot_pos as T. assert (L' : inject_Z (n - 1) <= inject_Z (nneg + npos)) by now apply inj_le.
    assert (0 <= inject_Z nneg) by (apply (inj_le 0); unfold nneg; lia). assert (0 <= inject_Z npos) by (apply (inj_le 0); unfold npos; lia).
    assert (S1 : share <= inject_Z nneg) by nra.
    assert (S2 : inject_Z (n - 1 - npos) <= share).
    { unfold Zminus at 1. rewrite inject_Z_plus, inject_Z_opp. rewrite inject_Z_plus in M, T, L'. nra. }
    split.
    - unfold kn. rewrite <- (round_inject nneg). now apply round_le.
    - apply round_le in S2. rewrite round_inject in S2. fold kn in S2. lia.
  Qed.
  Lemma zi_unfold : zero_centroid_initialization init n ws =
    do nc <- centroids_for_interval init true neg kn ;; do pc <- centroids_for_interval init true pos (n - 1 - kn) ;; Ok (nc ++ [0] ++ pc)%list.
  Proof. unfold zero_centroid_initialization. fold neg pos nneg npos. rewrite (proj2 (Z.eqb_neq _ _)) by lia. reflexivity. Qed.
  Lemma neg_neg y : In y neg -> y < 0. Proof. unfold neg. rewrite filter_In. intros [_ H]. now apply qltb_iff. Qed.
  Lemma pos_pos y : In y pos -> 0 < y. Proof. unfold pos. rewrite filter_In. intros [_ H]. now apply qltb_iff. Qed.

  Lemma zi_spec l : sound_initialiser init -> zero_centroid_initialization init n ws = Ok l ->
    exists nc pc, l = (nc ++ [0] ++ pc)%list /\ Z.of_nat (length l) = n /\ (forall x, In x nc -> x < 0) /\ (forall x, In x pc -> 0 < x) /\
      Qabs (inject_Z (Z.of_nat (length nc)) - share) <= 1#2 /\ (nneg = 0%Z -> nc = []) /\ (npos = 0%Z -> pc = []).
  Proof.
    intros Si. rewrite zi_unfold. destruct (centroids_for_interval init true neg kn) as [nc|] eqn:E1; [|discriminate]. cbn [bind].
    destruct (centroids_for_interval init true pos (n - 1 - kn)) as [pc|] eqn:E2; [|discriminate]. cbn [bind]. intros [= <-]. pose proof kn_range as K.
    apply cfi_spec in E1; [|exact Si|]. 2:{ intros _ y Hy Z. pose proof (neg_neg y Hy). lra. }
    apply cfi_spec in E2; [|exact Si|]. 2:{ intros _ y Hy Z. pose proof (pos_pos y Hy). lra. }
    destruct E1 as (L1 & N1 & _), E2 as (L2 & _ & P2). exists nc, pc. split; [reflexivity|]. split.
    { rewrite !app_length. cbn [length]. lia. }
    split; [apply (N1 eq_refl neg_neg)|]. split; [apply (P2 eq_refl pos_pos)|]. split.
    { rewrite L1, Z2Nat.id by lia. apply round_error. }
    split; intros Z0.
    - apply kn_no_neg in Z0. rewrite Z0 in L1. destruct nc; [reflexivity|discriminate].
    - apply kn_no_pos in Z0. rewrite Z0 in L2. replace (n - 1 - (n - 1))%Z with 0%Z in L2 by lia. destruct pc; [reflexivity|discriminate].
  Qed.
  Lemma zi_ok : enough_points init (n - 1) (length neg + length pos) -> exists l, zero_centroid_initialization init n ws = Ok l.
  Proof.
    intros E. rewrite zi_unfold. pose proof kn_range as K.
    destruct (cfi_ok init true neg kn) as (nc & ->).
    { intros Z0. assert (nneg = 0%Z) by (unfold nneg; now rewrite Z0). rewrite kn_no_neg by assumption. lia. }
    { destruct init; cbn in *; try exact I. destruct kn_le_neg; [unfold nneg, npos; lia|]. unfold nneg in *. lia. }
    cbn [bind]. destruct (cfi_ok init true pos (n - 1 - kn)) as (pc & ->).
    { intros Z0. assert (npos = 0%Z) by (unfold npos; now rewrite Z0). rewrite kn_no_pos by assumption. lia. }
    { destruct init; cbn in *; try exact I. destruct kn_le_neg; [unfold nneg, npos; lia|]. unfold npos in *. lia. }
    cbn [bind]. now eexists.
  Qed.
End ZeroInit.

Lemma count_nonzero ws : (exists x, In x ws /\ ~ x == 0) <-> (0 < count_negative ws + count_positive ws)%nat.
Proof.
  unfold count_negative, count_positive. split.
  - intros (x & I & N). destruct (Qlt_le_dec x 0) as [L|L].
    + assert (In x (filter (fun w => qltb w 0) ws)) by (apply filter_In; split; [exact I|now apply qltb_iff]). destruct (filter (fun w => qltb w 0) ws); [contradiction|cbn; lia].
    + assert (In x (filter (fun w => qltb 0 w) ws)) by (apply filter_In; split; [exact I|apply qltb_iff; lra]). destruct (filter (fun w => qltb 0 w) ws); [contradiction|cbn; lia].
  - intros H. destruct (filter (fun w => qltb w 0) ws) as [|x r] eqn:E.
    + destruct (filter (fun w => qltb 0 w) ws) as [|x r] eqn:E'; [cbn in H; lia|]. assert (I : In x (filter (fun w => qltb 0 w) ws)) by (rewrite E'; now left).
      apply filter_In in I. destruct I as [I Q0]. apply qltb_iff in Q0. exists x. split; [exact I|lra].
    + assert (I : In x (filter (fun w => qltb w 0) ws)) by (rewrite E; now left).
      apply filter_In in I. destruct I as [I Q0]. apply qltb_iff in Q0. exists x. split; [exact I|lra].
Qed.

Lemma zero_init_spec init n ws l : sound_initialiser init -> (3 <= n)%Z -> (exists x, In x ws /\ ~ x == 0) -> zero_centroid_initialization init n ws = Ok l ->
  exists nc pc, l = (nc ++ [0] ++ pc)%list /\ Z.of_nat (length l) = n /\ (forall x, In x nc -> x < 0) /\ (forall x, In x pc -> 0 < x) /\
    Qabs (inject_Z (Z.of_nat (length nc)) - inject_Z (n - 1) * (inject_Z (Z.of_nat (count_negative ws)) / inject_Z (Z.of_nat (count_negative ws) + Z.of_nat (count_positive ws)))) <= 1#2 /\
    (count_negative ws = 0%nat -> nc = []) /\ (count_positive ws = 0%nat -> pc = []).
Proof.
  intros Si Hn NZ E. apply count_nonzero in NZ. unfold count_negative, count_positive in *.
  destruct (zi_spec init n ws Hn ltac:(lia) l Si E) as (nc & pc & A & B & C & D & F & G & H). exists nc, pc. repeat split; auto.
  - intros Z0. apply G. lia.
  - intros Z0. apply H. lia.
Qed.
Lemma zero_init_ok init n ws : (3 <= n)%Z -> (exists x, In x ws /\ ~ x == 0) -> enough_points init (n - 1) (count_negative ws + count_positive ws) ->
  exists l, zero_centroid_initialization init n ws = Ok l.
Proof. intros Hn NZ E. apply count_nonzero in NZ. unfold count_negative, count_positive in *. apply zi_ok; auto. lia. Qed.
Lemma zero_init_all_zero init n ws : (forall x, In x ws -> x == 0) -> zero_centroid_initialization init n ws = Ok [0].
Proof.
  intros H. unfold zero_centroid_initialization.
  assert (A : filter (fun w => qltb w 0) ws = []). { destruct (filter _ ws) as [|x r] eqn:E; [reflexivity|]. assert (I : In x (filter (fun w => qltb w 0) ws)) by (rewrite E; now left). apply filter_In in I. destruct I as [I J]. apply qltb_iff in J. specialize (H _ I). lra. }
  assert (B : filter (fun w => qltb 0 w) ws = []). { destruct (filter (fun w => qltb 0 w) ws) as [|x r] eqn:E; [reflexivity|]. assert (I : In x (filter (fun w => qltb 0 w) ws)) by (rewrite E; now left). apply filter_In in I. destruct I as [I J]. apply qltb_iff in J. specialize (H _ I). lra. }
  rewrite A, B. reflexivity.
Qed.
(** The zero centroid is always there. *)
Lemma zero_init_has_zero init n ws l : zero_centroid_initialization init n ws = Ok l -> In 0 l.
Proof.
  unfold zero_centroid_initialization. destruct (_ =? 0)%Z; [intros [= <-]; now left|].
  destruct (centroids_for_interval init true (filter (fun w => qltb w 0) ws) _) as [nc|]; [|discriminate]. cbn [bind].
  destruct (centroids_for_interval _ _ _ _) as [pc|]; [|discriminate]. cbn [bind]. intros [= <-]. apply in_or_app. right. now left.
Qed.
Lemma linear_spec n df w l : wf w -> (2 <= n)%nat -> get_cluster_centroids Linear (Z.of_nat n) false false df w = Ok (Flat l) ->
  exists lo hi, In lo (data w) /\ In hi (data w) /\ (forall x, In x (data w) -> lo <= x <= hi) /\ evenly_spaced lo hi n l.
Proof.
  intros W Hn. unfold get_cluster_centroids, centroids_for_interval. destruct (Z.leb_spec (Z.of_nat n) 0); [lia|].
  destruct (data w) as [|x0 r0] eqn:E; [discriminate|]. rewrite <- E. assert (N : data w <> []) by (rewrite E; discriminate). cbn [bind]. intros [= <-].
  destruct (reduce_min_spec _ N) as [A1 A2], (reduce_max_spec _ N) as [B1 B2]. exists (reduce_min (data w)), (reduce_max (data w)). rewrite Nat2Z.id.
  repeat split; auto; apply linspace_even; exact Hn.
Qed.
