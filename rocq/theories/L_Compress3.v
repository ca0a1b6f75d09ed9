From Coq Require Import String Ascii.
From Verif Require Import Base M_Tensor M_Num M_Stages M_Cluster M_Compress S_Cluster S_Compress L_Tensor L_Cluster L_Cluster4 L_Compress L_Compress2.
Open Scope string_scope.
Open Scope list_scope.
Open Scope nat_scope.

Lemma two_assoc {A} (p : list A) a b : p ++ [a; b] = (p ++ [a]) ++ [b].
Proof. now rewrite <- app_assoc. Qed.
Lemma lead_app p a b : lead (p ++ [a; b]) = p.
Proof. unfold lead. now rewrite two_assoc, !removelast_last. Qed.
Lemma row2_app p a b : row2 (p ++ [a; b]) = a.
Proof. unfold row2. now rewrite two_assoc, removelast_last, last_last. Qed.
Lemma col_app p a b : col (p ++ [a; b]) = b.
Proof. unfold col. now rewrite two_assoc, last_last. Qed.
Lemma col_app1 p a : col (p ++ [a]) = a.
Proof. unfold col. now rewrite last_last. Qed.

Lemma split2 (l : list nat) : 2 <= List.length l -> exists p m n, l = p ++ [m; n].
Proof.
  intros H. destruct (@exists_last _ l) as (l1 & n & ->). { intros ->. cbn in H. lia. }
  rewrite app_length in H. cbn in H. destruct (@exists_last _ l1) as (p & m & ->). { intros ->. cbn in H. lia. }
  exists p, m, n. now rewrite <- app_assoc.
Qed.
Lemma valid2 p q m n i j : valid p q -> i < m -> j < n -> valid (p ++ [m; n]) (q ++ [i; j]).
Proof. intros. apply Forall2_app; auto. Qed.
Lemma valid2_inv p m n idx : valid (p ++ [m; n]) idx -> exists q i j, idx = q ++ [i; j] /\ valid p q /\ i < m /\ j < n.
Proof.
  intros H. apply Forall2_app_inv_r in H as (q & r & H1 & H2 & ->).
  inversion H2 as [|i ? r1 ? A B]; subst. inversion B as [|j ? r2 ? C D]; subst. inversion D; subst.
  exists q, i, j. auto.
Qed.
Lemma pre_inj (p p' : list nat) m n m' n' : p ++ [m; n] = p' ++ [m'; n'] -> p = p' /\ m = m' /\ n = n'.
Proof.
  rewrite !two_assoc. intros H. apply app_inj_tail in H as [H ->]. apply app_inj_tail in H as [-> ->]. auto.
Qed.

Lemma slice_len_le k n : slice_len k n <= n.
Proof. unfold slice_len. destruct (Z.ltb_spec k 0); lia. Qed.
Lemma slice_len_pos k n : (0 <= k)%Z -> Z.of_nat (slice_len k n) = Z.min k (Z.of_nat n).
Proof. intros. unfold slice_len. destruct (Z.ltb_spec k 0); lia. Qed.

Section Factor.
Variables (svd : svd_op) (rk : Z) (w : tensor Q) (p : list nat) (m n : nat).
Hypothesis Hs : svd_shapes svd.
Hypothesis Hw : shape w = p ++ [m; n].
Hypothesis Hr : rank w = 2 \/ rank w = 4.
Let k := slice_len rk (Nat.min m n).

Lemma factorize_ok : exists u sv,
  factorize svd rk w = Ok (u, sv) /\ shape u = p ++ [m; k] /\ shape sv = p ++ [k; n] /\
  forall q i j l, valid p q -> i < m -> j < n -> l < k ->
    tget 0%Q u (q ++ [i; l]) = (let '(_, u0, _) := svd w in tget 0%Q u0 (q ++ [i; l])) /\
    tget 0%Q sv (q ++ [l; j]) = (let '(s0, _, v0) := svd w in tget 0 s0 (q ++ [l]) * tget 0 v0 (q ++ [j; l]))%Q.
Proof.
  pose proof (Hs w p m n Hw) as H. unfold factorize. destruct (svd w) as [[s u] v]. destruct H as (Ss & Su & Sv).
  assert ((rank w =? 2) || (rank w =? 4) = true) as ->. { apply orb_true_iff. rewrite !Nat.eqb_eq. exact Hr. }
  do 2 eexists. split; [reflexivity|]. rewrite Su, Sv, Ss.
  rewrite lead_app, row2_app, col_app, col_app1, row2_app. fold k.
  split; [reflexivity|]. split; [reflexivity|]. intros q i j l Hq Hi Hj Hl.
  rewrite !tget_tab by (apply valid2; auto).
  rewrite lead_app, row2_app, col_app. auto.
Qed.
End Factor.

Lemma matmul_get a b p m k n q i j : shape a = p ++ [m; k] -> shape b = p ++ [k; n] -> valid p q -> i < m -> j < n ->
  tget 0%Q (matmul a b) (q ++ [i; j]) =
  sumQ (map (fun l => tget 0 a (q ++ [i; l]) * tget 0 b (q ++ [l; j]))%Q (seq 0 k)).
Proof.
  intros Ha Hb Hq Hi Hj. unfold matmul. rewrite Ha, Hb, lead_app, row2_app, !col_app.
  rewrite tget_tab by (apply valid2; auto). now rewrite lead_app, row2_app, col_app.
Qed.
Lemma matmul_shape a b p m k n : shape a = p ++ [m; k] -> shape b = p ++ [k; n] -> shape (matmul a b) = p ++ [m; n].
Proof. intros Ha Hb. unfold matmul. rewrite Ha, Hb, tab_shape, lead_app, row2_app, !col_app. reflexivity. Qed.
Lemma matmul_wf a b : wf (matmul a b). Proof. apply tab_wf. Qed.
Lemma matmul_rank a b p m k n : shape a = p ++ [m; k] -> shape b = p ++ [k; n] -> rank_at_most k (matmul a b).
Proof.
  intros Ha Hb. exists (tget 0%Q a), (tget 0%Q b). intros p' m' n' E q i j Hq Hi Hj.
  rewrite (matmul_shape a b p m k n) in E by auto. apply pre_inj in E as (<- & <- & <-).
  rewrite (matmul_get a b p m k n) by auto. reflexivity.
Qed.

Lemma sumQ_ext {A} (f g : A -> Q) l : (forall x, In x l -> (f x == g x)%Q) -> (sumQ (map f l) == sumQ (map g l))%Q.
Proof. induction l; cbn; intros H. reflexivity. rewrite H by auto. rewrite IHl by auto. reflexivity. Qed.

Lemma factorize_exact svd rk w p m n u sv : svd_shapes svd -> svd_exact svd -> shape w = p ++ [m; n] -> wf w ->
  (rank w = 2 \/ rank w = 4) -> (Z.of_nat (Nat.min m n) <= rk)%Z -> factorize svd rk w = Ok (u, sv) ->
  forall q i j, valid p q -> i < m -> j < n -> (tget 0 (matmul u sv) (q ++ [i; j]) == tget 0 w (q ++ [i; j]))%Q.
Proof.
  intros Hs He Hw Wf Hr Hk E q i j Hq Hi Hj.
  destruct (factorize_ok svd rk w p m n Hs Hw Hr) as (u' & sv' & E' & Su & Ssv & G).
  rewrite E in E'. injection E' as <- <-.
  assert (Ek : slice_len rk (Nat.min m n) = Nat.min m n). { apply Nat2Z.inj. rewrite slice_len_pos by lia. lia. }
  rewrite Ek in *. rewrite (matmul_get u sv p m (Nat.min m n) n) by auto.
  pose proof (He w p m n Hw Wf) as X. destruct (svd w) as [[s0 u0] v0]. rewrite (X q i j Hq Hi Hj).
  apply sumQ_ext. intros l Hl. apply in_seq in Hl. destruct (G q i j l) as [-> ->]; auto; try lia. reflexivity.
Qed.

(** ** shape_stable *)
Lemma zeros_shape s : vshape (zeros s) = s. Proof. reflexivity. Qed.
Lemma zeros_wf s : wf (mkT s (repeat 0%Q (prod s))). Proof. unfold wf. cbn. apply repeat_length. Qed.

Lemma stable_bias : shape_stable bias_only.
Proof.
  intros v vs _ H. destruct v as [t|t]; [|discriminate]. cbn in H. injection H as <-. eexists. split; [reflexivity|]. reflexivity.
Qed.
Lemma stable_different svd rk : shape_stable (different_svd svd rk).
Proof. intros v vs _ H. cbn in H. injection H as <-. eexists. split; reflexivity. Qed.
Lemma stable_periodical svd rk f wm : shape_stable (periodical_svd svd rk f wm).
Proof. intros v vs _ H. cbn in H. injection H as <-. eexists. split; reflexivity. Qed.
Lemma factorize_rank svd rk w r : factorize svd rk w = Ok r -> rank w = 2 \/ rank w = 4.
Proof.
  unfold factorize. destruct (svd w) as [[s u] v]. destruct ((rank w =? 2) || (rank w =? 4)) eqn:E; [|discriminate].
  intros _. apply orb_true_iff in E. rewrite !Nat.eqb_eq in E. exact E.
Qed.
Lemma stable_same svd rk : svd_shapes svd -> shape_stable (same_svd svd rk).
Proof.
  intros Hs v vs _ H. destruct v as [t|t]; [|discriminate]. cbn in H.
  destruct (factorize svd rk t) as [[u sv]|] eqn:E; [|discriminate]. cbn in H. injection H as <-.
  pose proof (factorize_rank _ _ _ _ E) as Hr.
  destruct (split2 (shape t)) as (p & m & n & Hsh). { unfold rank in Hr. lia. }
  destruct (factorize_ok svd rk t p m n Hs Hsh Hr) as (u1 & sv1 & E1 & S1 & S2 & _).
  rewrite E in E1. injection E1 as <- <-.
  destruct (factorize_ok svd rk (mkT (shape t) (repeat 0%Q (prod (shape t)))) p m n Hs Hsh Hr) as (u2 & sv2 & E2 & S3 & S4 & _).
  eexists. cbn [a_init same_svd zeros vshape]. rewrite E2. split; [reflexivity|]. cbn [map vshape fst snd]. congruence.
Qed.

Lemma wc_init_inv init n v vs : wc_init init n v = Ok vs -> exists t l,
  v = VF t /\ (0 < n)%Z /\ (rank t = 2 \/ rank t = 4) /\ centroids_for_interval init false (data t) n = Ok l /\
  vs = [VF (mkT [List.length l] l); VI (tmap Z.of_nat (get_pulling_indices l t))].
Proof.
  destruct v as [t|t]; [|discriminate]. cbn. destruct (Z.leb_spec n 0); [discriminate|].
  unfold get_cluster_centroids. destruct (centroids_for_interval init false (data t) n) as [l|] eqn:E; [|discriminate].
  cbn [bind]. destruct ((rank t =? 2) || (rank t =? 4)) eqn:R; [|discriminate]. intros [= <-].
  exists t, l. split; auto. split; auto. split; auto. apply orb_true_iff in R. now rewrite !Nat.eqb_eq in R.
Qed.
Lemma cfi_length init ws n l : sound_initialiser init -> centroids_for_interval init false ws n = Ok l ->
  List.length l = Z.to_nat n.
Proof. intros Si H. apply cfi_spec in H; auto; try discriminate. tauto. Qed.

Lemma stable_wc init n : sound_initialiser init -> shape_stable (weight_clustering init n).
Proof.
  intros Si v vs Wf H. apply wc_init_inv in H as (t & l & -> & Hn & Hr & Hc & ->).
  rename Wf into W. cbn in W. set (z := mkT (shape t) (repeat 0%Q (prod (shape t)))).
  assert (exists l', centroids_for_interval init false (data z) n = Ok l') as (l' & Hl').
  { unfold centroids_for_interval in *. destruct (Z.leb_spec n 0); [lia|].
    assert (Hlen : List.length (data z) = List.length (data t)). { unfold z. cbn. rewrite repeat_length. symmetry. exact W. }
    destruct (data z) as [|z0 zr]. { destruct (data t); [discriminate Hc|]. discriminate Hlen. }
    destruct init; try (eexists; reflexivity).
    destruct (data t) as [|t0 tr] eqn:Et; [discriminate Hc|]. rewrite Hlen.
    destruct (List.length (t0 :: tr) <? Z.to_nat n); [discriminate Hc|]. eexists; reflexivity. }
  cbn [vshape]. cbn [a_init weight_clustering wc_init zeros]. fold z.
  destruct (Z.leb_spec n 0); [lia|]. unfold get_cluster_centroids. rewrite Hl'. cbn [bind].
  assert ((rank z =? 2) || (rank z =? 4) = true) as ->. { apply orb_true_iff. rewrite !Nat.eqb_eq. exact Hr. }
  eexists. split; [reflexivity|]. cbn [map vshape shape tmap get_pulling_indices].
  apply cfi_length in Hl'; auto. apply cfi_length in Hc; auto. rewrite Hl', Hc. reflexivity.
Qed.
