From Coq Require Import String Ascii.
From Verif Require Import Base M_Tensor L_Tensor M_Num L_Num M_Compress S_Compress M_Epr S_Epr L_Epr L_Epr2.
Open Scope list_scope.
Open Scope nat_scope.

Section RoundTrip.
Variables (fast : bool) (o : epr_ops).
Let alg := algorithm fast o.

Definition tb_of (sc : tensor Q) : option tables := if fast then None else Some (epr_tables o sc).
Definition compressed_form (w ls sc : tensor Q) (ws : list nat) : list cv :=
  (compressed o (tb_of sc) w ls (shape_vector ws) ++
   if fast then [] else [VI (tmap int16 (fst (epr_tables o sc))); VI (tmap int16 (snd (epr_tables o sc)))])%list.
Lemma compress_dense w ls sc : a_compress alg (dense_weights fast w ls sc) = Ok (compressed_form w ls sc (shape w)).
Proof. unfold alg, dense_weights, compressed_form, tb_of. destruct fast; reflexivity. Qed.
Lemma compress_conv r ks ls sc : a_compress alg (conv_weights fast r ks ls sc) = Ok (compressed_form r ls sc ks).
Proof. unfold alg, conv_weights, compressed_form, tb_of. destruct fast; reflexivity. Qed.

Lemma tables_kept sc : coder o -> (tmap int16 (fst (epr_tables o sc)), tmap int16 (snd (epr_tables o sc))) = epr_tables o sc.
Proof.
  intros (_ & _ & H). unfold epr_tables. destruct (H (tmap (o_exp o) sc)) as [H1 H2].
  rewrite (tmap_id int16 (fst _)) by (apply (Forall_imp _ _ _ int16_id); exact H1). rewrite (tmap_id int16 (snd _)) by (apply (Forall_imp _ _ _ int16_id); exact H2).
  now destruct (o_tables o _).
Qed.
Lemma decompress_dense w ls sc : coder o -> 1 <= rank w <= 2 -> shape ls = [] ->
  a_decompress alg (compressed_form w ls sc (shape w)) =
  (do q <- o_decode o (tb_of sc) (dims (tmap uint16 (shape_vector (shape w)))) (o_encode o (tb_of sc) (symbols w (tmap (o_exp o) ls))) ;;
   Ok (VF (transform_dense o (tmap inject_Z q) (tmap (o_half o) ls) true))).
Proof.
  intros Cd R E. assert (B : (prod (shape (tmap uint16 (shape_vector (shape w)))) <=? 2) = true).
  { apply Nat.leb_le. unfold tmap, shape_vector. cbn [shape]. unfold prod. cbn. unfold rank in R. lia. }
  unfold alg, compressed_form, tb_of. destruct fast.
  - cbn [algorithm fast_epr a_decompress fast_decompress compressed app string_of data bind]. unfold fast_decompress. rewrite B. reflexivity.
  - cbn [algorithm epr a_decompress epr_decompress compressed app string_of data bind]. unfold epr_decompress. rewrite B. rewrite tables_kept by exact Cd.
    cbn [bind string_of data]. change (shape (tmap (o_half o) ls)) with (shape ls). rewrite E, app_nil_r. reflexivity.
Qed.
Lemma decompress_conv r ks ls sc : coder o -> conv_shape ks ->
  a_decompress alg (compressed_form r ls sc ks) =
  (let d := dims (tmap uint16 (shape_vector ks)) in
   do q <- o_decode o (tb_of sc) (last2 d ++ shape ls) (o_encode o (tb_of sc) (symbols r (tmap (o_exp o) ls))) ;;
   Ok (VF (transform_conv o (tmap inject_Z q) d (tmap (o_half o) ls) true))).
Proof.
  intros Cd [L _]. assert (B : (prod (shape (tmap uint16 (shape_vector ks))) <=? 2) = false).
  { apply Nat.leb_gt. unfold tmap, shape_vector. cbn [shape]. unfold prod. cbn. lia. }
  unfold alg, compressed_form, tb_of. destruct fast.
  - cbn [algorithm fast_epr a_decompress fast_decompress compressed app string_of data bind]. unfold fast_decompress. rewrite B. reflexivity.
  - cbn [algorithm epr a_decompress epr_decompress compressed app string_of data bind]. unfold epr_decompress. rewrite B. rewrite tables_kept by exact Cd. reflexivity.
Qed.

Lemma symbols_int32 w ls : positive o -> suffix ls (shape w) -> (forall idx, valid (shape w) idx -> moderate (step_at o ls idx) (tget 0%Q w idx)) ->
  Forall int32 (data (symbols w (tmap (o_exp o) ls))).
Proof.
  intros P S M. apply Forall_forall. intros z I. destruct (In_split_nth _ _ 0%Z I) as (i & Hi & E).
  pose proof (symbols_wf w (tmap (o_exp o) ls)) as Wf. rewrite Wf, symbols_shape in Hi.
  assert (V : valid (shape w) (unravel (shape w) i)) by (now apply unravel_valid).
  assert (T : tget 0%Z (symbols w (tmap (o_exp o) ls)) (unravel (shape w) i) = z) by (unfold tget; rewrite symbols_shape, ravel_unravel by exact Hi; exact E).
  rewrite <- T, tget_symbols by assumption. apply moderate_int32; [now apply step_pos|auto].
Qed.
Lemma step_half ls idx w : suffix ls w -> valid w idx -> step_at o (tmap (o_half o) ls) idx = stored_step_at o ls idx.
Proof. intros S V. unfold step_at, stored_step_at. f_equal. change (rank (tmap (o_half o) ls)) with (rank ls). exact (tget_suffix (o_half o) ls w idx S V). Qed.

Lemma dense_round_trip w ls sc : positive o -> coder o -> 1 <= rank w <= 2 -> small (shape w) -> wf ls -> shape ls = [] ->
  (forall idx, valid (shape w) idx -> moderate (step_at o ls idx) (tget 0%Q w idx)) ->
  exists v c v', a_project alg (dense_weights fast w ls sc) = Ok (VF v, dense_weights fast w ls sc) /\
    a_compress alg (dense_weights fast w ls sc) = Ok c /\ a_decompress alg c = Ok (VF v') /\ shape v' = shape w /\ shape v = shape w /\
    (forall idx, valid (shape w) idx -> (tget 0 v' idx * step_at o ls idx == tget 0 v idx * stored_step_at o ls idx)%Q) /\
    (representable o ls -> v' = v).
Proof.
  intros P Cd R Sm W E M. pose proof (scalar_suffix ls (shape w) W E) as Sf.
  set (s := symbols w (tmap (o_exp o) ls)). exists (transform_dense o w ls false), (compressed_form w ls sc (shape w)), (transform_dense o (tmap inject_Z s) (tmap (o_half o) ls) true).
  split; [apply project_dense|]. split; [apply compress_dense|].
  assert (D : a_decompress alg (compressed_form w ls sc (shape w)) = Ok (VF (transform_dense o (tmap inject_Z s) (tmap (o_half o) ls) true))).
  { rewrite decompress_dense by assumption. rewrite dims_uint16 by assumption. destruct Cd as (Cd & _). fold s. specialize (Cd (tb_of sc) s (symbols_wf _ _) (symbols_int32 w ls P Sf M)).
    change (shape s) with (shape w) in Cd. rewrite Cd. reflexivity. }
  split; [exact D|]. split; [rewrite dense_shape; reflexivity|]. split; [apply dense_shape|]. split.
  - intros idx V. rewrite tget_dense by (auto using suffix_map). rewrite tget_dense by assumption. rewrite (tget_tmap _ 0%Z) by (first [exact (symbols_wf _ _) | exact V]). unfold s. rewrite tget_symbols by assumption.
    rewrite (step_half ls idx (shape w)) by assumption. ring.
  - intros Rp. rewrite (tmap_id _ ls Rp). unfold transform_dense. cbv zeta iota. fold s. reflexivity.
Qed.
Lemma conv_round_trip r ks ls sc : positive o -> coder o -> conv_shape ks -> small ks -> shape r = rdft_shape ks -> wf ls -> shape ls = skipn 2 (rdft_shape ks) ->
  (forall idx, valid (shape r) idx -> moderate (step_at o ls idx) (tget 0%Q r idx)) ->
  exists x c x', a_project alg (conv_weights fast r ks ls sc) = Ok (VF (o_irfft o (lead ks) x), conv_weights fast r ks ls sc) /\
    a_compress alg (conv_weights fast r ks ls sc) = Ok c /\ a_decompress alg c = Ok (VF (o_irfft o (lead ks) x')) /\ shape x = shape r /\ shape x' = shape r /\
    (forall idx, valid (shape r) idx -> (tget 0 x' idx * step_at o ls idx == tget 0 x idx * stored_step_at o ls idx)%Q) /\
    (representable o ls -> x' = x).
Proof.
  intros P Cd Ck Sm Sr W E M. assert (Sf : suffix ls (shape r)) by (apply conv_suffix; congruence).
  set (s := symbols r (tmap (o_exp o) ls)). exists (coefs o r ks ls false), (compressed_form r ls sc ks), (coefs o (tmap inject_Z s) ks (tmap (o_half o) ls) true).
  split; [rewrite <- transform_conv_eq; apply project_conv|]. split; [apply compress_conv|].
  assert (D : a_decompress alg (compressed_form r ls sc ks) = Ok (VF (o_irfft o (lead ks) (coefs o (tmap inject_Z s) ks (tmap (o_half o) ls) true)))).
  { rewrite decompress_conv by assumption. rewrite dims_uint16 by assumption. cbn zeta. destruct Cd as (Cd & _). fold s. specialize (Cd (tb_of sc) s (symbols_wf _ _) (symbols_int32 r ls P Sf M)).
    change (shape s) with (shape r) in Cd. destruct (rdft_skip ks Ck) as (a & b & E1 & E2). rewrite Sr, E1 in Cd. rewrite E2, E. cbn [app]. rewrite Cd. reflexivity. }
  split; [exact D|]. split; [apply coefs_shape|]. split; [rewrite coefs_shape; reflexivity|]. split.
  - intros idx V. rewrite tget_coefs by (auto using suffix_map). rewrite tget_coefs by assumption. rewrite (tget_tmap _ 0%Z) by (first [exact (symbols_wf _ _) | exact V]). unfold s. rewrite tget_symbols by assumption.
    rewrite (step_half ls idx (shape r)) by assumption. ring.
  - intros Rp. rewrite (tmap_id _ ls Rp). reflexivity.
Qed.

Lemma dense_changed w ls sc v c v' : positive o -> coder o -> one_to_one o -> 1 <= rank w <= 2 -> small (shape w) -> wf ls -> shape ls = [] ->
  (forall idx, valid (shape w) idx -> moderate (step_at o ls idx) (tget 0%Q w idx)) ->
  a_project alg (dense_weights fast w ls sc) = Ok (VF v, dense_weights fast w ls sc) -> a_compress alg (dense_weights fast w ls sc) = Ok c -> a_decompress alg c = Ok (VF v') ->
  ~ (o_half o (tget 0 ls []) == tget 0 ls [])%Q -> forall idx, valid (shape w) idx -> (tget 0 v' idx == tget 0 v idx)%Q <-> (tget 0 v idx == 0)%Q.
Proof.
  intros P Cd O R Sm W E M Hp Hc Hd Hne. destruct (dense_round_trip w ls sc P Cd R Sm W E M) as (v0 & c0 & v0' & E1 & E2 & E3 & S1 & S2 & H & _).
  rewrite E1 in Hp. injection Hp as <-. rewrite E2 in Hc. injection Hc as <-. rewrite E3 in Hd. injection Hd as <-.
  intros idx V. specialize (H idx V). pose proof (step_pos o ls idx P) as Ps. unfold stored_step_at, step_at in *.
  assert (K : skipn (List.length idx - rank ls) idx = []). { unfold rank. rewrite E. cbn [List.length]. rewrite Nat.sub_0_r. apply skipn_all. }
  rewrite K in *. set (x := tget 0%Q v0 idx) in *. set (x' := tget 0%Q v0' idx) in *. set (s := o_exp o (tget 0%Q ls [])) in *. set (s' := o_exp o (o_half o (tget 0%Q ls []))) in *.
  assert (Ns : ~ (s' == s)%Q) by (intro Q; apply Hne; apply O; exact Q). split; intros Q.
  - rewrite Q in H. assert (Z : (x * (s' - s) == 0)%Q) by (rewrite Qmult_comm; setoid_replace ((s' - s) * x)%Q with (x * s' - x * s)%Q by ring; rewrite <- H; ring).
    apply Qmult_integral in Z as [Z | Z]; [exact Z|]. exfalso. apply Ns. setoid_replace s' with (s + (s' - s))%Q by ring. rewrite Z. ring.
  - rewrite Q in *. assert (Z : (x' * s == 0)%Q) by (rewrite H; ring). apply Qmult_integral in Z as [Z | Z]; [exact Z|]. exfalso. rewrite Z in Ps. discriminate Ps.
Qed.
Lemma large_lost w ls sc c v' : coder o -> 1 <= rank w <= 2 -> shape ls = [] -> Exists (fun d => (65536 <= Z.of_nat d)%Z) (shape w) ->
  a_compress alg (dense_weights fast w ls sc) = Ok c -> a_decompress alg c = Ok (VF v') -> shape v' <> shape w.
Proof.
  intros Cd R E Big Hc. rewrite compress_dense in Hc. injection Hc as <-. rewrite decompress_dense by assumption. intros Hd S.
  destruct (o_decode o _ _ _) as [q|] eqn:D; [|discriminate Hd]. cbn [bind] in Hd. injection Hd as <-. rewrite dense_shape in S. destruct Cd as (_ & Cd & _). destruct (Cd _ _ _ _ D) as [Sq _].
  change (shape (tmap inject_Z q)) with (shape q) in S. rewrite Sq in S. revert S. now apply dims_uint16_big.
Qed.
End RoundTrip.
