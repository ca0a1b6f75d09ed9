(** The Hadamard quantizer, end to end. *)
From Coq Require Import Reals Lra Psatz.
From Verif Require Import Base M_Tensor L_Tensor M_Bitpack L_Bitpack M_Hadamard S_Hadamard L_Hadamard L_Kashin M_Encoder S_Encoder M_Composer S_Composer M_CommonEncoders S_CommonEncoders L_CommonEncoders L_CommonEncoders2.
From Coq Require Import Lra Psatz.
Open Scope R_scope.
Open Scope list_scope.

Lemma sumf_le n f g : (forall i, (i < n)%nat -> f i <= g i) -> sumf n f <= sumf n g.
Proof. induction n as [|n IH]; intros H; cbn [sumf]; [lra|]. pose proof (H n ltac:(lia)). assert (sumf n f <= sumf n g) by (apply IH; intros; apply H; lia). lra. Qed.
Lemma sumf_mono n m f : (forall i, 0 <= f i) -> (n <= m)%nat -> sumf n f <= sumf m f.
Proof. intros P. induction 1 as [|m _ IH]; [lra|]. cbn [sumf]. specialize (P m). lra. Qed.
Lemma sumf_const n c : sumf n (fun _ => c) = INR n * c.
Proof. induction n as [|n IH]; [cbn; lra|]. cbn [sumf]. rewrite IH, S_INR. lra. Qed.
Lemma sumR_combine (x y : list R) (f : R * R -> R) n : List.length x = n -> List.length y = n -> sumR (map f (combine x y)) = sumf n (fun i => f (nth i x 0, nth i y 0)).
Proof.
  intros Lx Ly. rewrite sumR_sumf. rewrite map_length, combine_length, Lx, Ly, Nat.min_id. apply sumf_ext. intros i Hi.
  rewrite (nth_indep _ 0 (f (0, 0))) by (rewrite map_length, combine_length, Lx, Ly, Nat.min_id; lia). rewrite map_nth. rewrite combine_nth by congruence. reflexivity.
Qed.
Lemma Rabs_le_inv a b : Rabs a <= b -> - b <= a <= b.
Proof. intros H. split; [|eapply Rle_trans; [apply Rle_abs|exact H]]. pose proof (Rle_abs (- a)) as P. rewrite Rabs_Ropp in P. lra. Qed.
Lemma INR_pow2 k : INR (2 ^ k) = 2 ^ k.
Proof. rewrite pow_INR. reflexivity. Qed.

(** Perturbing every rotated coordinate by at most [d] moves the decoded vector by at most sqrt(pd) * d. *)
Lemma had_perturb u v r r' k d : (forall i, (i < List.length v)%nat -> u i <> 1/2) -> (List.length v <= 2 ^ k)%nat ->
  fwht (pad_right (2 ^ k) (vmul v (random_signs (List.length v) u))) = Ok r -> List.length r' = (2 ^ k)%nat -> 0 <= d ->
  (forall i, (i < 2 ^ k)%nat -> Rabs (nth i r' 0 - nth i r 0) <= d) ->
  exists y, decrow u (List.length v) r' = Ok y /\ List.length y = List.length v /\ dist2 y v <= sqrt (INR (2 ^ k)) * d.
Proof.
  intros U Ln E Lr' D0 Dd. set (n := List.length v) in *.
  assert (Lr : List.length r = (2 ^ k)%nat).
  { rewrite (fwht_len _ _ E). apply pad_len. unfold vmul. rewrite vmap2_len by (now rewrite signs_len). exact Ln. }
  pose proof (decrow_forward u n (2 ^ k) v r U eq_refl Ln E) as Dv.
  destruct (decf_spec u n k r Lr Ln) as (E1 & L1 & N1). rewrite Dv in E1. injection E1 as E1. rewrite <- E1 in N1, L1. clear E1.
  destruct (decf_spec u n k r' Lr' Ln) as (E2 & L2 & N2). exists (decf u n r'). split; [exact E2|]. split; [exact L2|].
  set (y := decf u n r') in *. set (e := fun i => nth i r' 0 - nth i r 0).
  unfold dist2. rewrite (sumR_combine y v _ n L2 eq_refl). cbn [fst snd].
  assert (P2 : 0 < 2 ^ k) by apply pow2_pos. pose proof (sqrt_pow2_pos k) as SP. assert (SS : sqrt (2 ^ k) * sqrt (2 ^ k) = 2 ^ k) by (apply sqrt_sqrt; lra).
  assert (A : sumf n (fun i => (nth i y 0 - nth i v 0) * (nth i y 0 - nth i v 0)) = sumf n (fun i => / 2 ^ k * (had k e i * had k e i))).
  { apply sumf_ext. intros i Hi. rewrite N1, N2 by lia. unfold e. rewrite had_sub by lia.
    set (h' := had k (fun j => nth j r' 0) i). set (h := had k (fun j => nth j r 0) i).
    replace (h' / sqrt (2 ^ k) * signR (u i - 1 / 2) - h / sqrt (2 ^ k) * signR (u i - 1 / 2)) with ((h' - h) * (/ sqrt (2 ^ k) * signR (u i - 1/2))) by (field; lra).
    assert (Q : (/ sqrt (2 ^ k) * signR (u i - 1/2)) * (/ sqrt (2 ^ k) * signR (u i - 1/2)) = / 2 ^ k).
    { replace (_ * _) with ((/ sqrt (2 ^ k) * / sqrt (2 ^ k)) * (signR (u i - 1/2) * signR (u i - 1/2))) by ring.
      rewrite signR_sq by (specialize (U i Hi); lra). rewrite Rmult_1_r. rewrite <- Rinv_mult. now rewrite SS. }
    replace ((h' - h) * _ * _) with (((h' - h) * (h' - h)) * ((/ sqrt (2 ^ k) * signR (u i - 1/2)) * (/ sqrt (2 ^ k) * signR (u i - 1/2)))) by ring. rewrite Q. ring. }
  rewrite A. rewrite sumf_scale.
  assert (B : sumf n (fun i => had k e i * had k e i) <= 2 ^ k * sumf (2 ^ k) (fun i => e i * e i)).
  { rewrite <- had_norm. apply sumf_mono; [intros; nra|exact Ln]. }
  assert (C : sumf (2 ^ k) (fun i => e i * e i) <= INR (2 ^ k) * (d * d)).
  { rewrite <- sumf_const. apply sumf_le. intros i Hi. specialize (Dd i Hi). fold (e i) in Dd. apply Rabs_le_inv in Dd. nra. }
  rewrite <- (sqrt_square d D0) at 1. rewrite <- sqrt_mult; [|apply pos_INR|nra]. apply sqrt_le_1_alt.
  assert (0 < / 2 ^ k) by now apply Rinv_0_lt_compat.
  apply Rle_trans with (/ 2 ^ k * (2 ^ k * (INR (2 ^ k) * (d * d)))).
  - apply Rmult_le_compat_l; [lra|]. eapply Rle_trans; [exact B|]. apply Rmult_le_compat_l; [lra|exact C].
  - rewrite <- Rmult_assoc, Rinv_l by lra. lra.
Qed.
Lemma coord_le_norm (x : list R) a : In a x -> Rabs a <= norm2 x.
Proof.
  intros I. unfold norm2. rewrite <- sqrt_Rsqr_abs. apply sqrt_le_1_alt. unfold Rsqr.
  assert (P : forall z, 0 <= sumR (map (fun a => a * a) z)) by (induction z; cbn [map sumR]; [lra|nra]).
  induction x as [|b x IH]; [destruct I|]. cbn [map sumR]. destruct I as [->|I]; [specialize (P x); lra|]. specialize (IH I). nra.
Qed.
Theorem hadamard_main bits static e s x : hadamard_quantization bits static = Ok e -> fits s e -> draws_ok s ->
  (forall u, draws_at ["flattened_values"%string] s = Some u -> forall i, (i < prod (shape x))%nat -> u i <> 1/2) -> wf x -> data x <> [] ->
  exists sent y, round_trip e s x sent y /\ shape y = shape x /\ wf y /\
  let pd := (2 ^ Nat.log2_up (prod (shape x)))%nat in
  dist2 (data y) (data x) <= sqrt (INR pd) * (2 * norm2 (data x)) / IZR (2 ^ Z.of_nat bits - 1).
Proof.
  intros E Fi Dr U W N. destruct (hadamard_eq _ _ _ E) as (B & ->). destruct (fits_child Fi) as (sf & Df & Ff). destruct (fits_child Ff) as (sh & Dh & Fh).
  pose proof (draws_child _ _ _ Dr Df) as Drf. pose proof (draws_child _ _ _ Drf Dh) as Drh.
  unfold draws_at in U. rewrite Df in U. specialize (U (troot sf) eq_refl). unfold wf in W. set (v := data x) in *. rewrite <- W in *. set (n := List.length v) in *.
  assert (n0 : (0 < n)%nat) by (unfold n; destruct v; [congruence|cbn; lia]).
  set (k := Nat.log2_up n) in *. pose proof (le_log2_up n n0) as Lk. fold k in Lk.
  assert (Lp : List.length (pad_right (2 ^ k) (vmul v (random_signs n (troot sf)))) = (2 ^ k)%nat).
  { apply pad_len. unfold vmul. rewrite vmap2_len by (now rewrite signs_len). exact Lk. }
  destruct (fwht_spec k _ Lp) as (r & Er & Lr & _).
  assert (pd0 : (0 < 2 ^ k)%nat) by (pose proof (Nat.pow_nonzero 2 k); lia).
  set (xr := mkT [1%nat; (2 ^ k)%nat] r : tensor R).
  destruct (packed_rt bits static true None sh xr B Logic.I Fh Drh) as (ep & dp & zs & lo & hi & shs & G & En & De & ER & Lz & Rz & Bd).
  { unfold wf. cbn [data shape xr]. rewrite Lr. unfold prod. cbn [fold_right]. lia. }
  { cbn [data xr]. intros Z. rewrite Z in Lr. cbn in Lr. lia. }
  cbn zeta in *. cbn [uq_extra data xr shape leaf_dict map] in *. unfold leaf_dict in *. cbn [map fst snd] in *. set (q := map (fun z => IZR z / IZR (top bits) * (hi - lo) + lo) zs) in *.
  assert (Lq : List.length q = (2 ^ k)%nat) by (unfold q; rewrite map_length, Lz; exact Lr).
  cbn [uq_range] in ER. assert (rN : r <> []) by (intros Z; rewrite Z in Lr; cbn in Lr; lia).
  assert (NR : norm2 r = norm2 v). { rewrite (fwht_norm _ _ Er), norm_pad. apply norm_signs; [now rewrite signs_len|]. intros i Hi. apply signs_sq; [auto|exact Hi]. }
  pose proof (min_max_range r rN) as (I1 & I2 & Rg). pose proof (coord_le_norm r _ I1) as Q1. pose proof (coord_le_norm r _ I2) as Q2. rewrite NR in Q1, Q2.
  assert (ER1 : minR r = lo) by congruence. assert (ER2 : maxR r = hi) by congruence. rewrite ER1 in *. rewrite ER2 in *. clear ER.
  pose proof (top_pos bits ltac:(lia)) as TP. set (m := IZR (top bits)) in *. assert (LH : lo <= hi) by (destruct (Rg lo I1); lra).
  assert (S0 : 0 <= (hi - lo) / m) by (apply Rmult_le_pos; [lra|left; apply Rinv_0_lt_compat; lra]).
  assert (DD : forall i, (i < 2 ^ k)%nat -> Rabs (nth i q 0 - nth i r 0) <= (hi - lo) / m).
  { intros i Hi. destruct (Bd i ltac:(lia)) as (A1 & A2 & _ & A4). cbn [uq_pre] in *. destruct (Rlt_dec lo hi) as [L|L]; [left; auto|].
    rewrite A4 by lra. replace (_ - _) with 0 by lra. rewrite Rabs_R0. exact S0. }
  destruct (had_perturb (troot sf) v r q k _ U Lk Er Lq S0 DD) as (y & Ey & Ly & Dy).
  eexists. exists (mkT (shape x) y). split; [|split; [reflexivity|split; [unfold wf; cbn [data shape]; rewrite <- W; exact Ly|]]].
  - do 3 eexists. split; [apply (params_chain _ _ _ _ _ _ _ Df (params_chain _ _ _ _ _ _ _ Dh G))|]. unfold packed in *. split.
    + rewrite (encode_chain ten_shape flatten_stage "flattened_values" _ (F x) _ _ (F (mkT [n] v)) []) by reflexivity.
      rewrite (encode_chain ten_shape hadamard_stage "hadamard_values" _ (F (mkT [n] v)) _ ep (F xr) []).
      2:{ cbn [s_encode hadamard_stage float bind to_hinput shape data s_params fst p_draws]. unfold hadamard_encode. cbn [expand bind]. fold n. unfold hadamard_pad_dim.
          destruct (n =? 0)%nat eqn:Zn; [apply Nat.eqb_eq in Zn; lia|]. cbn [bind mapM]. fold k. rewrite Er. cbn [bind]. cbn [List.length List.concat]. rewrite app_nil_r, Lr. reflexivity. }
      unfold cencoder, cstage in *. rewrite En. cbn [bind map]. reflexivity.
    + pose proof (decode_chain flatten_stage "flattened_values" (Enc hadamard_stage [("hadamard_values"%string, packed bits static true None)])) as DC.
      pose proof (decode_chain hadamard_stage "hadamard_values" (packed bits static true None)) as DC2. unfold packed in DC, DC2. unfold cencoder, cstage in *.
      match goal with |- decode _ (ED [(_, ED ?ek)]) (full (Node ?p [(_, ?pk)])) (full (Node ?sh [(_, ?shk)])) = _ => specialize (DC ek [] p pk sh shk (fun H => H)) end. cbn [map] in DC. refine (eq_trans DC _). clear DC.
      match goal with |- bind (decode _ (ED [(_, ED ?ek)]) (full (Node ?p [(_, ?pk)])) (full (Node ?sh [(_, ?shk)]))) _ = _ => specialize (DC2 ek [] p pk sh shk (fun H => H)) end. cbn [map] in DC2.
      assert (DH : s_decode hadamard_stage [("hadamard_values"%string, F (mkT [1%nat; (2 ^ k)%nat] q))] (snd (s_params hadamard_stage (troot sf))) None (Some [n]) = Ok (F (mkT [n] y))).
      { cbn [s_decode hadamard_stage]. unfold dindex. cbn [dget String.eqb Ascii.eqb Bool.eqb bind float need shape data s_params snd p_draws List.last List.length].
        assert (chunks (2 ^ k) q = [q]) as ->. { pose proof (chunks_concat_id (2 ^ k) [q] pd0 (Forall_cons q Lq (Forall_nil _))) as CC. cbn [List.concat] in CC. now rewrite app_nil_r in CC. }
        unfold hadamard_decode. cbn [fst]. change (fun r0 : list R => bind (fwht r0) _) with (decrow (troot sf) n). cbn [mapM]. fold n in Ey. rewrite Ey. cbn [bind collapse snd Nat.eqb of_hinput]. fold n in Ly. rewrite Ly. reflexivity. }
      refine (eq_trans (f_equal (fun r => bind r _) (eq_trans DC2 (eq_trans (f_equal (fun r => bind r _) De) DH))) _).
      cbn [bind s_decode flatten_stage s_needs_shape ten_shape]. unfold dindex. cbn [dget String.eqb Ascii.eqb Bool.eqb bind float need]. unfold reshape. cbn [data]. fold n in Ly. rewrite Ly. rewrite <- W. rewrite Nat.eqb_refl. reflexivity.
  - cbn zeta. cbn [data]. eapply Rle_trans; [exact Dy|]. unfold top in m. fold m. unfold Rdiv. rewrite Rmult_assoc. apply Rmult_le_compat_l; [apply sqrt_pos|].
    apply Rmult_le_compat_r; [left; apply Rinv_0_lt_compat; lra|]. apply Rabs_le_inv in Q1. apply Rabs_le_inv in Q2. lra.
Qed.
