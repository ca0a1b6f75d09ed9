(** Uniform quantization in float32: real-number level. *)
From Coq Require Import Reals Psatz Lia Qreals RMicromega.
From Flocq Require Import Core BinarySingleNaN Relative Plus_error.
From Verif Require Import Base M_Float32 S_Float32 L_Float32 L_Float32b L_FloatSchedule M_FloatQuant.
From Coq Require Import Lra.
Open Scope R_scope.

(** ** Errors *)
Lemma uro : u_ro radix2 24 = u. Proof. unfold u_ro, u. cbn. lra. Qed.
Lemma sum_rel x y : fmt x -> fmt y -> exists d, Rabs d <= u /\ rnd (x + y) = (x + y) * (1 + d).
Proof.
  intros X Y. assert (P24 : Prec_gt_0 24) by reflexivity. destruct (FLT_plus_error_N_ex radix2 (-149) 24 (fun n => negb (Z.even n)) x y X Y) as (d & D & E). rewrite uro in D.
  exists d. split; [|exact E]. apply Rle_trans with (1 := D). assert (0 < u) by (unfold u; lra). apply Rmult_le_reg_r with (1 + u); [lra|]. unfold Rdiv. rewrite Rmult_assoc, Rinv_l by lra. nra.
Qed.
Lemma diff_rel x y : fmt x -> fmt y -> exists d, Rabs d <= u /\ rnd (x - y) = (x - y) * (1 + d).
Proof. intros X Y. apply (sum_rel x (- y)); auto. now apply generic_format_opp. Qed.
Definition tn : R := bpow radix2 (-150).
Lemma tn_pos : 0 < tn. Proof. apply bpow_gt_0. Qed.
Lemma any_err x : Rabs (rnd x - x) <= u * Rabs x + tn.
Proof.
  pose proof tn_pos as T. assert (U : 0 < u) by (unfold u; lra). pose proof (Rabs_pos x).
  destruct (Rle_or_lt (bpow radix2 (-126)) (Rabs x)) as [H1|H1].
  - pose proof (relative_error_N_FLT radix2 (-149) 24 ltac:(lia) (fun n => negb (Z.even n)) x H1) as E. change (round radix2 (FLT_exp (-149) 24) (Znearest (fun n => negb (Z.even n))) x) with (rnd x) in E.
    replace (/ 2 * bpow radix2 (- (24) + 1)) with u in E by (unfold u; cbn; lra). lra.
  - eapply Rle_trans; [apply error_le_half_ulp; typeclasses eauto|]. assert (UB : ulp radix2 fexp x = bpow radix2 (-149)).
    { destruct (Req_dec x 0) as [->|Z]; [apply ulp32_0|]. rewrite ulp_neq_0 by auto. f_equal. unfold cexp. assert (M : (mag radix2 x <= -126)%Z) by (apply mag_le_bpow; auto). unfold SpecFloat.fexp, SpecFloat.emin. lia. }
    rewrite UB. replace (bpow radix2 (-149)) with (2 * tn) by (unfold tn; change (-149)%Z with (1 + -150)%Z; rewrite bpow_plus; reflexivity). nra.
Qed.

Lemma pb x y a b : - a <= x <= a -> 0 <= y <= b -> 0 <= a -> - (a * b) <= x * y <= a * b.
Proof. intros X Y A. assert (a * y <= a * b) by (apply Rmult_le_compat_l; lra). assert (- a * y <= x * y <= a * y) by (split; apply Rmult_le_compat_r; lra). lra. Qed.
Lemma pp x y a b : 0 <= x <= a -> 0 <= y <= b -> 0 <= x * y <= a * b.
Proof. intros X Y. split; [apply Rmult_le_pos; lra|apply Rmult_le_compat; lra]. Qed.
Lemma small k m : (0 <= k <= m)%Z -> (1 <= m <= 65535)%Z -> (Z.abs k <= 2 ^ 24)%Z /\ (Z.abs (k + 1) <= 2 ^ 24)%Z /\ (Z.abs k <= 4294967296)%Z /\ (Z.abs (k + 1) <= 4294967296)%Z.
Proof. lia. Qed.
Lemma up_range k m : (0 <= k)%Z -> (k < m)%Z -> (0 <= k + 1 <= m)%Z. Proof. lia. Qed.
(** ** One value *)
Section Top.
  Variable bits : nat.
  Hypothesis Bits : (1 <= bits <= 16)%nat.
  Definition mz : Z := (2 ^ Z.of_nat bits - 1)%Z.
  Let M := IZR mz.
  Lemma mz_range : (1 <= mz <= 65535)%Z.
  Proof. unfold mz. assert (2 ^ 1 <= 2 ^ Z.of_nat bits)%Z by (apply Z.pow_le_mono_r; lia). assert (2 ^ Z.of_nat bits <= 2 ^ 16)%Z by (apply Z.pow_le_mono_r; lia). lia. Qed.
  Lemma M_range : (1 <= M <= 65535)%R.
  Proof. pose proof mz_range. unfold M. split; apply IZR_le; lia. Qed.
  Lemma M_val : val (f_max_value bits) = M /\ fin (f_max_value bits) = true.
  Proof. pose proof mz_range. apply of_int_exact. fold mz. lia. Qed.
  Lemma M_fmt : fmt M. Proof. apply int_fmt. pose proof mz_range. lia. Qed.
End Top.
Section One.
  Variables (lo hi v : f32).
  Hypothesis Fl : fin lo = true.
  Hypothesis Fh : fin hi = true.
  Hypothesis Fv : fin v = true.
  Hypothesis Bl : Rabs (val lo) <= bpow radix2 126.
  Hypothesis Bh : Rabs (val hi) <= bpow radix2 126.
  Hypothesis LV : val lo <= val v.
  Hypothesis VH : val v <= val hi.
  Variable bits : nat.
  Hypothesis Bits : (1 <= bits <= 16)%nat.
  Notation mz := (mz bits).
  Let M := IZR mz.
  Let mz_range := mz_range bits Bits.
  Let M_range : 1 <= M <= 65535 := M_range bits Bits.
  Let M_val : val (f_max_value bits) = M /\ fin (f_max_value bits) = true := M_val bits Bits.
  Let M_fmt : fmt M := M_fmt bits Bits.
  Let L := val lo.
  Let H := val hi.
  Let V := val v.
  Let r := rnd (H - L).
  Let y := rnd (V - L).
  Lemma two126 : bpow radix2 127 = 2 * bpow radix2 126.
  Proof. change 127%Z with (1 + 126)%Z. rewrite bpow_plus. reflexivity. Qed.
  Lemma y_r : 0 <= y <= r.
  Proof. split; [apply rnd_ge0; unfold V, L; lra|]. apply rnd_le. unfold V, H. lra. Qed.
  Lemma sub_ok : val (f_sub hi lo) = r /\ fin (f_sub hi lo) = true /\ val (f_sub v lo) = y /\ fin (f_sub v lo) = true.
  Proof.
    pose proof two126 as T. apply Rabs_le_inv in Bl, Bh. destruct (sub_val hi lo Fh Fl) as [A1 A2]. { apply Rabs_le. lra. } destruct (sub_val v lo Fv Fl) as [B1 B2]. { apply Rabs_le. lra. } auto.
  Qed.
  Lemma r_zero : r = 0 <-> H = L.
  Proof.
    split; intros E.
    - destruct (diff_rel H L (val_fmt hi) (val_fmt lo)) as (d & D & X). fold r in X. rewrite E in X. apply Rabs_le_inv in D. assert (u < 1) by (unfold u; lra). symmetry in X. apply Rmult_integral in X as [X|X]; lra.
    - unfold r. rewrite E, Rminus_eq_0. apply rnd_0.
  Qed.
  Definition quot : R := if Req_EM_T r 0 then 0 else rnd (y / r).
  Definition scaled : R := rnd (quot * M).
  Lemma quot_range : 0 <= quot <= 1.
  Proof.
    unfold quot. pose proof y_r as Y. destruct (Req_EM_T r 0) as [E|E]; [lra|]. split.
    - apply rnd_ge0. apply Rmult_le_pos; [lra|]. left. apply Rinv_0_lt_compat. lra.
    - apply Rle_trans with (rnd 1); [apply rnd_le|rewrite rnd_id by apply one_fmt; lra]. apply Rmult_le_reg_r with r; [lra|]. unfold Rdiv. rewrite Rmult_assoc, Rinv_l by lra. lra.
  Qed.
  Lemma scaled_range : 0 <= scaled <= M.
  Proof.
    pose proof quot_range. pose proof M_range. split; [apply rnd_ge0; nra|]. apply Rle_trans with (rnd M); [apply rnd_le; nra|]. rewrite rnd_id by apply M_fmt. lra.
  Qed.
  Lemma div_no_nan_ok : val (f_div_no_nan (f_sub v lo) (f_sub hi lo)) = quot /\ fin (f_div_no_nan (f_sub v lo) (f_sub hi lo)) = true.
  Proof.
    destruct sub_ok as (A1 & A2 & B1 & B2). destruct (of_int_exact 0) as [O1 O2]; [cbn; lia|]. pose proof bpow127. pose proof quot_range as Q. unfold f_div_no_nan. rewrite Beqb_correct by auto. rewrite A1, O1. unfold quot in *.
    destruct (Req_EM_T r 0) as [E|E].
    - rewrite Req_bool_true by auto. auto.
    - rewrite Req_bool_false by auto. destruct (div_val (f_sub v lo) (f_sub hi lo) B2) as [C1 C2]. { rewrite A1. auto. } { rewrite A1, B1. pose proof y_r. assert (0 < r) by lra. 
        assert (0 <= y / r <= 1). { split; [apply Rmult_le_pos; [lra|left; now apply Rinv_0_lt_compat]|]. apply Rmult_le_reg_r with r; [lra|]. unfold Rdiv. rewrite Rmult_assoc, Rinv_l by lra. lra. }
        rewrite Rabs_pos_eq; lra. }
      rewrite A1, B1 in C1. auto.
  Qed.
  Lemma scale_ok : val (uqf_scale bits lo hi v) = scaled /\ fin (uqf_scale bits lo hi v) = true.
  Proof.
    destruct div_no_nan_ok as [A1 A2]. destruct M_val as [B1 B2]. pose proof bpow127. pose proof quot_range. pose proof M_range. unfold uqf_scale.
    destruct (mul_val _ _ A2 B2) as [C1 C2]. { rewrite A1, B1. rewrite Rabs_pos_eq; nra. } rewrite A1, B1 in C1. auto.
  Qed.
  (** The code is an integer next to the scaled value. *)
  Lemma near_range (z : R) (m : Z) : 0 <= z <= IZR m -> (0 <= ZnearestE z <= m)%Z.
  Proof. intros Z. split; [rewrite <- (near_int 0)|rewrite <- (near_int m)]; apply near_le; apply Z. Qed.
  Lemma code_ok st draw : fin draw = true -> 0 <= val draw -> exists k, (0 <= k <= mz)%Z /\ val (quantize_one_f st draw (uqf_scale bits lo hi v)) = IZR k /\
    fin (quantize_one_f st draw (uqf_scale bits lo hi v)) = true /\ (if st then Rabs (IZR k - scaled) < 1 else Rabs (IZR k - scaled) <= / 2) /\ (st = false -> k = ZnearestE scaled).
  Proof.
    intros Fd D. destruct scale_ok as [A1 A2]. pose proof scaled_range as Sr. pose proof mz_range as Mz. set (x := uqf_scale bits lo hi v) in *. destruct st; cbn [quantize_one_f].
    - unfold quantize_one_f. destruct (floor_val x) as [B1 B2]. rewrite A1 in B1. rewrite A2 in B2. pose proof (Zfloor_lb scaled) as Lb. pose proof (Zfloor_ub scaled) as Ub.
      assert (K : (0 <= Zfloor scaled <= mz)%Z). { split; [rewrite <- (Zfloor_IZR 0)|rewrite <- (Zfloor_IZR mz)]; apply Zfloor_le; apply Sr. }
      pose proof bpow127. destruct (sub_val x (f_floor x) A2 B2) as [C1 C2]. { rewrite A1, B1. apply Rabs_le. lra. } rewrite A1, B1 in C1.
      destruct (of_int_exact 0 ltac:(discriminate)) as [O1 O2]. destruct (of_int_exact 1 ltac:(discriminate)) as [P1 P2].
      rewrite (Bltb_correct _ _ draw _ Fd C2), C1. destruct (small _ _ K Mz) as (K1 & K2 & K3 & K4). generalize dependent (Zfloor scaled). intros k B1 Lb Ub K C1 K1 K2 K3 K4. destruct (Rlt_bool_spec (val draw) (rnd (scaled - IZR k))) as [R|R].
      + assert (NE : IZR k < scaled). { destruct (Req_dec scaled (IZR k)) as [E|E]; [|lra]. rewrite E, Rminus_eq_0, rnd_0 in R. lra. }
        assert (KL : (k < mz)%Z). { apply lt_IZR. fold M. lra. }
        destruct (add_val (f_floor x) (f_of_int 1) B2 P2) as [E1 E2]. { rewrite B1, P1, <- plus_IZR, <- abs_IZR. apply Rle_trans with 4294967296; [now apply IZR_le|lra]. }
        exists (k + 1)%Z. split; [apply up_range; [apply K|exact KL]|]. rewrite E1, B1, P1, <- plus_IZR, rnd_int by exact K2. repeat split; auto; [apply Rabs_def1; rewrite plus_IZR; lra|discriminate].
      + destruct (add_val (f_floor x) (f_of_int 0) B2 O2) as [E1 E2]. { rewrite B1, O1, Rplus_0_r, <- abs_IZR. apply Rle_trans with 4294967296; [now apply IZR_le|lra]. }
        exists k. split; [exact K|]. rewrite E1, B1, O1, Rplus_0_r, rnd_int by exact K1. repeat split; auto; [apply Rabs_def1; lra|discriminate].
    - unfold quantize_one_f. destruct (round_val x) as [B1 B2]. rewrite A1 in B1. exists (ZnearestE scaled). split; [now apply near_range|]. rewrite B1, B2, A2. repeat split; auto. rewrite Rabs_minus_sym. apply Znearest_half.
  Qed.

  (** Decoding it. *)
  Lemma decode_ok q k : fin q = true -> val q = IZR k -> (0 <= k <= mz)%Z ->
    let d := f_add (f_mul (f_div q (f_max_value bits)) (f_sub hi lo)) lo in
    fin d = true /\ val d = rnd (rnd (rnd (IZR k / M) * r) + L).
  Proof.
    intros Fq Vq K d. destruct sub_ok as (A1 & A2 & _). destruct M_val as [M1 M2]. pose proof M_range as Mr. pose proof bpow127 as P127. pose proof two126 as T.
    assert (KM : 0 <= IZR k / M <= 1). { assert (0 <= IZR k <= M) by (split; apply IZR_le; lia). split; [apply Rmult_le_pos; [lra|left; apply Rinv_0_lt_compat; lra]|]. apply Rmult_le_reg_r with M; [lra|]. unfold Rdiv. rewrite Rmult_assoc, Rinv_l by lra. lra. }
    destruct (div_val q (f_max_value bits) Fq) as [C1 C2]. { rewrite M1. lra. } { rewrite Vq, M1, Rabs_pos_eq; lra. } rewrite Vq, M1 in C1.
    assert (Q1 : 0 <= rnd (IZR k / M) <= 1). { split; [apply rnd_ge0; lra|]. apply Rle_trans with (rnd 1); [apply rnd_le; lra|rewrite rnd_id by apply one_fmt; lra]. }
    assert (Rb : 0 <= r <= bpow radix2 127). { split; [pose proof y_r; lra|]. apply Rle_trans with (rnd (bpow radix2 127)); [|rewrite rnd_id by apply big_fmt; lra]. apply rnd_le. apply Rabs_le_inv in Bl, Bh. unfold H, L. lra. }
    destruct (mul_val _ (f_sub hi lo) C2 A2) as [D1 D2]. { rewrite C1, A1, Rabs_pos_eq; nra. } rewrite C1, A1 in D1.
    assert (Pr : 0 <= rnd (rnd (IZR k / M) * r) <= r). { split; [apply rnd_ge0; nra|]. apply Rle_trans with (rnd r); [apply rnd_le; nra|]. rewrite rnd_id by apply rnd_fmt. lra. }
    assert (Top : Rabs (rnd (rnd (IZR k / M) * r) + L) <= bpow radix2 127).
    { apply Rabs_le_inv in Bl, Bh. fold L in Bl. fold H in Bh. apply Rabs_le. split; [lra|]. 
      destruct (diff_rel H L (val_fmt hi) (val_fmt lo)) as (e & E & X). fold r in X. apply Rabs_le_inv in E.
      destruct (Rle_or_lt L 0) as [N|N]; [lra|]. assert (r <= bpow radix2 126); [|lra].
      apply Rle_trans with (rnd (bpow radix2 126)); [apply rnd_le; lra|]. rewrite rnd_id by (apply pow_fmt; lia). lra. }
    destruct (add_val _ lo D2 Fl) as [E1 E2]. { rewrite D1. exact Top. } rewrite D1 in E1. split; auto.
  Qed.
  Lemma decode_err (s : R) k : (0 <= k <= mz)%Z -> 0 <= s <= 1 -> Rabs (IZR k - scaled) <= s ->
    Rabs (rnd (rnd (rnd (IZR k / M) * r) + L) - V) <= s * ((H - L) / M) + 12 * u * (Rabs L + Rabs H) + 4 * tn.
  Proof.
    intros K S1 E. pose proof M_range as Mr. pose proof tn_pos as T. assert (U : 0 < u < / 1000000) by (unfold u; lra). assert (T1 : tn <= u) by (replace u with (bpow radix2 (-24)) by (unfold u; cbn; lra); apply bpow_le; lia).
    pose proof (Rabs_pos L) as AL. pose proof (Rabs_pos H) as AH. assert (LV' : L <= V) by auto. assert (VH' : V <= H) by auto.
    set (R := H - L). assert (R0 : 0 <= R) by (unfold R; lra). assert (RA : R <= Rabs L + Rabs H). { unfold R. pose proof (Rle_abs H). pose proof (Rle_abs (- L)). rewrite Rabs_Ropp in H1. lra. }
    set (w := V - L). assert (W : 0 <= w <= R) by (unfold w, R; lra).
    destruct (diff_rel H L (val_fmt hi) (val_fmt lo)) as (d1 & D1 & X1). fold r R in X1. destruct (diff_rel V L (val_fmt v) (val_fmt lo)) as (d2 & D2 & X2). fold y w in X2. apply Rabs_le_inv in D1, D2. pose proof y_r as Y1. unfold scaled, quot in E.
    set (a := rnd (IZR k / M)). set (b := rnd (a * r)).
    assert (KM : 0 <= IZR k / M <= 1). { assert (0 <= IZR k <= M) by (split; apply IZR_le; lia). split; [apply Rmult_le_pos; [lra|left; apply Rinv_0_lt_compat; lra]|]. apply Rmult_le_reg_r with M; [lra|]. unfold Rdiv. rewrite Rmult_assoc, Rinv_l by lra. lra. }
    clear M_range M_val M_fmt. clearbody r y M. clearbody L H V.
    assert (Ea : Rabs (a - IZR k / M) <= u / 2) by (apply abs_err; rewrite Rabs_pos_eq; lra). apply Rabs_le_inv in Ea.
    assert (A1 : 0 <= a <= 1). { split; [apply rnd_ge0; lra|]. apply Rle_trans with (rnd 1); [apply rnd_le; lra|rewrite rnd_id by apply one_fmt; lra]. }
    assert (R1 : 0 <= r <= 1.001 * R) by (rewrite X1; split; nra).
    pose proof (any_err (a * r)) as Eb. fold b in Eb. pose proof (pp a r 1 (1.001 * R) A1 R1) as AR. rewrite (Rabs_pos_eq (a * r)) in Eb by lra. apply Rabs_le_inv in Eb.
    (* quotient *)
    assert (Eq : Rabs (IZR k / M * R - w) <= s * (R / M) + 3.6 * u * R + tn * (R / M)).
    { destruct (Req_dec R 0) as [Z|Z].
      - assert (w = 0) by lra. rewrite Z, H0. unfold Rdiv. rewrite !Rmult_0_r, !Rmult_0_l, Rminus_eq_0, Rabs_R0. lra.
      - assert (Rp : 0 < R) by lra. assert (rp : 0 < r) by (rewrite X1; nra). destruct (Req_EM_T r 0) as [Y|_]; [lra|].
        set (z := rnd (y / r)) in *.
        assert (YR : 0 <= y / r <= 1). { split; [apply Rmult_le_pos; [lra|left; now apply Rinv_0_lt_compat]|]. apply Rmult_le_reg_r with r; [lra|]. unfold Rdiv. rewrite Rmult_assoc, Rinv_l by lra. lra. }
        assert (Ez : Rabs (z - y / r) <= u / 2) by (apply abs_err; rewrite Rabs_pos_eq; lra). apply Rabs_le_inv in Ez.
        assert (Z1 : 0 <= z <= 1). { split; [apply rnd_ge0; lra|]. apply Rle_trans with (rnd 1); [apply rnd_le; lra|rewrite rnd_id by apply one_fmt; lra]. }
        assert (WR : 0 <= w / R <= 1). { split; [apply Rmult_le_pos; [lra|left; now apply Rinv_0_lt_compat]|]. apply Rmult_le_reg_r with R; [lra|]. unfold Rdiv. rewrite Rmult_assoc, Rinv_l by lra. lra. }
        assert (Ey : - (2.01 * u) <= y / r - w / R <= 2.01 * u).
        { assert (X : y / r - w / R = w / R * ((d2 - d1) * / (1 + d1))). { rewrite X1, X2. field. lra. }
          assert (I0 : 0 < / (1 + d1) <= 1.001). { split; [apply Rinv_0_lt_compat; lra|]. apply Rmult_le_reg_r with (1 + d1); [lra|]. rewrite Rinv_l by lra. lra. }
          pose proof (pb (d2 - d1) (/ (1 + d1)) (2 * u) 1.001 ltac:(lra) ltac:(lra) ltac:(lra)) as D3. rewrite X. rewrite (Rmult_comm (w / R)). pose proof (pb ((d2 - d1) * / (1 + d1)) (w / R) (2.01 * u) 1 ltac:(lra) WR ltac:(lra)). lra. }
        pose proof (pp z M 1 M Z1 ltac:(lra)) as ZM. pose proof (any_err (z * M)) as Ex. rewrite (Rabs_pos_eq (z * M)) in Ex by lra. apply Rabs_le_inv in Ex, E.
        set (x := rnd (z * M)) in *.
        assert (Ek : - (s + 3.6 * u * M + tn) <= IZR k - M * (w / R) <= s + 3.6 * u * M + tn).
        { replace (IZR k - M * (w / R)) with ((IZR k - x) + (x - z * M) + M * ((z - y / r) + (y / r - w / R))) by ring.
          assert (- (2.52 * u) <= (z - y / r) + (y / r - w / R) <= 2.52 * u) by lra. pose proof (pb ((z - y / r) + (y / r - w / R)) M (2.52 * u) M ltac:(lra) ltac:(lra) ltac:(lra)) as PM. rewrite (Rmult_comm _ M) in PM. pose proof (Rmult_le_compat_l u (z * M) M ltac:(lra) ltac:(lra)). assert (0 <= u * M) by (apply Rmult_le_pos; lra). lra. }
        replace (IZR k / M * R - w) with ((IZR k - M * (w / R)) * (R / M)) by (field; lra).
        assert (RM : 0 < R / M) by (apply Rdiv_lt_0_compat; lra). replace (3.6 * u * R) with (3.6 * u * M * (R / M)) by (field; lra).
        pose proof (pb (IZR k - M * (w / R)) (R / M) (s + 3.6 * u * M + tn) (R / M) Ek ltac:(lra) ltac:(assert (0 <= u * M) by (apply Rmult_le_pos; lra); lra)). apply Rabs_le. lra. }
    apply Rabs_le_inv in Eq.
    assert (RM : 0 <= R / M <= R). { split; [apply Rmult_le_pos; [lra|left; apply Rinv_0_lt_compat; lra]|]. apply Rmult_le_reg_r with M; [lra|]. unfold Rdiv. rewrite Rmult_assoc, Rinv_l by lra. pose proof (Rmult_le_compat_l R 1 M ltac:(lra) ltac:(lra)). lra. }
    assert (Tu : tn * (R / M) <= 0.01 * u * R). { assert (tn <= 0.01 * u). { assert (tn <= bpow radix2 (-48)) by (apply bpow_le; lia). replace (bpow radix2 (-48)) with (u * u) in H0 by (unfold u; cbn; lra). assert (u * u <= u * / 1000000) by (apply Rmult_le_compat_l; lra). lra. } pose proof (pp tn (R / M) (0.01 * u) R ltac:(lra) RM). lra. }
    assert (Ear : - (1.6 * u * R) <= a * r - IZR k / M * R <= 1.6 * u * R).
    { replace (a * r - IZR k / M * R) with ((a - IZR k / M) * r + IZR k / M * (r - R)) by ring.
      assert (RR : - (u * R) <= r - R <= u * R). { pose proof (pb d1 R u R ltac:(lra) ltac:(lra) ltac:(lra)). rewrite X1. lra. } pose proof (pb (a - IZR k / M) r (u / 2) (1.001 * R) Ea R1 ltac:(lra)). assert (UR : 0 <= u * R) by (apply Rmult_le_pos; lra). pose proof (pb (r - R) (IZR k / M) (u * R) 1 RR KM UR) as P2. rewrite (Rmult_comm (r - R)) in P2. lra. }
    assert (UR : 0 <= u * R) by (apply Rmult_le_pos; lra). pose proof (Rmult_le_compat_l u (a * r) (1.001 * R) ltac:(lra) ltac:(lra)) as UAR.
    assert (Ebw : - (s * (R / M) + 6.3 * u * R + tn) <= b - w <= s * (R / M) + 6.3 * u * R + tn) by lra.
    pose proof (any_err (b + L)) as Ec. apply Rabs_le_inv in Ec.
    assert (ABL : Rabs (b + L) <= Rabs L + Rabs H + 1.01 * R + tn).
    { replace (b + L) with (V + (b - w)) by (unfold w; ring). apply Rle_trans with (1 := Rabs_triang _ _). assert (Rabs V <= Rabs L + Rabs H). { apply Rabs_le. pose proof (Rle_abs H). pose proof (Rle_abs (- L)). rewrite Rabs_Ropp in H1. lra. }
      assert (Rabs (b - w) <= 1.01 * R + tn); [|lra]. pose proof (pp s (R / M) 1 R S1 RM). pose proof (Rmult_le_compat_r R u (/ 1000000) R0 ltac:(lra)). apply Rabs_le. lra. }
    pose proof (Rmult_le_compat_l u _ _ ltac:(lra) ABL) as UB. pose proof (Rmult_le_compat_l u R _ ltac:(lra) RA) as URA. pose proof (Rmult_le_compat_r tn u (/ 1000000) ltac:(lra) ltac:(lra)) as UT.
    replace (rnd (b + L) - V) with ((rnd (b + L) - (b + L)) + (b - w)) by (unfold w; ring). apply Rabs_le. lra.
  Qed.
End One.
