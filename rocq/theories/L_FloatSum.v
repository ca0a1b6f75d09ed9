(** Sums in float32: real-number level. *)
From Coq Require Import Reals Psatz Lia Qreals RMicromega Permutation.
From Flocq Require Import Core BinarySingleNaN Relative Plus_error.
From Verif Require Import Base M_Float32 S_Float32 L_Float32 L_Float32b L_FloatSchedule M_FloatQuant L_FloatQuant M_FloatSum S_FloatSum.
From Coq Require Import Lra.
Open Scope R_scope.

(** ** The code of one value, decoded without rounding *)
Section Code.
  Variables (lo hi v : f32).
  Hypothesis Fl : fin lo = true.
  Hypothesis Fh : fin hi = true.
  Hypothesis Fv : fin v = true.
  Hypothesis Bl : Rabs (val lo) <= bpow radix2 126.
  Hypothesis Bh : Rabs (val hi) <= bpow radix2 126.
  Hypothesis LV : val lo <= val v.
  Hypothesis VH : val v <= val hi.
  Variable bits : nat.
  Hypothesis Bits : (1 <= bits <= 16)%nat.
  Notation mz := (mz bits).
  Let M := IZR mz.
  Let mz_range := mz_range bits Bits.
  Let M_range : 1 <= M <= 65535 := M_range bits Bits.
  Let M_val : val (f_max_value bits) = M /\ fin (f_max_value bits) = true := M_val bits Bits.
  Let M_fmt : fmt M := M_fmt bits Bits.
  Let L := val lo.
  Let H := val hi.
  Let V := val v.
  Let r := rnd (H - L).
  Let y := rnd (V - L).
  Notation scaled := (scaled lo hi v bits).
  Notation quot := (quot lo hi v).
  Lemma code_err (s : R) k : (0 <= k <= mz)%Z -> 0 <= s <= 1 -> Rabs (IZR k - scaled) <= s ->
    Rabs (IZR k / M * (H - L) - (V - L)) <= s * ((H - L) / M) + 3.7 * u * (H - L).
  Proof.
    intros K S1 E. pose proof M_range as Mr. pose proof tn_pos as T. assert (U : 0 < u < / 1000000) by (unfold u; lra). assert (T1 : tn <= u) by (replace u with (bpow radix2 (-24)) by (unfold u; cbn; lra); apply bpow_le; lia).
    assert (LV' : L <= V) by auto. assert (VH' : V <= H) by auto.
    set (R := H - L). assert (R0 : 0 <= R) by (unfold R; lra). set (w := V - L). assert (W : 0 <= w <= R) by (unfold w, R; lra).
    destruct (diff_rel H L (val_fmt hi) (val_fmt lo)) as (d1 & D1 & X1). fold r R in X1. destruct (diff_rel V L (val_fmt v) (val_fmt lo)) as (d2 & D2 & X2). fold y w in X2. apply Rabs_le_inv in D1, D2. pose proof (y_r lo hi v LV VH) as Y1. fold L H V in Y1. fold r y in Y1.
    unfold L_FloatQuant.scaled, L_FloatQuant.quot in E. fold L H V M in E. fold r y in E.
    assert (KM : 0 <= IZR k / M <= 1). { assert (0 <= IZR k <= M) by (split; apply IZR_le; lia). split; [apply Rmult_le_pos; [lra|left; apply Rinv_0_lt_compat; lra]|]. apply Rmult_le_reg_r with M; [lra|]. unfold Rdiv. rewrite Rmult_assoc, Rinv_l by lra. lra. }
    clear M_range M_val M_fmt. clearbody r y M. clearbody L H V.
    (* quotient *)
    assert (Eq : Rabs (IZR k / M * R - w) <= s * (R / M) + 3.6 * u * R + tn * (R / M)).
    { destruct (Req_dec R 0) as [Z|Z].
      - assert (w = 0) by lra. rewrite Z, H0. unfold Rdiv. rewrite !Rmult_0_r, !Rmult_0_l, Rminus_eq_0, Rabs_R0. lra.
      - assert (Rp : 0 < R) by lra. assert (rp : 0 < r) by (rewrite X1; nra). destruct (Req_EM_T r 0) as [Y|_]; [lra|].
        set (z := rnd (y / r)) in *.
        assert (YR : 0 <= y / r <= 1). { split; [apply Rmult_le_pos; [lra|left; now apply Rinv_0_lt_compat]|]. apply Rmult_le_reg_r with r; [lra|]. unfold Rdiv. rewrite Rmult_assoc, Rinv_l by lra. lra. }
        assert (Ez : Rabs (z - y / r) <= u / 2) by (apply abs_err; rewrite Rabs_pos_eq; lra). apply Rabs_le_inv in Ez.
        assert (Z1 : 0 <= z <= 1). { split; [apply rnd_ge0; lra|]. apply Rle_trans with (rnd 1); [apply rnd_le; lra|rewrite rnd_id by apply one_fmt; lra]. }
        assert (WR : 0 <= w / R <= 1). { split; [apply Rmult_le_pos; [lra|left; now apply Rinv_0_lt_compat]|]. apply Rmult_le_reg_r with R; [lra|]. unfold Rdiv. rewrite Rmult_assoc, Rinv_l by lra. lra. }
        assert (Ey : - (2.01 * u) <= y / r - w / R <= 2.01 * u).
        { assert (X : y / r - w / R = w / R * ((d2 - d1) * / (1 + d1))). { rewrite X1, X2. field. lra. }
          assert (I0 : 0 < / (1 + d1) <= 1.001). { split; [apply Rinv_0_lt_compat; lra|]. apply Rmult_le_reg_r with (1 + d1); [lra|]. rewrite Rinv_l by lra. lra. }
          pose proof (pb (d2 - d1) (/ (1 + d1)) (2 * u) 1.001 ltac:(lra) ltac:(lra) ltac:(lra)) as D3. rewrite X. rewrite (Rmult_comm (w / R)). pose proof (pb ((d2 - d1) * / (1 + d1)) (w / R) (2.01 * u) 1 ltac:(lra) WR ltac:(lra)). lra. }
        pose proof (pp z M 1 M Z1 ltac:(lra)) as ZM. pose proof (any_err (z * M)) as Ex. rewrite (Rabs_pos_eq (z * M)) in Ex by lra. apply Rabs_le_inv in Ex, E.
        set (x := rnd (z * M)) in *.
        assert (Ek : - (s + 3.6 * u * M + tn) <= IZR k - M * (w / R) <= s + 3.6 * u * M + tn).
        { replace (IZR k - M * (w / R)) with ((IZR k - x) + (x - z * M) + M * ((z - y / r) + (y / r - w / R))) by ring.
          assert (- (2.52 * u) <= (z - y / r) + (y / r - w / R) <= 2.52 * u) by lra. pose proof (pb ((z - y / r) + (y / r - w / R)) M (2.52 * u) M ltac:(lra) ltac:(lra) ltac:(lra)) as PM. rewrite (Rmult_comm _ M) in PM. pose proof (Rmult_le_compat_l u (z * M) M ltac:(lra) ltac:(lra)). assert (0 <= u * M) by (apply Rmult_le_pos; lra). lra. }
        replace (IZR k / M * R - w) with ((IZR k - M * (w / R)) * (R / M)) by (field; lra).
        assert (RM : 0 < R / M) by (apply Rdiv_lt_0_compat; lra). replace (3.6 * u * R) with (3.6 * u * M * (R / M)) by (field; lra).
        pose proof (pb (IZR k - M * (w / R)) (R / M) (s + 3.6 * u * M + tn) (R / M) Ek ltac:(lra) ltac:(assert (0 <= u * M) by (apply Rmult_le_pos; lra); lra)). apply Rabs_le. lra. }
    assert (RM : 0 <= R / M <= R). { split; [apply Rmult_le_pos; [lra|left; apply Rinv_0_lt_compat; lra]|]. apply Rmult_le_reg_r with M; [lra|]. unfold Rdiv. rewrite Rmult_assoc, Rinv_l by lra. pose proof (Rmult_le_compat_l R 1 M ltac:(lra) ltac:(lra)). lra. }
    assert (Tu : tn * (R / M) <= 0.01 * u * R). { assert (tn <= 0.01 * u). { assert (tn <= bpow radix2 (-48)) by (apply bpow_le; lia). replace (bpow radix2 (-48)) with (u * u) in H0 by (unfold u; cbn; lra). assert (u * u <= u * / 1000000) by (apply Rmult_le_compat_l; lra). lra. } pose proof (pp tn (R / M) (0.01 * u) R ltac:(lra) RM). lra. }
    assert (UR : 0 <= u * R) by (apply Rmult_le_pos; lra). lra.
  Qed.
End Code.

(** ** Decoding a sum of codes *)
Section Sum.
  Variables (lo hi q : f32) (n K : Z).
  Variable bits : nat.
  Hypothesis Bits : (1 <= bits <= 16)%nat.
  Notation mz := (mz bits).
  Let M := IZR mz.
  Let L := val lo.
  Let H := val hi.
  Let N := IZR n.
  Hypothesis Fl : fin lo = true.
  Hypothesis Fh : fin hi = true.
  Hypothesis LH : L <= H.
  Hypothesis Bn : (1 <= n <= 2 ^ 24)%Z.
  Hypothesis Room : N * (Rabs L + Rabs H) <= bpow radix2 126.
  Hypothesis Fq : fin q = true.
  Hypothesis Vq : val q = IZR K.
  Hypothesis KB : (0 <= K <= n * mz)%Z.
  Let r := rnd (H - L).
  Let A := Rabs L + Rabs H.
  Lemma sum_decode : let d := f_add (f_mul (f_div q (f_max_value bits)) (f_sub hi lo)) (f_mul lo (f_of_int n)) in
    fin d = true /\ Rabs (val d - (IZR K / M * (H - L) + N * L)) <= 5.3 * u * (N * A) + 4 * tn.
  Proof.
    pose proof (M_range bits Bits) as Mr. destruct (M_val bits Bits) as [M1 M2]. fold M in Mr, M1. pose proof tn_pos as T. assert (U : 0 < u < / 1000000) by (unfold u; lra). assert (P127 : bpow radix2 127 = 2 * bpow radix2 126) by apply two126.
    assert (P126 : 1000000000 <= bpow radix2 126). { apply Rle_trans with (bpow radix2 30); [cbn; lra|apply bpow_le; lia]. }
    assert (T1 : tn <= u * / 1000000). { assert (tn <= bpow radix2 (-48)) by (apply bpow_le; lia). replace (bpow radix2 (-48)) with (u * u) in H0 by (unfold u; cbn; lra). assert (u * u <= u * / 1000000) by (apply Rmult_le_compat_l; lra). lra. }
    assert (N1 : 1 <= N <= 16777216) by (unfold N; split; apply IZR_le; lia).
    pose proof (Rabs_pos L) as AL. pose proof (Rabs_pos H) as AH. assert (A0 : 0 <= A) by (unfold A; lra). fold A in Room.
    assert (NA : A <= N * A). { pose proof (Rmult_le_compat_r A 1 N A0 ltac:(lra)). lra. }
    set (R := H - L). assert (R0 : 0 <= R) by (unfold R; lra). assert (RA : R <= A). { unfold R, A. pose proof (Rle_abs H). pose proof (Rle_abs (- L)). rewrite Rabs_Ropp in H1. lra. }
    assert (NRA : 0 <= N * R <= N * A). { split; [apply Rmult_le_pos; lra|apply Rmult_le_compat_l; lra]. }
    assert (KM : 0 <= IZR K / M <= N). { assert (0 <= IZR K <= N * M) by (unfold N, M; rewrite <- mult_IZR; split; apply IZR_le; lia). split; [apply Rmult_le_pos; [lra|left; apply Rinv_0_lt_compat; lra]|]. apply Rmult_le_reg_r with M; [lra|]. unfold Rdiv. rewrite Rmult_assoc, Rinv_l by lra. lra. }
    destruct (diff_rel H L (val_fmt hi) (val_fmt lo)) as (d1 & D1 & X1). fold r R in X1. apply Rabs_le_inv in D1.
    assert (R1 : 0 <= r <= 1.001 * R). { rewrite X1. pose proof (pb d1 R u R ltac:(lra) ltac:(lra) ltac:(lra)). pose proof (Rmult_le_compat_r R u (/ 1000000) R0 ltac:(lra)). lra. }
    assert (RR : - (u * R) <= r - R <= u * R). { pose proof (pb d1 R u R ltac:(lra) ltac:(lra) ltac:(lra)). rewrite X1. lra. }
    (* the difference *)
    destruct (sub_val hi lo Fh Fl) as [S1 S2]. { fold L H. fold R. rewrite Rabs_pos_eq by lra. lra. } fold L H in S1. fold R in S1. fold R in r. fold r in S1.
    (* the quotient *)
    destruct (div_val q (f_max_value bits) Fq) as [C1 C2]. { rewrite M1. lra. } { rewrite Vq, M1, Rabs_pos_eq; lra. } rewrite Vq, M1 in C1.
    set (a := rnd (IZR K / M)) in *. pose proof (any_err (IZR K / M)) as Ea. fold a in Ea. rewrite (Rabs_pos_eq (IZR K / M)) in Ea by lra. apply Rabs_le_inv in Ea.
    assert (UKM : u * (IZR K / M) <= u * N) by (apply Rmult_le_compat_l; lra). assert (UN : u <= u * N). { pose proof (Rmult_le_compat_l u 1 N ltac:(lra) ltac:(lra)). lra. } assert (UN2 : u * N <= / 1000000 * N) by (apply Rmult_le_compat_r; lra).
    assert (A1 : 0 <= a <= 1.01 * N). { split; [apply rnd_ge0; lra|]. lra. }
    (* the product *)
    pose proof (pp a r (1.01 * N) (1.001 * R) A1 R1) as AR. destruct (mul_val _ (f_sub hi lo) C2 S2) as [D2 D3]. { rewrite C1, S1, Rabs_pos_eq by lra. lra. } rewrite C1, S1 in D2.
    set (b := rnd (a * r)) in *. pose proof (any_err (a * r)) as Eb. fold b in Eb. rewrite (Rabs_pos_eq (a * r)) in Eb by lra. apply Rabs_le_inv in Eb.
    pose proof (Rmult_le_compat_l u (a * r) (1.02 * (N * R)) ltac:(lra) ltac:(lra)) as UAR.
    pose proof (Rmult_le_compat_l u (N * R) (N * A) ltac:(lra) ltac:(lra)) as UNR. assert (UNA : u * (N * A) <= / 1000000 * (N * A)) by (apply Rmult_le_compat_r; lra).
    assert (Ear : - (2.1 * u * (N * R)) <= a * r - IZR K / M * R <= 2.1 * u * (N * R)).
    { replace (a * r - IZR K / M * R) with ((a - IZR K / M) * r + IZR K / M * (r - R)) by ring.
      pose proof (pb (a - IZR K / M) r (1.01 * (u * N)) (1.001 * R) ltac:(lra) R1 ltac:(lra)) as P1. assert (UR : 0 <= u * R) by (apply Rmult_le_pos; lra). pose proof (pb (r - R) (IZR K / M) (u * R) N RR KM UR) as P2. rewrite (Rmult_comm (r - R)) in P2. assert (0 <= u * (N * R)) by (apply Rmult_le_pos; lra). lra. }
    (* the shift *)
    destruct (of_int_exact n) as [N2 N3]; [lia|]. fold N in N2. assert (NL : Rabs (L * N) <= N * A). { rewrite Rabs_mult, (Rabs_pos_eq N) by lra. rewrite Rmult_comm. apply Rmult_le_compat_l; [lra|]. unfold A. lra. }
    destruct (mul_val lo (f_of_int n) Fl N3) as [E1 E2]. { rewrite N2. fold L. lra. } rewrite N2 in E1. fold L in E1.
    set (c := rnd (L * N)) in *. pose proof (any_err (L * N)) as Ec. fold c in Ec. apply Rabs_le_inv in Ec. pose proof (Rmult_le_compat_l u _ _ ltac:(lra) NL) as UNL.
    assert (Mid : Rabs (IZR K / M * R + L * N) <= N * A).
    { pose proof (pp (IZR K / M) R N R KM ltac:(lra)) as KR. assert (HA : N * H <= N * A). { apply Rmult_le_compat_l; [lra|]. unfold A. pose proof (Rle_abs H). lra. } assert (LA : - (N * A) <= N * L). { rewrite Ropp_mult_distr_r. apply Rmult_le_compat_l; [lra|]. unfold A. pose proof (Rle_abs (- L)). rewrite Rabs_Ropp in H0. lra. }
      apply Rabs_le. replace (N * R) with (N * H - N * L) in KR by (unfold R; ring). lra. }
    apply Rabs_le_inv in Mid.
    assert (BC : Rabs (b + c) <= 1.01 * (N * A) + 2 * tn) by (apply Rabs_le; lra).
    destruct (add_val _ (f_mul lo (f_of_int n)) D3 E2) as [F1 F2]. { rewrite D2, E1. lra. } rewrite D2, E1 in F1.
    split; [exact F2|]. rewrite F1. pose proof (any_err (b + c)) as Ef. apply Rabs_le_inv in Ef. pose proof (Rmult_le_compat_l u _ _ ltac:(lra) BC) as UBC.
    assert (UT : u * tn <= / 1000000 * tn) by (apply Rmult_le_compat_r; lra). apply Rabs_le. fold R. lra.
  Qed.
End Sum.
