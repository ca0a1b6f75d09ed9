(** Uniform quantization in float32: the stage. *)
From Coq Require Import Reals Psatz Lia Qreals RMicromega Qabs Qpower.
From Flocq Require Import Core BinarySingleNaN Relative.
From Verif Require Import Base M_Float32 S_Float32 L_Float32 L_Float32b L_Float32c L_FloatSchedule L_FloatSchedule2 M_FloatQuant S_FloatQuant L_FloatQuant.
From Coq Require Import Lra.
Open Scope Q_scope.

Lemma moderate_val v : moderate v <-> fin v = true /\ (Rabs (val v) <= bpow radix2 126)%R.
Proof. unfold moderate, finite. rewrite le_R, abs_R, number_val, Q2R_pow2. tauto. Qed.
Lemma number_le x y : number x <= number y <-> (val x <= val y)%R. Proof. rewrite le_R, !number_val. tauto. Qed.

(** ** The range *)
Lemma min_in l : forall a, fin a = true -> Forall (fun v => fin v = true) l -> let m := fold_left f_min l a in In m (a :: l) /\ forall v, In v (a :: l) -> (val m <= val v)%R.
Proof.
  induction l as [|b l IH]; intros a A F; cbn [fold_left]. { split; [now left|]. intros v [->|[]]. lra. }
  inversion F as [|? ? B F' E]; subst. destruct (min_val a b A B) as [M1 M2]. destruct (IH (f_min a b) M2 F') as [I1 I2]. cbv zeta. split.
  - destruct I1 as [I1|I1]; [|right; now right]. rewrite <- I1. unfold f_min. destruct (Bltb b a); [right; now left|now left].
  - pose proof (I2 _ (or_introl eq_refl)) as I3. rewrite M1 in I3. intros v [<-|[<-|V]].
    + apply Rle_trans with (1 := I3). apply Rmin_l. + apply Rle_trans with (1 := I3). apply Rmin_r. + apply I2. now right.
Qed.
Lemma max_in l : forall a, fin a = true -> Forall (fun v => fin v = true) l -> let m := fold_left f_max l a in In m (a :: l) /\ forall v, In v (a :: l) -> (val v <= val m)%R.
Proof.
  induction l as [|b l IH]; intros a A F; cbn [fold_left]. { split; [now left|]. intros v [->|[]]. lra. }
  inversion F as [|? ? B F' E]; subst. destruct (max_val a b A B) as [M1 M2]. destruct (IH (f_max a b) M2 F') as [I1 I2]. cbv zeta. split.
  - destruct I1 as [I1|I1]; [|right; now right]. rewrite <- I1. unfold f_max. destruct (Bltb a b); [right; now left|now left].
  - pose proof (I2 _ (or_introl eq_refl)) as I3. rewrite M1 in I3. intros v [<-|[<-|V]].
    + apply Rle_trans with (2 := I3). apply Rmax_l. + apply Rle_trans with (2 := I3). apply Rmax_r. + apply I2. now right.
Qed.
Lemma min_first a : fin a = true -> f_min (f_inf false) a = a. Proof. destruct a as [s|s| |s m e H]; try discriminate; reflexivity. Qed.
Lemma max_first a : fin a = true -> f_max (f_inf true) a = a. Proof. destruct a as [s|s| |s m e H]; try discriminate; reflexivity. Qed.

Section Stage.
  Variables (bits : nat) (mm : option (f32 * f32)) (st : bool) (draw : nat -> f32) (x : list f32).
  Hypothesis Bits : (1 <= bits <= 16)%nat.
  Hypothesis Mm : good_range mm.
  Hypothesis Dr : forall i, is_draw (draw i).
  Hypothesis X : Forall moderate x.
  Hypothesis Ne : x <> [].
  Lemma range_ok : exists lo hi, uqf_range mm x = (lo, hi) /\ is_range mm x lo hi /\ moderate lo /\ moderate hi /\ number lo <= number hi.
  Proof.
    unfold uqf_range, is_range. destruct mm as [[lo hi]|]. { exists lo, hi. cbn in Mm. tauto. }
    destruct x as [|a l] eqn:E; [congruence|]. assert (A := Forall_inv X). assert (F : Forall (fun v => fin v = true) (a :: l)). { apply Forall_forall. intros v V. rewrite Forall_forall in X. apply X in V. apply V. }
    unfold f_reduce_min, f_reduce_max. cbn [fold_left]. rewrite min_first, max_first by apply A. pose proof (Forall_inv_tail F) as Fl.
    destruct (min_in l a (proj1 A) Fl) as [I1 I2]. destruct (max_in l a (proj1 A) Fl) as [J1 J2]. cbv zeta in *. rewrite Forall_forall in X.
    eexists. eexists. split; [reflexivity|]. repeat split; auto; try (apply X; auto).
    - apply number_le; auto. - apply number_le; auto. - apply number_le. auto.
  Qed.
  Lemma clip_ok lo hi v : uqf_range mm x = (lo, hi) -> is_range mm x lo hi -> moderate lo -> moderate hi -> number lo <= number hi -> In v x ->
    fin (uqf_clip mm v) = true /\ (val lo <= val (uqf_clip mm v) <= val hi)%R /\ number (uqf_clip mm v) == clamp (number lo) (number hi) (number v).
  Proof.
    intros E R Lo Hi LH V. apply number_le in LH. rewrite Forall_forall in X. pose proof (X v V) as Mv. unfold uqf_clip, is_range, clamp in *. destruct mm as [[l h]|].
    - injection E as -> ->. unfold f_clip. destruct (min_val v hi (proj1 Mv) (proj1 Hi)) as [A1 A2]. destruct (max_val _ lo A2 (proj1 Lo)) as [B1 B2]. rewrite A1 in B1. rewrite B1.
      split; [exact B2|]. split. { split; [apply Rmax_r|]. apply Rmax_lub; auto. apply Rmin_r. }
      apply eq_R. rewrite number_val, B1. destruct (Qle_bool (number v) (number lo)) eqn:E1.
      + apply Qle_bool_iff in E1. apply number_le in E1. rewrite number_val. rewrite Rmax_right; auto. apply Rle_trans with (2 := E1). apply Rmin_l.
      + assert (E1' : (val lo < val v)%R). { apply Rnot_le_lt. intros C. apply number_le in C. apply Qle_bool_iff in C. congruence. }
        destruct (Qle_bool (number hi) (number v)) eqn:E2.
        * apply Qle_bool_iff in E2. apply number_le in E2. rewrite number_val, Rmin_right by auto. apply Rmax_left. auto.
        * assert (E2' : (val v < val hi)%R). { apply Rnot_le_lt. intros C. apply number_le in C. apply Qle_bool_iff in C. congruence. }
          rewrite number_val, Rmin_left by lra. apply Rmax_left. lra.
    - destruct R as (_ & _ & R). destruct (R v V) as [R1 R2]. split; [apply Mv|]. split. { split; apply number_le; auto. }
      destruct (Qle_bool (number v) (number lo)) eqn:E1. { apply Qle_bool_iff in E1. now apply Qle_antisym. }
      destruct (Qle_bool (number hi) (number v)) eqn:E2; [|reflexivity]. apply Qle_bool_iff in E2. now apply Qle_antisym.
  Qed.
  Notation dflt := (f_of_int 0).
  Lemma encode_length : length (fst (uqf_encode bits mm st draw x)) = length x.
  Proof. unfold uqf_encode. destruct (uqf_range mm x). cbn [fst]. rewrite map_length, combine_length, seq_length. lia. Qed.
  Lemma encode_nth lo hi i : uqf_range mm x = (lo, hi) -> (i < length x)%nat ->
    nth i (fst (uqf_encode bits mm st draw x)) dflt = quantize_one_f st (draw i) (uqf_scale bits lo hi (uqf_clip mm (nth i x dflt))).
  Proof.
    intros E Hi. unfold uqf_encode. rewrite E. cbn [fst].
    set (g := fun iv : nat * f32 => quantize_one_f st (draw (fst iv)) (uqf_scale bits lo hi (uqf_clip mm (snd iv)))).
    assert (L : length (combine (seq 0 (length x)) x) = length x) by (rewrite combine_length, seq_length; lia).
    rewrite nth_indep with (d' := g (0%nat, dflt)) by (rewrite map_length, L; auto). rewrite map_nth, combine_nth by apply seq_length. rewrite seq_nth by auto. reflexivity.
  Qed.
  (** Everything about one entry. *)
  Lemma entry lo hi i : uqf_range mm x = (lo, hi) -> is_range mm x lo hi -> moderate lo -> moderate hi -> number lo <= number hi -> (i < length x)%nat ->
    let v := uqf_clip mm (nth i x dflt) in let c := nth i (fst (uqf_encode bits mm st draw x)) dflt in
    exists k, (0 <= k <= mz bits)%Z /\ val c = IZR k /\ fin c = true /\ (if st then (Rabs (IZR k - scaled lo hi v bits) < 1)%R else (Rabs (IZR k - scaled lo hi v bits) <= / 2)%R) /\
      (st = false -> k = ZnearestE (scaled lo hi v bits)) /\ fin v = true /\ (val lo <= val v <= val hi)%R /\ number v == clamp (number lo) (number hi) (number (nth i x dflt)).
  Proof.
    intros E R Lo Hi LH Ii v c. destruct (clip_ok lo hi (nth i x dflt) E R Lo Hi LH (nth_In x dflt Ii)) as (C1 & C2 & C3). fold v in C1, C2, C3.
    apply moderate_val in Lo as [Lo1 Lo2]. apply moderate_val in Hi as [Hi1 Hi2].
    pose proof (Dr i) as [D1 D2]. apply le_R in D2. rewrite zero_R, number_val in D2.
    destruct (code_ok lo hi v Lo1 Hi1 C1 Lo2 Hi2 (proj1 C2) (proj2 C2) bits Bits st (draw i) D1 D2) as (k & K1 & K2 & K3 & K4 & K5).
    exists k. unfold c. rewrite (encode_nth lo hi i E Ii). fold v. tauto.
  Qed.
  Lemma mz_bound k : (0 <= k <= mz bits)%Z -> (0 <= k < 2 ^ Z.of_nat bits)%Z. Proof. unfold mz. lia. Qed.
  Theorem codes_ok : length (fst (uqf_encode bits mm st draw x)) = length x /\ Forall (is_code bits) (fst (uqf_encode bits mm st draw x)).
  Proof.
    split; [apply encode_length|]. destruct range_ok as (lo & hi & E & R & Lo & Hi & LH). apply Forall_forall. intros c Hc. apply (In_nth _ _ dflt) in Hc as (i & Hi' & <-). rewrite encode_length in Hi'.
    destruct (entry lo hi i E R Lo Hi LH Hi') as (k & K1 & K2 & K3 & _). split; auto. exists k. split; [now apply mz_bound|]. apply eq_R. rewrite number_val, Q2R_int. exact K2.
  Qed.
  (** The ends of the range get the least and the greatest code. *)
  Theorem ends_ok : exists lo hi, is_range mm x lo hi /\ forall i, (i < length x)%nat ->
    (number (nth i x dflt) <= number lo -> number (nth i (fst (uqf_encode bits mm st draw x)) dflt) == 0) /\
    (number lo < number hi -> number hi <= number (nth i x dflt) -> number (nth i (fst (uqf_encode bits mm st draw x)) dflt) == inject_Z (2 ^ Z.of_nat bits - 1)).
  Proof.
    destruct range_ok as (lo & hi & E & R & Lo & Hi & LH). exists lo, hi. split; auto. intros i Hi'. destruct (entry lo hi i E R Lo Hi LH Hi') as (k & K1 & K2 & K3 & K4 & K5 & V1 & V2 & V3).
    set (v := uqf_clip mm (nth i x dflt)) in *. apply moderate_val in Lo as [Lo1 Lo2]. apply moderate_val in Hi as [Hi1 Hi2]. unfold clamp in V3. split.
    - intros L. apply Qle_bool_iff in L. rewrite L in V3. apply eq_R in V3. rewrite !number_val in V3.
      assert (S0 : scaled lo hi v bits = 0%R). { unfold scaled, quot. rewrite V3, Rminus_eq_0, rnd_0. destruct (Req_EM_T _ 0); [|unfold Rdiv; rewrite Rmult_0_l, rnd_0]; rewrite Rmult_0_l; apply rnd_0. }
      rewrite S0, Rminus_0_r in K4. assert (k = 0%Z). { assert (Rabs (IZR k) < 1)%R by (destruct st; lra). rewrite <- abs_IZR in H. apply lt_IZR in H. lia. }
      subst k. apply eq_R. rewrite number_val, zero_R. exact K2.
    - intros LT L. assert (Nl : Qle_bool (number (nth i x dflt)) (number lo) = false). { destruct (Qle_bool _ (number lo)) eqn:B; auto. apply Qle_bool_iff in B. exfalso. apply (Qlt_irrefl (number lo)). apply Qlt_le_trans with (1 := LT). eapply Qle_trans; eauto. }
      rewrite Nl in V3. apply Qle_bool_iff in L. rewrite L in V3. apply eq_R in V3. rewrite !number_val in V3. apply lt_R in LT. rewrite !number_val in LT.
      assert (S0 : scaled lo hi v bits = IZR (mz bits)).
      { unfold scaled, quot. rewrite V3. destruct (Req_EM_T _ 0) as [Z|Z]. { apply (r_zero lo hi) in Z. lra. }
        unfold Rdiv. rewrite Rinv_r, (rnd_id 1), Rmult_1_l by (auto; apply one_fmt). apply rnd_id, int_fmt. pose proof (mz_range bits Bits). lia. }
      rewrite S0, <- minus_IZR in K4. assert (k = mz bits). { assert (Rabs (IZR (k - mz bits)) < 1)%R by (destruct st; lra). rewrite <- abs_IZR in H. apply lt_IZR in H. lia. }
      subst k. apply eq_R. rewrite number_val, Q2R_int. exact K2.
  Qed.
  (** Deterministic codes respect the order. *)
  Theorem order_ok : st = false -> forall i j, (i < length x)%nat -> (j < length x)%nat -> number (nth i x dflt) <= number (nth j x dflt) ->
    number (nth i (fst (uqf_encode bits mm st draw x)) dflt) <= number (nth j (fst (uqf_encode bits mm st draw x)) dflt).
  Proof.
    intros St i j Ii Ij L. destruct range_ok as (lo & hi & E & R & Lo & Hi & LH).
    destruct (entry lo hi i E R Lo Hi LH Ii) as (k & K1 & K2 & K3 & K4 & K5 & V1 & V2 & V3). destruct (entry lo hi j E R Lo Hi LH Ij) as (k' & K1' & K2' & K3' & K4' & K5' & V1' & V2' & V3').
    set (v := uqf_clip mm (nth i x dflt)) in *. set (v' := uqf_clip mm (nth j x dflt)) in *. apply number_le. rewrite K2, K2'. apply IZR_le. rewrite (K5 St), (K5' St). apply near_le.
    assert (VV : (val v <= val v')%R).
    { apply number_le. rewrite V3, V3'. clear - L LH. unfold clamp. destruct (Qle_bool (number (nth i x dflt)) (number lo)) eqn:A, (Qle_bool (number (nth j x dflt)) (number lo)) eqn:B; try apply Qle_refl.
      - destruct (Qle_bool (number hi) (number (nth j x dflt))); auto. apply Qlt_le_weak, Qnot_le_lt. intros C. apply Qle_bool_iff in C. congruence.
      - exfalso. apply Qle_bool_iff in B. assert (number (nth i x dflt) <= number lo) by (eapply Qle_trans; eauto). apply Qle_bool_iff in H. congruence.
      - destruct (Qle_bool (number hi) (number (nth i x dflt))) eqn:C, (Qle_bool (number hi) (number (nth j x dflt))) eqn:D; try apply Qle_refl; auto.
        + exfalso. apply Qle_bool_iff in C. assert (number hi <= number (nth j x dflt)) by (eapply Qle_trans; eauto). apply Qle_bool_iff in H. congruence.
        + apply Qlt_le_weak, Qnot_le_lt. intros F. apply Qle_bool_iff in F. congruence. }
    unfold scaled. pose proof (M_range bits Bits) as Mr. apply rnd_le. apply Rmult_le_compat_r; [lra|]. unfold quot. destruct (Req_EM_T _ 0) as [Z|Z]; [lra|]. apply rnd_le. unfold Rdiv. apply Rmult_le_compat_r.
    - left. apply Rinv_0_lt_compat. assert (0 <= rnd (val hi - val lo))%R by (apply rnd_ge0; apply number_le in LH; lra). lra.
    - apply rnd_le. lra.
  Qed.

  (** Decoding. *)
  Lemma decode_nth lo hi : uqf_range mm x = (lo, hi) -> exists ys, uqf_decode bits mm (uqf_encode bits mm st draw x) = Ok ys /\ length ys = length x /\
    forall i, (i < length x)%nat -> nth i ys dflt = f_add (f_mul (f_div (nth i (fst (uqf_encode bits mm st draw x)) dflt) (f_max_value bits)) (f_sub hi lo)) lo.
  Proof.
    intros E. set (g := fun q => f_add (f_mul (f_div q (f_max_value bits)) (f_sub hi lo)) lo). exists (map g (fst (uqf_encode bits mm st draw x))). split; [|split].
    - unfold uqf_decode. assert (S1 : (match mm with Some r => Some r | None => snd (uqf_encode bits mm st draw x) end) = Some (lo, hi)).
      { unfold uqf_encode, uqf_range in *. destruct mm as [r|]; [congruence|]. injection E as -> ->. reflexivity. }
      rewrite S1. reflexivity.
    - rewrite map_length. apply encode_length.
    - intros i Hi. rewrite nth_indep with (d' := g dflt) by (rewrite map_length, encode_length; auto). apply map_nth.
  Qed.
  Theorem decode_ok_all : exists lo hi ys, is_range mm x lo hi /\ uqf_decode bits mm (uqf_encode bits mm st draw x) = Ok ys /\ length ys = length x /\
    forall i, (i < length x)%nat -> finite (nth i ys dflt) /\
      Qabs (number (nth i ys dflt) - clamp (number lo) (number hi) (number (nth i x dflt))) <=
        (if st then 1 else 1#2) * step bits lo hi + 3 * eps * (Qabs (number lo) + Qabs (number hi)) + tiny /\
      (number (nth i x dflt) <= number lo \/ number lo == number hi -> number (nth i ys dflt) == number lo).
  Proof.
    destruct range_ok as (lo & hi & E & R & Lo & Hi & LH). destruct (decode_nth lo hi E) as (ys & D1 & D2 & D3). exists lo, hi, ys. repeat (split; auto).
    all: destruct (entry lo hi i E R Lo Hi LH H) as (k & K1 & K2 & K3 & K4 & K5 & V1 & V2 & V3); set (v := uqf_clip mm (nth i x dflt)) in *; apply moderate_val in Lo as [Lo1 Lo2]; apply moderate_val in Hi as [Hi1 Hi2];
      destruct (decode_ok lo hi v Lo1 Hi1 V1 Lo2 Hi2 (proj1 V2) (proj2 V2) bits Bits _ k K3 K2 K1) as [F1 F2]; rewrite D3 by auto.
    - exact F1.
    - pose proof (M_range bits Bits) as Mr. apply le_R. rewrite abs_R, Q2R_minus, number_val, F2. apply eq_R in V3. rewrite <- V3, number_val.
      assert (T : Q2R tiny = (4 * tn)%R). { unfold tiny. rewrite Q2R_pow2. unfold tn. change (-148)%Z with (2 + -150)%Z. rewrite bpow_plus. reflexivity. }
      assert (Sb : Q2R (if st then 1 else 1#2) = (if st then 1 else / 2)%R) by (destruct st; [apply one_R|apply half_R]).
      assert (Se : Q2R (step bits lo hi) = ((val hi - val lo) / IZR (mz bits))%R). { unfold step. rewrite Q2R_div, Q2R_minus, !number_val, Q2R_int. reflexivity. unfold Qeq. cbn [inject_Z Qnum Qden]. pose proof (mz_range bits Bits). fold (mz bits). lia. }
      rewrite !Q2R_plus, !Q2R_mult, Q2R_plus, T, Sb, Se, !abs_R, !number_val, <- u_eps. assert (Q3 : Q2R 3 = 3%R) by (unfold Q2R; cbn; lra). rewrite Q3.
      eapply Rle_trans; [apply (decode_err lo hi v Lo1 Hi1 V1 (proj1 V2) (proj2 V2) bits Bits (if st then 1 else / 2)%R k K1)|].
      + destruct st; lra. + destruct st; lra. + lra.
    - intros C. apply eq_R. rewrite !number_val, F2. pose proof (M_range bits Bits) as Mr.
      assert (k = 0%Z \/ rnd (val hi - val lo) = 0%R) as [-> | Z].
      { destruct C as [C|C].
        - left. apply Qle_bool_iff in C. unfold clamp in V3. rewrite C in V3. apply eq_R in V3. rewrite !number_val in V3.
          assert (S0 : scaled lo hi v bits = 0%R). { unfold scaled, quot. rewrite V3, Rminus_eq_0, rnd_0. destruct (Req_EM_T _ 0); [|unfold Rdiv; rewrite Rmult_0_l, rnd_0]; rewrite Rmult_0_l; apply rnd_0. }
          rewrite S0, Rminus_0_r in K4. assert (H0 : (Rabs (IZR k) < 1)%R) by (destruct st; lra). rewrite <- abs_IZR in H0. apply lt_IZR in H0. lia.
        - right. apply eq_R in C. rewrite !number_val in C. rewrite C, Rminus_eq_0. apply rnd_0. }
      + unfold Rdiv. rewrite Rmult_0_l, rnd_0, Rmult_0_l, rnd_0, Rplus_0_l. apply rnd_val.
      + rewrite Z, Rmult_0_r, rnd_0, Rplus_0_l. apply rnd_val.
  Qed.
End Stage.
