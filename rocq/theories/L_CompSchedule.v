From Verif Require Import Base M_Schedule M_CompSchedule L_Schedule.
From Coq Require Import Reals Qreals Qround Lra Psatz.
Open Scope Z_scope.

Lemma Q2R_inject_Z z : Q2R (inject_Z z) = IZR z.
Proof. unfold Q2R, inject_Z. simpl. lra. Qed.
Lemma Int_part_IZR z : Int_part (IZR z) = z.
Proof.
  pose proof (base_Int_part (IZR z)) as [A B].
  assert (IZR (Int_part (IZR z)) < IZR (z + 1))%R by (rewrite plus_IZR; lra).
  assert (IZR (z - 1) < IZR (Int_part (IZR z)))%R by (rewrite minus_IZR; lra).
  apply lt_IZR in H. apply lt_IZR in H0. lia.
Qed.
Lemma Int_part_mono x y : (x <= y)%R -> Int_part x <= Int_part y.
Proof.
  intros H. pose proof (base_Int_part x) as [A _]. pose proof (base_Int_part y) as [_ B].
  assert (IZR (Int_part x) < IZR (Int_part y + 1))%R by (rewrite plus_IZR; lra).
  apply lt_IZR in H0. lia.
Qed.
Lemma truncR_IZR z : truncR (IZR z) = z.
Proof.
  unfold truncR. destruct (Rle_dec 0 (IZR z)). apply Int_part_IZR.
  rewrite <- opp_IZR, Int_part_IZR. lia.
Qed.
Lemma truncR_0 : truncR 0 = 0. Proof. exact (truncR_IZR 0). Qed.
Lemma truncR_mono x y : (x <= y)%R -> truncR x <= truncR y.
Proof.
  intros H. unfold truncR. destruct (Rle_dec 0 x) as [a|a], (Rle_dec 0 y) as [b|b].
  - apply Int_part_mono; auto.
  - exfalso. lra.
  - pose proof (Int_part_mono 0 y b). rewrite (Int_part_IZR 0) in H0.
    pose proof (Int_part_mono 0 (- x)). rewrite (Int_part_IZR 0) in H1. specialize (H1 ltac:(lra)). lia.
  - pose proof (Int_part_mono (-y) (-x)). specialize (H0 ltac:(lra)). lia.
Qed.
(** Truncation moves towards zero by less than one. *)
Lemma truncR_near x : (Rabs (IZR (truncR x)) <= Rabs x /\ Rabs (x - IZR (truncR x)) < 1)%R.
Proof.
  unfold truncR. destruct (Rle_dec 0 x) as [a|a].
  - pose proof (base_Int_part x) as [A B]. pose proof (Int_part_mono 0 x a) as C. rewrite (Int_part_IZR 0) in C.
    apply IZR_le in C. split; rewrite !Rabs_pos_eq; lra.
  - pose proof (base_Int_part (-x)) as [A B].
    pose proof (Int_part_mono 0 (-x) ltac:(lra)) as C. rewrite (Int_part_IZR 0) in C. apply IZR_le in C.
    rewrite opp_IZR. split.
    + rewrite Rabs_Ropp, (Rabs_pos_eq (IZR _)), (Rabs_left1 x); lra.
    + rewrite Rabs_left1; lra.
Qed.

Section Decay.
Variables (s e : Q) (n b : Z) (ex : Q).
Hypothesis Hn : 0 < n.
Hypothesis Hex : (0 < ex)%Q.
Let p (t : Z) : Q := prog b (b + n) t.
Let delta (t : Z) : R := (Q2R (s - e) * rp (p t) ex)%R.

Lemma during_eq d t : b <= t <= b + n ->
  during_decay (mkDecay s n e b ex d) t =
  (let dl := match d with DFloat => delta t | DInt => IZR (truncR (delta t)) end in
   match d with
   | DFloat => Ok (Fin (Q2R e + dl)%R)
   | DInt => if Qeq_bool (inject_Z (Qfloor e)) e then Ok (Fin (Q2R e + dl)%R) else Err TypeError
   end).
Proof.
  intros H. unfold during_decay. cbn [cd_start cd_decay_steps cd_end cd_begin cd_exponent cd_dtype].
  unfold ext_div. destruct (Z.eqb_spec n 0); [lia|].
  rewrite pow01_rp by exact Hex. cbn [ext_axpb].
  rewrite (rp_compat (inject_Z (t - b) / inject_Z n) (p t)).
  2:{ unfold p. rewrite prog_mid by lia. replace (b + n - b) with n by lia. reflexivity. }
  replace (Q2R (s - e) * rp (p t) ex + Q2R 0)%R with (delta t).
  2:{ unfold delta. rewrite RMicromega.Q2R_0. ring. }
  destruct d; reflexivity.
Qed.

Lemma delta_before t : t <= b -> delta t = Q2R (s - e).
Proof. intros H. unfold delta. rewrite rp_0. ring. apply prog_begin; lia. Qed.
Lemma delta_after t : b + n <= t -> delta t = 0%R.
Proof. intros H. unfold delta. rewrite rp_1. ring. apply prog_end; lia. Qed.
Lemma delta_up t1 t2 : t1 <= t2 -> (e <= s)%Q -> (delta t2 <= delta t1)%R.
Proof.
  intros H K. unfold delta. apply Rmult_le_compat_l.
  - assert (0 <= s - e)%Q by lra. apply Qle_Rle in H0. rewrite RMicromega.Q2R_0 in H0. exact H0.
  - apply rp_le; auto. apply prog_le; lia. apply prog_range.
Qed.
Lemma delta_down t1 t2 : t1 <= t2 -> (s <= e)%Q -> (delta t1 <= delta t2)%R.
Proof.
  intros H K. unfold delta. apply Rmult_le_compat_neg_l.
  - assert (s - e <= 0)%Q by lra. apply Qle_Rle in H0. rewrite RMicromega.Q2R_0 in H0. exact H0.
  - apply rp_le; auto. apply prog_le; lia. apply prog_range.
Qed.
Lemma delta_mid t : b <= t < b + n ->
  delta t = ((Q2R s - Q2R e) * Rpower (1 - IZR (t - b) / IZR n) (Q2R ex))%R.
Proof.
  intros H. unfold delta. rewrite Q2R_minus. f_equal.
  rewrite (rp_compat _ (inject_Z (t - b) / inject_Z n)).
  2:{ unfold p. rewrite prog_mid by lia. replace (b + n - b) with n by lia. reflexivity. }
  assert (Hne : ~ inject_Z n == 0).
  { intros K. apply (inject_Z_injective n 0) in K. lia. }
  assert (Hlt : (inject_Z (t - b) / inject_Z n < 1)%Q).
  { apply Qlt_shift_div_r. replace 0%Q with (inject_Z 0) by reflexivity. rewrite <- Zlt_Qlt. lia.
    rewrite Qmult_1_l. rewrite <- Zlt_Qlt. lia. }
  unfold rp. destruct (Qeq_bool _ 0) eqn:E. { apply Qeq_bool_iff in E. exfalso. lra. }
  f_equal. rewrite Q2R_minus. rewrite Q2R_div by auto.
  rewrite !Q2R_inject_Z. unfold Q2R at 1. simpl. lra.
Qed.

Lemma call_float : exists v : Z -> R,
  (forall t, cdecay_call (mkDecay s n e b ex DFloat) t = Ok (Fin (v t))) /\ (forall t, v t = Q2R e + delta t)%R.
Proof.
  exists (fun t => Q2R e + delta t)%R. split; auto. intros t. unfold cdecay_call.
  cbn [cd_start cd_decay_steps cd_end cd_begin cd_exponent cd_dtype].
  destruct (Z.ltb_spec t b).
  { cbn [cast_ext]. rewrite delta_before by lia. rewrite Q2R_minus. do 2 f_equal. ring. }
  destruct (Z.ltb_spec (b + n) t).
  { cbn [cast_ext]. rewrite delta_after by lia. do 2 f_equal. ring. }
  rewrite during_eq by lia. reflexivity.
Qed.
End Decay.

Lemma decay_float s e n b ex : 0 < n -> (0 < ex)%Q ->
  exists v : Z -> R,
    (forall t, cdecay_call (mkDecay s n e b ex DFloat) t = Ok (Fin (v t))) /\
    (forall t, t <= b -> v t = Q2R s) /\
    (forall t, b + n <= t -> v t = Q2R e) /\
    (forall t, b <= t < b + n ->
       v t = (Q2R e + (Q2R s - Q2R e) * Rpower (1 - IZR (t - b) / IZR n) (Q2R ex))%R) /\
    (forall t, Rmin (Q2R s) (Q2R e) <= v t <= Rmax (Q2R s) (Q2R e))%R /\
    (forall t1 t2, t1 <= t2 -> (s <= e)%Q -> (v t1 <= v t2)%R) /\
    (forall t1 t2, t1 <= t2 -> (e <= s)%Q -> (v t2 <= v t1)%R).
Proof.
  intros Hn Hex. destruct (call_float s e n b ex Hn Hex) as (v & Hc & Hv). exists v.
  assert (A : forall t, t <= b -> v t = Q2R s).
  { intros t H. rewrite Hv, delta_before by auto. rewrite Q2R_minus. ring. }
  assert (B : forall t, b + n <= t -> v t = Q2R e).
  { intros t H. rewrite Hv, delta_after by auto. ring. }
  assert (U : forall t1 t2, t1 <= t2 -> (s <= e)%Q -> (v t1 <= v t2)%R).
  { intros. rewrite !Hv. apply Rplus_le_compat_l. apply delta_down; auto. }
  assert (D : forall t1 t2, t1 <= t2 -> (e <= s)%Q -> (v t2 <= v t1)%R).
  { intros. rewrite !Hv. apply Rplus_le_compat_l. apply delta_up; auto. }
  split; [exact Hc|]. split; [exact A|]. split; [exact B|].
  split; [intros t H; rewrite Hv, delta_mid by auto; reflexivity|].
  split; [|split; [exact U|exact D]].
  intros t. rewrite <- (A (Z.min t b)) by lia. rewrite <- (B (Z.max t (b + n))) by lia.
  destruct (Qlt_le_dec s e) as [H|H].
  - assert (s <= e)%Q by lra. pose proof (U (Z.min t b) t ltac:(lia) H0).
    pose proof (U t (Z.max t (b + n)) ltac:(lia) H0). rewrite Rmin_left, Rmax_right; lra.
  - pose proof (D (Z.min t b) t ltac:(lia) H).
    pose proof (D t (Z.max t (b + n)) ltac:(lia) H). rewrite Rmin_right, Rmax_left; lra.
Qed.

Lemma Qfloor_int z : Qeq_bool (inject_Z (Qfloor (inject_Z z))) (inject_Z z) = true.
Proof. apply Qeq_bool_iff. rewrite Qfloor_Z. reflexivity. Qed.

Lemma decay_int (s e n b : Z) ex : 0 < n -> (0 < ex)%Q ->
  exists v : Z -> Z,
    (forall t, cdecay_call (mkDecay (inject_Z s) n (inject_Z e) b ex DInt) t = Ok (Fin (IZR (v t)))) /\
    (forall t, t <= b -> v t = s) /\
    (forall t, b + n <= t -> v t = e) /\
    (forall t, Z.min s e <= v t <= Z.max s e) /\
    (forall t1 t2, t1 <= t2 -> s <= e -> v t1 <= v t2) /\
    (forall t1 t2, t1 <= t2 -> e <= s -> v t2 <= v t1) /\
    (forall t, b <= t < b + n ->
       let exact := ((IZR s - IZR e) * Rpower (1 - IZR (t - b) / IZR n) (Q2R ex))%R in
       (Rabs (IZR (v t - e)) <= Rabs exact /\ Rabs (exact - IZR (v t - e)) < 1)%R).
Proof.
  intros Hn Hex.
  set (delta := fun t => (Q2R (inject_Z s - inject_Z e) * rp (prog b (b + n) t) ex)%R).
  exists (fun t => e + truncR (delta t)).
  assert (Qse : Q2R (inject_Z s - inject_Z e) = IZR (s - e)).
  { rewrite Q2R_minus, !Q2R_inject_Z, minus_IZR. reflexivity. }
  assert (A : forall t, t <= b -> e + truncR (delta t) = s).
  { intros t H. unfold delta. rewrite (delta_before (inject_Z s) (inject_Z e) n b ex Hn t H).
    rewrite Qse, truncR_IZR. lia. }
  assert (B : forall t, b + n <= t -> e + truncR (delta t) = e).
  { intros t H. unfold delta. rewrite (delta_after (inject_Z s) (inject_Z e) n b ex Hn t H).
    rewrite truncR_0. lia. }
  assert (U : forall t1 t2, t1 <= t2 -> s <= e -> e + truncR (delta t1) <= e + truncR (delta t2)).
  { intros. apply Zplus_le_compat_l. apply truncR_mono.
    apply (delta_down (inject_Z s) (inject_Z e) n b ex Hn Hex); auto. rewrite <- Zle_Qle. auto. }
  assert (D : forall t1 t2, t1 <= t2 -> e <= s -> e + truncR (delta t2) <= e + truncR (delta t1)).
  { intros. apply Zplus_le_compat_l. apply truncR_mono.
    apply (delta_up (inject_Z s) (inject_Z e) n b ex Hn Hex); auto. rewrite <- Zle_Qle. auto. }
  split.
  { intros t. unfold cdecay_call. cbn [cd_start cd_decay_steps cd_end cd_begin cd_exponent cd_dtype].
    destruct (Z.ltb_spec t b).
    { cbn [cast_ext]. rewrite A by lia. rewrite Q2R_inject_Z, truncR_IZR. reflexivity. }
    destruct (Z.ltb_spec (b + n) t).
    { cbn [cast_ext]. rewrite B by lia. rewrite Q2R_inject_Z, truncR_IZR. reflexivity. }
    rewrite during_eq by (auto; lia). cbv zeta beta iota. rewrite Qfloor_int.
    rewrite Q2R_inject_Z, plus_IZR. reflexivity. }
  split; [exact A|]. split; [exact B|]. split.
  { intros t. destruct (Z.le_ge_cases s e) as [H|H].
    - pose proof (U (Z.min t b) t ltac:(lia) H). rewrite (A (Z.min t b)) in H0 by lia.
      pose proof (U t (Z.max t (b + n)) ltac:(lia) H). rewrite (B (Z.max t (b + n))) in H1 by lia. lia.
    - pose proof (D (Z.min t b) t ltac:(lia) H). rewrite (A (Z.min t b)) in H0 by lia.
      pose proof (D t (Z.max t (b + n)) ltac:(lia) H). rewrite (B (Z.max t (b + n))) in H1 by lia. lia. }
  split; [exact U|]. split; [exact D|].
  intros t H. cbv zeta. replace (e + truncR (delta t) - e) with (truncR (delta t)) by lia.
  assert (E : delta t = ((IZR s - IZR e) * Rpower (1 - IZR (t - b) / IZR n) (Q2R ex))%R).
  { unfold delta. rewrite (delta_mid (inject_Z s) (inject_Z e) n b ex Hn t H). rewrite !Q2R_inject_Z. reflexivity. }
  rewrite <- E. apply truncR_near.
Qed.
