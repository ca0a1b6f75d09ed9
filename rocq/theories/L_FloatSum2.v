(** Sums in float32: the stage. *)
From Coq Require Import Reals Psatz Lia Qreals RMicromega Qabs Qpower Permutation.
From Flocq Require Import Core BinarySingleNaN Relative.
From Verif Require Import Base M_Float32 S_Float32 L_Float32 L_Float32b L_Float32c L_FloatSchedule L_FloatSchedule2 M_FloatQuant S_FloatQuant L_FloatQuant L_FloatQuant2 M_FloatSum S_FloatSum L_FloatSum.
From Coq Require Import Lra.
Open Scope Q_scope.

Notation at_ l i := (nth i l (f_of_int 0)).
(** ** Additions of integers *)
Definition natural (v : f32) : Prop := fin v = true /\ exists k, (0 <= k)%Z /\ val v = IZR k.
Definition rsum (l : list f32) : R := fold_right (fun v a => (val v + a)%R) 0%R l.
Lemma rsum_app l l' : rsum (l ++ l') = (rsum l + rsum l')%R.
Proof. induction l as [|a l IH]; [symmetry; apply Rplus_0_l|]. change (val a + rsum (l ++ l') = val a + rsum l + rsum l')%R. rewrite IH. lra. Qed.
Lemma rsum_perm l l' : Permutation l l' -> rsum l = rsum l'.
Proof.
  intros P. induction P as [|x a b _ IH|x y a|a b c _ IH1 _ IH2]; [reflexivity| | |congruence].
  - change (val x + rsum a = val x + rsum b)%R. now rewrite IH.
  - change (val y + (val x + rsum a) = val x + (val y + rsum a))%R. lra.
Qed.
Lemma rsum_int l : Forall natural l -> exists K, (0 <= K)%Z /\ rsum l = IZR K.
Proof.
  induction 1 as [|v l (F & k & K1 & K2) _ (K & K3 & K4)]; [exists 0%Z; split; [lia|reflexivity]|].
  exists (k + K)%Z. split; [lia|]. change (val v + rsum l = IZR (k + K))%R. rewrite K2, K4, plus_IZR. reflexivity.
Qed.
Lemma added_val l s : added_up l s -> Forall natural l -> (rsum l <= IZR (2 ^ 24))%R -> fin s = true /\ val s = rsum l.
Proof.
  induction 1 as [v|l l1 s1 l2 s2 A1 IH1 A2 IH2 P]; intros F B.
  - destruct (Forall_inv F) as [F1 _]. split; [exact F1|]. symmetry. apply Rplus_0_r.
  - rewrite (rsum_perm _ _ P), rsum_app in *. assert (F' : Forall natural (l1 ++ l2)). { apply Forall_forall. intros x X. rewrite Forall_forall in F. apply F. apply Permutation_in with (1 := Permutation_sym P). exact X. }
    apply Forall_app in F' as [F1 F2]. destruct (rsum_int l1 F1) as (K1 & P1 & E1). destruct (rsum_int l2 F2) as (K2 & P2 & E2).
    rewrite E1, E2 in *. rewrite <- plus_IZR in B. apply le_IZR in B.
    destruct (IH1 F1) as [G1 V1]. { apply IZR_le. lia. } destruct (IH2 F2) as [G2 V2]. { apply IZR_le. lia. }
    pose proof bpow127 as P127. destruct (add_val s1 s2 G1 G2) as [S1 S2].
    { rewrite V1, V2, <- plus_IZR, <- abs_IZR. apply Rle_trans with 4294967296%R; [apply IZR_le; lia|exact P127]. }
    split; [exact S2|]. rewrite S1, V1, V2, <- plus_IZR. apply rnd_int. lia.
Qed.
Lemma total_val l : Q2R (total (map number l)) = rsum l.
Proof. induction l as [|a l IH]; cbn [map total]; [apply zero_R|]. rewrite Q2R_plus, number_val, IH. reflexivity. Qed.
Lemma fold_added l : forall a, added_up (a :: l) (fold_left f_add l a).
Proof.
  enough (G : forall l k s, added_up k s -> added_up (k ++ l) (fold_left f_add l s)) by (intros a; exact (G l [a] a (added_one a))). clear.
  induction l as [|b l IH]; intros k s A; cbn [fold_left]; [rewrite app_nil_r; exact A|].
  assert (E : k ++ b :: l = (k ++ [b]) ++ l) by (rewrite <- app_assoc; reflexivity). rewrite E. apply IH. eapply added_two; [exact A|apply added_one|apply Permutation_refl].
Qed.

Section Clients.
  Variables (bits : nat) (lo hi : f32) (st : bool) (clients : list ((nat -> f32) * list f32)) (d : nat).
  Hypothesis Bits : (1 <= bits <= 16)%nat.
  Hypothesis Count : (1 <= length clients)%nat.
  Hypothesis Fits : (Z.of_nat (length clients) * (2 ^ Z.of_nat bits - 1) <= 2 ^ 24)%Z.
  Hypothesis Ro : room (length clients) lo hi.
  Hypothesis Cl : forall c, In c clients -> (forall i, is_draw (fst c i)) /\ Forall moderate (snd c) /\ length (snd c) = d.
  Notation code c i := (at_ (fst (uqf_encode bits (Some (lo, hi)) st (fst c) (snd c))) i).
  Notation half := (if st then 1%R else (/ 2)%R).
  Let H := val hi.
  Let L := val lo.
  Let M := IZR (mz bits).
  Let N := IZR (Z.of_nat (length clients)).
  Lemma n_bound : (1 <= Z.of_nat (length clients) <= 2 ^ 24)%Z.
  Proof. pose proof (mz_range bits Bits) as Mr. unfold mz in Mr. nia. Qed.
  Lemma room_val : fin lo = true /\ fin hi = true /\ (L <= H)%R /\ (N * (Rabs L + Rabs H) <= bpow radix2 126)%R.
  Proof.
    destruct Ro as (A & B & C & D). apply number_le in C. apply le_R in D. rewrite Q2R_mult, Q2R_plus, !abs_R, !number_val, Q2R_int, Q2R_pow2 in D. tauto.
  Qed.
  Lemma range_moderate : moderate lo /\ moderate hi.
  Proof.
    destruct room_val as (A & B & C & D). pose proof (Rabs_pos L) as P1. pose proof (Rabs_pos H) as P2. assert (N1 : (1 <= N)%R) by (unfold N; apply IZR_le; pose proof n_bound; lia).
    assert (X : (Rabs L + Rabs H <= N * (Rabs L + Rabs H))%R). { pose proof (Rmult_le_compat_r (Rabs L + Rabs H) 1 N ltac:(lra) N1). lra. }
    split; apply moderate_val; split; auto; fold L H; lra.
  Qed.
  Lemma client_code c i : In c clients -> (i < d)%nat ->
    exists k, (0 <= k <= mz bits)%Z /\ val (code c i) = IZR k /\ fin (code c i) = true /\
      (Rabs (IZR k / M * (H - L) - (Q2R (clamp (number lo) (number hi) (number (at_ (snd c) i))) - L)) <= half * ((H - L) / M) + 3.7 * u * (H - L))%R.
  Proof.
    intros Ic Hi. destruct (Cl c Ic) as (D & X & Len). destruct range_moderate as [Ml Mh]. destruct room_val as (Fl & Fh & LH & _).
    assert (Ne : snd c <> []) by (intros E; rewrite E in Len; cbn in Len; lia). assert (G : good_range (Some (lo, hi))) by (split; [exact Ml|split; [exact Mh|now apply number_le]]).
    destruct (entry bits (Some (lo, hi)) st (fst c) (snd c) Bits G D X lo hi i eq_refl eq_refl Ml Mh ltac:(now apply number_le) ltac:(lia)) as (k & K1 & K2 & K3 & K4 & K5 & V1 & V2 & V3).
    exists k. repeat (split; [assumption|]). apply eq_R in V3. rewrite <- V3, number_val. apply moderate_val in Ml as [_ Ml]. apply moderate_val in Mh as [_ Mh].
    set (v := uqf_clip (Some (lo, hi)) (at_ (snd c) i)) in *.
    apply (code_err lo hi v) ; auto; destruct st; try lra; tauto.
  Qed.
  Lemma clients_codes i : (i < d)%nat -> forall cs, incl cs clients ->
    exists K, (0 <= K <= Z.of_nat (length cs) * mz bits)%Z /\ rsum (map (fun c => code c i) cs) = IZR K /\ Forall natural (map (fun c => code c i) cs) /\
      (Rabs (IZR K / M * (H - L) - (Q2R (total (map (fun c => clamp (number lo) (number hi) (number (at_ (snd c) i))) cs)) - IZR (Z.of_nat (length cs)) * L))
        <= IZR (Z.of_nat (length cs)) * (half * ((H - L) / M) + 3.7 * u * (H - L)))%R.
  Proof.
    intros Hi. induction cs as [|c cs IH]; intros I.
    - exists 0%Z. split; [cbn; lia|]. split; [reflexivity|]. split; [constructor|]. cbn [length map total Z.of_nat]. rewrite zero_R. unfold Rdiv. rewrite !Rmult_0_l, Rminus_0_r, Rminus_0_r, Rabs_R0. lra.
    - destruct IH as (K & K1 & K2 & K3 & K4). { intros x X. apply I. now right. } destruct (client_code c i ltac:(apply I; now left) Hi) as (k & k1 & k2 & k3 & k4).
      exists (k + K)%Z. split; [cbn [length]; lia|]. split; [|split].
      + cbn [map rsum fold_right]. change (fold_right _ _ (map _ cs)) with (rsum (map (fun c => code c i) cs)). rewrite k2, K2, plus_IZR. reflexivity.
      + cbn [map]. constructor; [|exact K3]. split; [exact k3|]. exists k. split; [lia|exact k2].
      + cbn [map total]. change (length (c :: cs)) with (1 + length cs)%nat. rewrite Nat2Z.inj_add, !plus_IZR, Q2R_plus. change (IZR (Z.of_nat 1)) with 1%R.
        generalize dependent (Q2R (clamp (number lo) (number hi) (number (at_ (snd c) i)))). intros x1 k4. generalize dependent (Q2R (total (map (fun c => clamp (number lo) (number hi) (number (at_ (snd c) i))) cs))). intros x2 K4. generalize dependent (half * ((H - L) / M) + 3.7 * u * (H - L))%R. intros e K4 k4.
        apply Rabs_le_inv in K4, k4. apply Rabs_le. unfold Rdiv in *. rewrite Rmult_plus_distr_r, Rmult_plus_distr_r. lra.
  Qed.
  (** The codes of a coordinate add up exactly, whatever the order. *)
  Theorem sum_exact i s : (i < d)%nat -> added_up (map (fun c => code c i) clients) s ->
    finite s /\ number s == total (map (fun c => number (code c i)) clients).
  Proof.
    intros Hi A. destruct (clients_codes i Hi clients (incl_refl _)) as (K & K1 & K2 & K3 & _). destruct (added_val _ s A K3) as [F V]. { rewrite K2. apply IZR_le. unfold mz in K1. lia. }
    split; [exact F|]. apply eq_R. rewrite number_val, V, <- total_val, map_map. reflexivity.
  Qed.
  Lemma decode_sum_nth sums : exists ys, uqf_decode_sum bits (Some (lo, hi)) (Some (Z.of_nat (length clients))) (sums, None) = Ok ys /\ length ys = length sums /\
    forall i, (i < length sums)%nat -> at_ ys i = f_add (f_mul (f_div (at_ sums i) (f_max_value bits)) (f_sub hi lo)) (f_mul lo (f_of_int (Z.of_nat (length clients)))).
  Proof.
    set (g := fun q => f_add (f_mul (f_div q (f_max_value bits)) (f_sub hi lo)) (f_mul lo (f_of_int (Z.of_nat (length clients))))). exists (map g sums). split; [reflexivity|]. split; [apply map_length|].
    intros i Hi. rewrite nth_indep with (d' := g (f_of_int 0)) by (rewrite map_length; auto). apply map_nth.
  Qed.
  (** Decoding the sum gives the sum of the (clipped) values, up to a step per client and rounding. *)
  Theorem sum_decoded sums : length sums = d -> (forall i, (i < d)%nat -> added_up (map (fun c => code c i) clients) (at_ sums i)) ->
    exists ys, uqf_decode_sum bits (Some (lo, hi)) (Some (Z.of_nat (length clients))) (sums, None) = Ok ys /\ length ys = d /\
      forall i, (i < d)%nat -> finite (at_ ys i) /\
        Qabs (number (at_ ys i) - total (map (fun c => clamp (number lo) (number hi) (number (at_ (snd c) i))) clients)) <=
          inject_Z (Z.of_nat (length clients)) * ((if st then 1 else 1#2) * step bits lo hi + 3 * eps * (Qabs (number lo) + Qabs (number hi))) + tiny.
  Proof.
    intros Len A. destruct (decode_sum_nth sums) as (ys & D1 & D2 & D3). exists ys. split; [exact D1|]. split; [lia|]. intros i Hi.
    destruct (clients_codes i Hi clients (incl_refl _)) as (K & K1 & K2 & K3 & K4). destruct (added_val _ _ (A i Hi) K3) as [F V]. { rewrite K2. apply IZR_le. unfold mz in K1. lia. }
    destruct room_val as (Fl & Fh & LH & Rm). rewrite K2 in V.
    destruct (sum_decode lo hi (at_ sums i) (Z.of_nat (length clients)) K bits Bits Fl Fh LH n_bound Rm F V K1) as [O1 O2]. rewrite <- D3 in O1, O2 by lia. fold H L M N in O2, K4. split; [exact O1|].
    apply le_R. rewrite abs_R, Q2R_minus, number_val.
    assert (T : Q2R tiny = (4 * tn)%R). { unfold tiny. rewrite Q2R_pow2. unfold tn. change (-148)%Z with (2 + -150)%Z. rewrite bpow_plus. reflexivity. }
    assert (Sb : Q2R (if st then 1 else 1#2) = half) by (destruct st; [apply one_R|apply half_R]).
    assert (Se : Q2R (step bits lo hi) = ((H - L) / M)%R). { unfold step. rewrite Q2R_div, Q2R_minus, !number_val, Q2R_int. reflexivity. unfold Qeq. cbn [inject_Z Qnum Qden]. pose proof (mz_range bits Bits). fold (mz bits). lia. }
    assert (Q3 : Q2R 3 = 3%R) by (unfold Q2R; cbn; lra).
    rewrite Q2R_plus, T, Q2R_mult, Q2R_int, Q2R_plus, !Q2R_mult, Q2R_plus, Sb, Se, !abs_R, !number_val, <- u_eps, Q3. fold N H L.
    generalize dependent (Q2R (total (map (fun c => clamp (number lo) (number hi) (number (at_ (snd c) i))) clients))). intros X K4. generalize dependent (val (at_ ys i)). intros Y O2. fold N H L M in K4.
    pose proof u_pos as U. pose proof (Rabs_pos L) as AL. pose proof (Rabs_pos H) as AH. assert (RA : (H - L <= Rabs L + Rabs H)%R). { pose proof (Rle_abs H). pose proof (Rle_abs (- L)). rewrite Rabs_Ropp in H1. lra. }
    assert (N1 : (1 <= N)%R) by (unfold N; apply IZR_le; pose proof n_bound; lia). assert (NRA : (0 <= N * (H - L) <= N * (Rabs L + Rabs H))%R). { split; [apply Rmult_le_pos; lra|apply Rmult_le_compat_l; lra]. }
    pose proof (Rmult_le_compat_l u _ _ ltac:(lra) (proj2 NRA)) as UN. assert (0 <= u * (N * (Rabs L + Rabs H)))%R by (apply Rmult_le_pos; lra).
    apply Rabs_le_inv in K4, O2. clearbody H L M N. clear Se Sb. generalize dependent ((H - L) / M)%R. intros sp K4. generalize dependent half. intros h K4. 
    rewrite !Rmult_plus_distr_l in *. apply Rabs_le. lra.
  Qed.
End Clients.
