From Coq Require Import Reals.
From Flocq Require Import Core BinarySingleNaN.
From Verif Require Import Base M_Float32 S_Float32 M_FloatCluster L_Float32 L_FloatSchedule L_FloatQuant.
From Coq Require Import Lra Psatz Lia.
Open Scope R_scope.

Lemma abs_val x : val (f_abs x) = Rabs (val x) /\ fin (f_abs x) = fin x.
Proof. split; [apply B2R_Babs|apply is_finite_Babs]. Qed.
Lemma dist_val w c : fin w = true -> fin c = true -> Rabs (val w) <= bpow radix2 126 -> Rabs (val c) <= bpow radix2 126 ->
  val (f_abs (f_sub w c)) = Rabs (rnd (val w - val c)) /\ fin (f_abs (f_sub w c)) = true.
Proof.
  intros A B C D. destruct (sub_val w c A B) as [E F].
  { replace (bpow radix2 127) with (bpow radix2 126 + bpow radix2 126) by (change (bpow radix2 127) with (bpow radix2 (126 + 1)); rewrite bpow_plus_1; cbn; lra).
    pose proof (Rabs_triang (val w) (- val c)). rewrite Rabs_Ropp in H. unfold Rminus. lra. }
  destruct (abs_val (f_sub w c)) as [G H]. rewrite G, H, E, F. auto.
Qed.
Lemma argmin_from_ok l : forall best besti i all, fin best = true -> Forall (fun x => fin x = true) l ->
  nth_error all besti = Some best -> (forall k, nth_error l k = nth_error all (i + k)) -> (besti < i)%nat ->
  exists b, nth_error all (argmin_from_f best besti i l) = Some b /\ fin b = true /\ val b <= val best /\ forall x, In x l -> val b <= val x.
Proof.
  induction l as [|a l IH]; intros best besti i all F1 F2 N K LT; cbn [argmin_from_f].
  - exists best. split; [auto|]. split; [auto|]. split; [lra|]. intros x [].
  - inversion F2 as [|? ? Fa Fl]; subst. rewrite Bltb_correct by auto.
    assert (K' : forall k, nth_error l k = nth_error all (S i + k)) by (intros k; specialize (K (S k)); cbn in K; rewrite K; f_equal; lia).
    destruct (Rlt_bool_spec (val a) (val best)).
    + destruct (IH a i (S i) all Fa Fl) as (b & B1 & B2 & B3 & B4); auto.
      { specialize (K 0%nat). cbn in K. rewrite Nat.add_0_r in K. now symmetry. }
      exists b. split; [auto|]. split; [auto|]. split; [lra|]. intros x [<- | IN]; auto.
    + destruct (IH best besti (S i) all F1 Fl) as (b & B1 & B2 & B3 & B4); auto.
      exists b. split; [auto|]. split; [auto|]. split; [lra|]. intros x [<- | IN]; auto. lra.
Qed.
Lemma argmin_ok l : l <> [] -> Forall (fun x => fin x = true) l -> exists b, nth_error l (argmin_f l) = Some b /\ fin b = true /\ forall x, In x l -> val b <= val x.
Proof.
  intros N F. destruct l as [|a l]; [easy|]. inversion F as [|? ? Fa Fl]; subst. cbn [argmin_f].
  destruct (argmin_from_ok l a 0 1 (a :: l)) as (b & B1 & B2 & B3 & B4); auto.
  exists b. split; [auto|]. split; [auto|]. intros x [<- | IN]; auto.
Qed.
(** The sign of the sum is exact: rounding does not move a nonzero sum to 0. *)
Lemma sum_pos x y : fmt x -> fmt y -> 0 < x + y -> 0 < rnd (x + y).
Proof. intros A B H. destruct (sum_rel x y A B) as (d & D & E). rewrite E. apply Rabs_le_inv in D. pose proof (uro). unfold u in D. nra. Qed.
Lemma million : val (f_of_int 1000000) = 1000000 /\ fin (f_of_int 1000000) = true. Proof. apply (of_int_exact 1000000). cbn. lia. Qed.
Lemma zero_val : val (f_of_int 0) = 0 /\ fin (f_of_int 0) = true. Proof. apply (of_int_exact 0). cbn. lia. Qed.
Lemma one_val : val (f_of_int 1) = 1 /\ fin (f_of_int 1) = true. Proof. apply (of_int_exact 1). cbn. lia. Qed.
Lemma add_gradient_val c w : fin c = true -> Rabs (val c) <= bpow radix2 126 -> fin w = true -> Rabs (val w) <= bpow radix2 126 -> - 1000000 < val w ->
  val (add_gradient_f c w) = val c /\ fin (add_gradient_f c w) = true.
Proof.
  intros A B C D H. unfold add_gradient_f, f_sign. destruct million as [M1 M2]. destruct zero_val as [Z1 Z2]. destruct one_val as [O1 O2].
  assert (P : 1000000 <= bpow radix2 20). { change (bpow radix2 20) with 1048576. lra. }
  assert (P20 : bpow radix2 20 <= bpow radix2 126) by (apply bpow_le; lia).
  destruct (add_val w (f_of_int 1000000) C M2) as [E F].
  { rewrite M1. replace (bpow radix2 127) with (bpow radix2 126 + bpow radix2 126) by (change (bpow radix2 127) with (bpow radix2 (126 + 1)); rewrite bpow_plus_1; cbn; lra).
    apply Rabs_le. apply Rabs_le_inv in D. lra. }
  rewrite Bltb_correct by auto. rewrite Z1, E. rewrite Rlt_bool_true.
  2:{ apply sum_pos; [apply val_fmt|apply val_fmt|]. rewrite M1. lra. }
  destruct (mul_val c (f_of_int 1) A O2) as [G I].
  { rewrite O1, Rmult_1_r. apply Rle_trans with (bpow radix2 126); auto. apply bpow_le. lia. }
  rewrite G, I, O1, Rmult_1_r, rnd_val. auto.
Qed.
Definition modR (x : f32) : Prop := fin x = true /\ Rabs (val x) <= bpow radix2 126.
(** The value used for a weight is that of a centroid at least rounded distance. *)
Lemma cluster_val cs w : cs <> [] -> Forall modR cs -> modR w -> - 1000000 < val w -> let v := add_gradient_f (nth (pulling_index_f cs w) cs (f_of_int 0)) w in
  fin v = true /\ exists c, In c cs /\ val v = val c /\ forall c', In c' cs -> Rabs (rnd (val w - val c)) <= Rabs (rnd (val w - val c')).
Proof.
  intros N F [W1 W2] H v. rewrite Forall_forall in F.
  destruct (argmin_ok (map (fun c => f_abs (f_sub w c)) cs)) as (b & B1 & B2 & B3).
  { destruct cs; [easy|discriminate]. }
  { apply Forall_forall. intros x IN. apply in_map_iff in IN. destruct IN as (c & <- & IN). destruct (F c IN). now apply dist_val. }
  fold (pulling_index_f cs w) in B1. rewrite nth_error_map in B1. destruct (nth_error cs (pulling_index_f cs w)) as [c|] eqn:E; [|discriminate].
  injection B1 as <-. pose proof (nth_error_In _ _ E) as IN. destruct (F c IN) as [C1 C2].
  unfold v. rewrite (nth_error_nth _ _ _ E). destruct (add_gradient_val c w C1 C2 W1 W2 H) as [V1 V2]. split; auto.
  exists c. split; auto. split; auto. intros c' IN'. destruct (F c' IN') as [C1' C2'].
  rewrite <- (proj1 (dist_val w c W1 C1 W2 C2)), <- (proj1 (dist_val w c' W1 C1' W2 C2')). apply B3. apply in_map_iff. now exists c'.
Qed.
Lemma dist_rel w c : exists d, Rabs d <= u /\ Rabs (rnd (val w - val c)) = Rabs (val w - val c) * (1 + d).
Proof.
  destruct (diff_rel (val w) (val c) (val_fmt w) (val_fmt c)) as (d & D & E). exists d. split; auto. rewrite E, Rabs_mult. f_equal.
  apply Rabs_pos_eq. apply Rabs_le_inv in D. unfold u in D. lra.
Qed.
Lemma nearer w c c' : Rabs (rnd (val w - val c)) <= Rabs (rnd (val w - val c')) -> Rabs (val w - val c) <= Rabs (val w - val c') * (1 + 4 * u).
Proof.
  intros H. destruct (dist_rel w c) as (d & D & E). destruct (dist_rel w c') as (d' & D' & E'). rewrite E, E' in H.
  apply Rabs_le_inv in D. apply Rabs_le_inv in D'. pose proof (Rabs_pos (val w - val c)) as P. pose proof (Rabs_pos (val w - val c')) as P'.
  set (a := Rabs (val w - val c)) in *. set (b := Rabs (val w - val c')) in *. clearbody a b. unfold u in *. nra.
Qed.
