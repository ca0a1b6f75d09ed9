(** The stages that declare that they commute with sums do. *)
From Coq Require Import Reals Lra Psatz.
From Verif Require Import Base M_Tensor L_Tensor M_Bitpack L_Bitpack M_Hadamard S_Hadamard L_Hadamard L_Kashin M_Encoder S_Encoder L_Encoder L_Commute M_Composer M_CommonEncoders S_CommonEncoders.
From Coq Require Import Lra Psatz.
Open Scope R_scope.
Open Scope list_scope.

Section Sum.
Context {I : Type} (is : list I) (NE : is <> []).
Lemma float_sum_map (ts : I -> ten) t : float_sum (map ts is) t <-> exists (xs : I -> tensor R) y, (forall i, In i is -> ts i = F (xs i)) /\ t = F y /\ wf y /\
  (forall i, In i is -> shape (xs i) = shape y /\ wf (xs i)) /\ forall j, (j < prod (shape y))%nat -> nth j (data y) 0 = sumR (map (fun i => nth j (data (xs i)) 0) is).
Proof.
  split.
  - intros (xs & y & E & -> & W & Fx & S). exists (fun i => match ts i with F x => x | _ => mkT [] [] end), y.
    assert (H : forall i, In i is -> exists x, ts i = F x /\ In x xs).
    { intros i Hi. assert (H : In (ts i) (map F xs)) by (rewrite <- E; now apply in_map). apply in_map_iff in H. destruct H as (x & <- & Hx). eauto. }
    split; [|split; [reflexivity|split; [exact W|split]]].
    + intros i Hi. destruct (H i Hi) as (x & -> & _). reflexivity.
    + intros i Hi. destruct (H i Hi) as (x & -> & Hx). rewrite Forall_forall in Fx. now apply Fx.
    + intros j Hj. rewrite (S j Hj). f_equal. clear - E. revert xs E. induction is as [|i r IH]; intros [|x xs] E; try discriminate; [reflexivity|]. cbn [map] in *. injection E as E1 E2. rewrite (IH _ E2), E1. reflexivity.
  - intros (xs & y & E & -> & W & Fx & S). exists (map xs is), y. split; [|split; [reflexivity|split; [exact W|split]]].
    + rewrite map_map. apply map_ext_in. exact E.
    + apply Forall_forall. intros x Hx. apply in_map_iff in Hx. destruct Hx as (i & <- & Hi). auto.
    + intros j Hj. rewrite map_map. auto.
Qed.
Lemma get_key k (ds : I -> dict ten) d : tdsum is float_sum ds d -> (forall i, In i is -> dget k (ds i) <> None) ->
  exists xs y, dget k d = Some (F y) /\ (forall i, In i is -> dget k (ds i) = Some (F (xs i))) /\ wf y /\
    (forall i, In i is -> shape (xs i) = shape y /\ wf (xs i)) /\ forall j, (j < prod (shape y))%nat -> nth j (data y) 0 = sumR (map (fun i => nth j (data (xs i)) 0) is).
Proof.
  intros S H. apply (tdsum_get _ _ k) in S. destruct (dget k d) as [t|].
  - destruct S as (ts & A & B). apply float_sum_map in B. destruct B as (xs & y & B1 & -> & B2). exists xs, y. split; [reflexivity|]. split; [|exact B2].
    intros i Hi. rewrite (A i Hi), (B1 i Hi). reflexivity.
  - destruct is as [|i0 r]; [congruence|]. exfalso. apply (H i0); [now left|]. apply S. now left.
Qed.
Lemma sumR_lin (f : I -> R) a b : sumR (map (fun i => f i / a * b) is) = sumR (map f is) / a * b.
Proof. clear NE. induction is as [|i r IH]; cbn [map sumR]; [unfold Rdiv; ring|]. rewrite IH. unfold Rdiv. ring. Qed.
Lemma sumR_shift (f : I -> R) c : sumR (map (fun i => f i + c) is) = sumR (map f is) + c * IZR (Z.of_nat (List.length is)).
Proof. clear NE. induction is as [|i r IH]; cbn [map sumR List.length]; [cbn; ring|]. rewrite IH, Nat2Z.inj_succ, succ_IZR. ring. Qed.

Lemma commutes_identity : declared_commutation is float_sum identity_stage.
Proof.
  intros _ ds d st sh ys. cbn zeta. cbn [s_decode identity_stage s_params snd]. intros S D.
  destruct (get_key "identity_values" ds d S) as (xs & y & E & Ei & W & Fx & Sx).
  { intros i Hi Z. specialize (D i Hi). unfold dindex in D. rewrite Z in D. discriminate. }
  exists (F y). unfold dindex. rewrite E. split; [reflexivity|]. apply float_sum_map. exists xs, y. split; [|repeat split; auto; apply Fx; auto].
  intros i Hi. specialize (D i Hi). unfold dindex in D. rewrite (Ei i Hi) in D. congruence.
Qed.
Lemma commutes_flatten : declared_commutation is float_sum flatten_stage.
Proof.
  intros _ ds d st sh ys. cbn zeta. cbn [s_decode flatten_stage s_params snd]. intros S D.
  destruct (get_key "flattened_values" ds d S) as (xs & y & E & Ei & W & Fx & Sx).
  { intros i Hi Z. specialize (D i Hi). unfold dindex in D. rewrite Z in D. discriminate. }
  assert (D' : forall i, In i is -> exists s, sh = Some s /\ (prod s =? List.length (data (xs i)))%nat = true /\ ys i = F (mkT s (data (xs i)))).
  { intros i Hi. specialize (D i Hi). unfold dindex in D. rewrite (Ei i Hi) in D. cbn [bind float] in D. destruct sh as [s|]; cbn [need bind] in D; [|discriminate].
    unfold reshape in D. destruct (prod s =? _)%nat eqn:P; cbn [bind] in D; [|discriminate]. injection D as D. exists s. auto. }
  destruct is as [|i0 r] eqn:Ei0; [congruence|]. rewrite <- Ei0 in *. assert (H0 : In i0 is) by (rewrite Ei0; now left).
  destruct (D' i0 H0) as (s & -> & P & _). apply Nat.eqb_eq in P. destruct (Fx i0 H0) as (Sh0 & W0). unfold wf in *.
  unfold dindex. rewrite E. cbn [bind float need]. unfold reshape. rewrite W, <- Sh0, <- W0, P, Nat.eqb_refl. cbn [bind]. eexists. split; [reflexivity|].
  apply float_sum_map. exists (fun i => mkT s (data (xs i))), (mkT s (data y)). cbn [shape data]. split; [|split; [reflexivity|split; [|split]]].
  - intros i Hi. destruct (D' i Hi) as (s' & [= <-] & _ & ->). reflexivity.
  - unfold wf. cbn [shape data]. congruence.
  - intros i Hi. split; [reflexivity|]. unfold wf. cbn [shape data]. destruct (D' i Hi) as (s' & [= <-] & P' & _). apply Nat.eqb_eq in P'. congruence.
  - intros j Hj. apply Sx. congruence.
Qed.
Lemma commutes_uniform bits mm st : declared_commutation is float_sum (uniform_stage bits mm st).
Proof.
  intros C. destruct mm as [[lo hi]|]; [|discriminate]. clear C. intros ds d u sh ys. cbn zeta. cbn [s_decode uniform_stage s_params snd]. unfold uq_decode, uq_params. cbn [p_dict]. intros S D.
  destruct (get_key "quantized_values" ds d S) as (xs & y & E & Ei & W & Fx & Sx).
  { intros i Hi Z. specialize (D i Hi). unfold dindex in D. rewrite Z in D. discriminate. }
  set (m := IZR (2 ^ Z.of_nat bits - 1)) in *.
  assert (D' : forall i, In i is -> ys i = F (tmap (fun v => v / m * (hi - lo) + lo) (xs i))).
  { intros i Hi. specialize (D i Hi). unfold dindex in D. rewrite (Ei i Hi) in D. cbn in D. congruence. }
  unfold dindex. rewrite E. cbn [bind float dget String.eqb Ascii.eqb Bool.eqb nth]. eexists. split; [reflexivity|].
  apply float_sum_map. do 2 eexists. split; [exact D'|]. split; [reflexivity|]. unfold tmap, wf in *. cbn [shape data]. split; [now rewrite map_length|]. split.
  - intros i Hi. destruct (Fx i Hi) as (A & B). rewrite map_length. auto.
  - intros j Hj. set (f := fun v => v / m * (hi - lo) + lo * IZR (Z.of_nat (List.length is))).
    rewrite (nth_indep (map f (data y)) 0 (f 0)) by (rewrite map_length; lia). rewrite map_nth. unfold f. rewrite (Sx j Hj).
    set (g := fun v => v / m * (hi - lo) + lo).
    assert (sumR (map (fun i => nth j (map g (data (xs i))) 0) is) = sumR (map (fun i => nth j (data (xs i)) 0 / m * (hi - lo) + lo) is)) as ->.
    { f_equal. apply map_ext_in. intros i Hi. destruct (Fx i Hi) as (A & B). rewrite (nth_indep (map g (data (xs i))) 0 (g 0)) by (rewrite map_length; congruence). rewrite map_nth. reflexivity. }
    rewrite sumR_shift, sumR_lin. reflexivity.
Qed.
(** Matrices as chunks. *)
Lemma chunks_spec (l : list R) b p : List.length l = (b * p)%nat -> (0 < p)%nat -> exists rows, l = List.concat rows /\ chunks p l = rows /\ is_matrix b p rows.
Proof.
  intros L P. assert (H : exists rows, l = List.concat rows /\ is_matrix b p rows).
  { clear NE. revert l L. induction b as [|b IH]; intros l L.
    - destruct l; [|discriminate]. exists []. split; [reflexivity|split; [reflexivity|constructor]].
    - destruct (IH (skipn p l)) as (rows & E & A & B); [rewrite skipn_length; lia|]. exists (firstn p l :: rows). cbn [List.concat]. rewrite <- E, firstn_skipn. split; [reflexivity|].
      split; [cbn; lia|]. constructor; [rewrite firstn_length; lia|exact B]. }
  destruct H as (rows & E & A & B). exists rows. split; [exact E|]. split; [|split; assumption]. rewrite E. now apply chunks_concat_id.
Qed.
Lemma nth_concat (rows : list (list R)) b p i j : is_matrix b p rows -> (i < b)%nat -> (j < p)%nat -> nth (i * p + j) (List.concat rows) 0 = nth j (nth i rows []) 0.
Proof.
  intros [A B]. revert b i A. induction B as [|r rows Lr _ IH]; intros b i A Hi Hj; cbn in A; [lia|]. destruct i as [|i]; cbn [nth List.concat].
  - rewrite app_nth1 by lia. reflexivity.
  - rewrite app_nth2 by lia. rewrite Lr. replace (S i * p + j - p)%nat with (i * p + j)%nat by lia. destruct b as [|b]; [lia|]. apply (IH b); lia.
Qed.
Lemma concat_len' (rows : list (list R)) b p : is_matrix b p rows -> List.length (List.concat rows) = (b * p)%nat.
Proof. intros [A B]. revert b A. induction B as [|r rows Lr _ IH]; intros b A; cbn in A; subst b; [reflexivity|]. cbn [List.concat]. rewrite app_length, (IH _ eq_refl), Lr. cbn. lia. Qed.
(** What the Hadamard stage decodes. *)
Lemma had_dec_inv u b k dim rows y : is_matrix b (2 ^ k) rows -> (0 < b)%nat -> mapM (decrow u dim) rows = Ok y -> (dim <= 2 ^ k)%nat /\ y = map (decf u dim) rows.
Proof.
  intros [A B] Hb H. destruct rows as [|r rows]; [cbn in A; lia|]. assert (D : (dim <= 2 ^ k)%nat).
  { cbn [mapM] in H. destruct (decrow u dim r) as [z|] eqn:E; cbn [bind] in H; [|discriminate]. unfold decrow in E. destruct (fwht r) as [w|] eqn:Ew; cbn [bind] in E; [|discriminate].
    unfold slice in E. destruct (dim <=? List.length w)%nat eqn:L; cbn [bind] in E; [|discriminate]. apply Nat.leb_le in L. rewrite (fwht_len _ _ Ew) in L. inversion B; congruence. }
  split; [exact D|]. rewrite (mapM_decf u dim k (r :: rows) D B) in H. congruence.
Qed.
Lemma collapse_of sh rows y t : collapse sh rows = Ok y -> of_hinput y = Ok t ->
  data t = List.concat rows /\ ((snd sh = 1%nat /\ exists v, rows = [v] /\ shape t = [List.length v]) \/ (snd sh <> 1%nat /\ shape t = [List.length rows; fst sh])).
Proof.
  unfold collapse. destruct (snd sh =? 1)%nat eqn:E.
  - apply Nat.eqb_eq in E. destruct rows as [|v [|]]; try discriminate. intros [= <-] [= <-]. cbn [data shape List.concat]. rewrite app_nil_r. split; [reflexivity|]. left. eauto.
  - apply Nat.eqb_neq in E. intros [= <-] [= <-]. cbn [data shape]. auto.
Qed.
Lemma commutes_hadamard : declared_commutation is float_sum hadamard_stage.
Proof.
  intros _ ds d u sh ys. cbn zeta. cbn [s_decode hadamard_stage s_params snd p_draws]. intros S D.
  destruct (get_key "hadamard_values" ds d S) as (xs & y & E & Ei & W & Fx & Sx).
  { intros i Hi Z. specialize (D i Hi). unfold dindex in D. rewrite Z in D. discriminate. }
  destruct is as [|i0 r] eqn:Ei0; [congruence|]. rewrite <- Ei0 in *. assert (H0 : In i0 is) by (rewrite Ei0; now left).
  assert (D1 : forall i, In i is -> exists s pd b, sh = Some s /\ shape y = [b; pd] /\ exists z t, hadamard_decode u (chunks pd (data (xs i))) (List.last s O, List.length s) = Ok z /\ of_hinput z = Ok t /\ ys i = F t).
  { intros i Hi. specialize (D i Hi). unfold dindex in D. rewrite (Ei i Hi) in D. cbn [bind float] in D. destruct sh as [s|]; cbn [need bind] in D; [|discriminate].
    destruct (Fx i Hi) as (<- & _). destruct (shape (xs i)) as [|b [|pd [|]]]; try discriminate. exists s, pd, b. split; [reflexivity|]. split; [reflexivity|].
    destruct (hadamard_decode _ _ _) as [z|]; cbn [bind] in D; [|discriminate]. destruct (of_hinput z) as [t|] eqn:Et; cbn [bind] in D; [|discriminate]. injection D as D. exists z, t. auto. }
  destruct (D1 i0 H0) as (s & pd & b & -> & Shy & _).
  assert (D2 : forall i, In i is -> exists z t, hadamard_decode u (chunks pd (data (xs i))) (List.last s O, List.length s) = Ok z /\ of_hinput z = Ok t /\ ys i = F t).
  { intros i Hi. destruct (D1 i Hi) as (s' & pd' & b' & [= <-] & E' & R1). assert (pd' = pd) by congruence. subst pd'. exact R1. }
  clear D D1. set (dim := List.last s O) in *. set (rank := List.length s) in *.
  assert (Lx : forall i, In i is -> List.length (data (xs i)) = (b * pd)%nat).
  { intros i Hi. destruct (Fx i Hi) as (A & B). unfold wf in B. rewrite B, A, Shy. unfold prod. cbn [fold_right]. lia. }
  assert (Lyy : List.length (data y) = (b * pd)%nat) by (unfold wf in W; rewrite W, Shy; unfold prod; cbn [fold_right]; lia).
  assert (PS : forall t : tensor R, shape t = shape y -> prod (shape t) = (b * pd)%nat) by (intros t ->; rewrite Shy; unfold prod; cbn [fold_right]; lia).
  unfold dindex. rewrite E. cbn [bind float need]. rewrite Shy. fold dim rank. unfold hadamard_decode in *. cbn [fst snd] in *.
  change (fun r0 : list R => bind (fwht r0) _) with (decrow u dim) in *.
  destruct (Nat.eq_dec (b * pd) 0) as [Z|NZ].
  - (* no elements *)
    assert (forall l : list R, List.length l = (b * pd)%nat -> chunks pd l = []) as CZ by (intros l Hl; rewrite Z in Hl; destruct l; [reflexivity|discriminate]).
    rewrite (CZ _ Lyy). cbn [mapM bind]. 
    destruct (D2 i0 H0) as (z & t & A & B & _). rewrite (CZ _ (Lx i0 H0)) in A. cbn [mapM bind] in A. rewrite A. cbn [bind]. rewrite B. cbn [bind]. eexists. split; [reflexivity|].
    apply float_sum_map. exists (fun _ => t), t. destruct (collapse_of _ _ _ _ A B) as (Dt & [(_ & v & Ev & _)|(_ & St)]); [discriminate|]. cbn [List.concat List.length fst] in *.
    assert (wf t) by (unfold wf; rewrite Dt, St; reflexivity).
    split; [|split; [reflexivity|split; [assumption|split; [auto|]]]].
    + intros i Hi. destruct (D2 i Hi) as (z' & t' & A' & B' & ->). rewrite (CZ _ (Lx i Hi)) in A'. cbn [mapM bind] in A'. congruence.
    + intros j Hj. rewrite St in Hj. unfold prod in Hj. cbn in Hj. lia.
  - assert (Pb : (0 < b)%nat) by nia. assert (Pp : (0 < pd)%nat) by nia.
    destruct (chunks_spec (data y) b pd Lyy Pp) as (Y & EY & CY & MY).
    set (X := fun i => chunks pd (data (xs i))). assert (MX : forall i, In i is -> data (xs i) = List.concat (X i) /\ is_matrix b pd (X i)).
    { intros i Hi. destruct (chunks_spec (data (xs i)) b pd (Lx i Hi) Pp) as (rows & A & B & C). unfold X. rewrite B. auto. }
    assert (K : exists k, pd = (2 ^ k)%nat).
    { destruct (D2 i0 H0) as (z & t & A & _). fold (X i0) in A. destruct (MX i0 H0) as (_ & [LX FX]). destruct (X i0) as [|r0 rr]; [cbn in LX; lia|].
      cbn [mapM] in A. destruct (decrow u dim r0) as [w|] eqn:Ew; cbn [bind] in A; [|discriminate]. unfold decrow in Ew. destruct (fwht r0) as [w'|] eqn:Ew'; cbn [bind] in Ew; [|discriminate].
      destruct (proj1 (fwht_ok_iff r0) (ex_intro _ _ Ew')) as (k & Hk). exists k. inversion FX; congruence. }
    destruct K as (k & ->).
    assert (D3 : forall i, In i is -> (dim <= 2 ^ k)%nat /\ exists z t, collapse (dim, rank) (map (decf u dim) (X i)) = Ok z /\ of_hinput z = Ok t /\ ys i = F t).
    { intros i Hi. destruct (D2 i Hi) as (z & t & A & B & C). fold (X i) in A. destruct (mapM (decrow u dim) (X i)) as [w|] eqn:Ew; cbn [bind] in A; [|discriminate].
      destruct (MX i Hi) as (_ & M). destruct (had_dec_inv u b k dim (X i) w M Pb Ew) as (Dm & ->). split; [exact Dm|]. exists z, t. auto. }
    assert (Dm : (dim <= 2 ^ k)%nat) by (apply (D3 i0 H0)).
    rewrite CY. rewrite (mapM_decf u dim k Y Dm (proj2 MY)). cbn [bind].
    assert (MD : forall M, is_matrix b (2 ^ k) M -> is_matrix b dim (map (decf u dim) M)).
    { intros M [A B]. split; [now rewrite map_length|]. apply Forall_map. eapply Forall_impl; [|exact B]. intros r0 Lr. apply (decf_spec u dim k r0 Lr Dm). }
    assert (ND : forall M i, is_matrix b (2 ^ k) M -> (i < b)%nat -> nth i (map (decf u dim) M) [] = decf u dim (nth i M []) /\ List.length (nth i M []) = (2 ^ k)%nat).
    { intros M i [A B] Hi. split.
      - rewrite (nth_indep _ [] (decf u dim [])) by (rewrite map_length; lia). apply map_nth.
      - rewrite Forall_forall in B. apply B. apply nth_In. lia. }
    assert (SUM : forall i j, (i < b)%nat -> (j < dim)%nat -> nth (i * dim + j) (List.concat (map (decf u dim) Y)) 0 = sumR (map (fun n => nth (i * dim + j) (List.concat (map (decf u dim) (X n))) 0) is)).
    { intros i j Hi Hj. rewrite (nth_concat _ b dim i j (MD Y MY) Hi Hj). destruct (ND Y i MY Hi) as (-> & Lr). destruct (decf_spec u dim k _ Lr Dm) as (_ & _ & ->); [|exact Hj].
      rewrite (had_ext k _ (fun t => sumR (map (fun n => nth t (nth i (X n) []) 0) is)) j) ; [|lia|].
      2:{ intros t Ht. rewrite <- (nth_concat Y b (2 ^ k) i t MY Hi Ht), <- EY. rewrite Sx by (rewrite (PS y eq_refl); nia). f_equal. apply map_ext_in. intros n Hn. destruct (MX n Hn) as (-> & M). apply (nth_concat _ b (2 ^ k)); auto. }
      rewrite (had_sum k (fun n t => nth t (nth i (X n) []) 0)) by lia. unfold Rdiv. rewrite Rmult_assoc, <- sumR_mul. f_equal. apply map_ext_in. intros n Hn.
      destruct (MX n Hn) as (_ & M). rewrite (nth_concat _ b dim i j (MD _ M) Hi Hj). destruct (ND _ i M Hi) as (-> & Le). destruct (decf_spec u dim k _ Le Dm) as (_ & _ & ->); [|exact Hj]. unfold Rdiv. ring. }
    assert (OUT : forall M z t, is_matrix b (2 ^ k) M -> collapse (dim, rank) (map (decf u dim) M) = Ok z -> of_hinput z = Ok t ->
       wf t /\ data t = List.concat (map (decf u dim) M) /\ shape t = if (rank =? 1)%nat then [dim] else [b; dim]).
    { intros M z t Mm A B. destruct (collapse_of _ _ _ _ A B) as (Dt & C). cbn [fst snd] in C. destruct (MD M Mm) as (L1 & L2).
      assert (SH : shape t = (if (rank =? 1)%nat then [dim] else [b; dim]) /\ (rank = 1%nat -> b = 1%nat)).
      { destruct C as [(Rk & v & Ev & ->)|(Rk & ->)].
        - rewrite Rk. cbn [Nat.eqb]. rewrite Ev in L1, L2. cbn in L1. inversion L2 as [|? ? Lv _]. split; [congruence|auto].
        - destruct (rank =? 1)%nat eqn:Eq; [apply Nat.eqb_eq in Eq; congruence|]. rewrite L1. split; [reflexivity|congruence]. }
      destruct SH as (SH & RB). split; [|split; [exact Dt|exact SH]]. unfold wf. rewrite Dt, (concat_len' _ b dim (MD M Mm)), SH. destruct (rank =? 1)%nat eqn:Eq; unfold prod; cbn [fold_right]; [|lia].
      apply Nat.eqb_eq in Eq. rewrite (RB Eq). lia. }
    destruct (D3 i0 H0) as (_ & z0 & t0 & C0 & O0 & Y0).
    assert (CYs : exists z t, collapse (dim, rank) (map (decf u dim) Y) = Ok z /\ of_hinput z = Ok t).
    { unfold collapse in *. cbn [snd fst] in *. destruct (rank =? 1)%nat.
      - destruct (MX i0 H0) as (_ & LX & _). destruct MY as (LY & _). rewrite <- LY in LX. clear - C0 LX. destruct (X i0) as [|a [|]], Y as [|c [|]]; try discriminate; try (cbn in LX; lia). do 2 eexists. split; reflexivity.
      - eexists. eexists. split; [reflexivity|]. reflexivity. }
    destruct CYs as (z & t & Cz & Ot). rewrite Cz. cbn [bind]. rewrite Ot. cbn [bind]. eexists. split; [reflexivity|]. apply float_sum_map.
    destruct (OUT Y z t MY Cz Ot) as (Wt & Dt & St).
    exists (fun i => match ys i with F t => t | _ => t0 end), t. split; [|split; [reflexivity|split; [exact Wt|split]]].
    + intros i Hi. destruct (D3 i Hi) as (_ & zi & ti & _ & _ & ->). reflexivity.
    + intros i Hi. destruct (D3 i Hi) as (_ & zi & ti & Ci & Oi & ->). destruct (MX i Hi) as (_ & M). destruct (OUT _ _ _ M Ci Oi) as (Wi & _ & Si). split; [congruence|exact Wi].
    + intros j Hj. unfold wf in Wt. rewrite <- Wt, Dt, (concat_len' _ b dim (MD Y MY)) in Hj. rewrite Dt.
      assert (Dp : (0 < dim)%nat) by nia. pose proof (Nat.div_mod j dim ltac:(lia)) as DM. pose proof (Nat.mod_upper_bound j dim ltac:(lia)).
      assert (j / dim < b)%nat by (apply Nat.div_lt_upper_bound; lia). rewrite DM, (Nat.mul_comm dim). rewrite SUM by assumption. f_equal. apply map_ext_in. intros i Hi.
      destruct (D3 i Hi) as (_ & zi & ti & Ci & Oi & ->). destruct (MX i Hi) as (_ & M). destruct (OUT _ _ _ M Ci Oi) as (_ & -> & _). reflexivity.
Qed.
Theorem kinds_commute k : declared_commutation is float_sum (to_stage k).
Proof.
  destruct k as [| | |b mm st|b s]; cbn [to_stage]; [apply commutes_identity|apply commutes_flatten|apply commutes_hadamard|apply commutes_uniform|intros C; discriminate].
Qed.
End Sum.
