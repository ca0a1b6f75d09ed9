(** Lemmas about fake quantization. *)
From Verif Require Import Base M_Num L_Num M_Tensor M_Stages L_Stages M_Quant S_Quant.
Open Scope Q_scope.

Lemma pow_ge4 bits : (2 <= bits)%nat -> (4 <= 2 ^ Z.of_nat bits)%Z.
Proof. intros H. change 4%Z with (2 ^ 2)%Z. apply Z.pow_le_mono_r; lia. Qed.
Definition NN (bits : nat) (narrow : bool) : Z := (levels bits narrow - 1)%Z.
Lemma NN_pos bits narrow : (2 <= bits)%nat -> (2 <= NN bits narrow)%Z.
Proof. intros H. apply pow_ge4 in H. unfold NN, levels. destruct narrow; lia. Qed.
Lemma fq_diff bits narrow : fq_max bits - fq_min narrow == inject_Z (NN bits narrow).
Proof.
  unfold fq_max, fq_min, NN, levels. destruct narrow.
  - change 1 with (inject_Z 1). rewrite <- inject_Z_minus || idtac. unfold Qminus. rewrite <- inject_Z_opp, <- inject_Z_plus. apply inject_Z_injective. lia.
  - change 0 with (inject_Z 0). unfold Qminus. rewrite <- inject_Z_opp, <- inject_Z_plus. apply inject_Z_injective. lia.
Qed.
Lemma fq_min_Z narrow : fq_min narrow = inject_Z (if narrow then 1 else 0).
Proof. destruct narrow; reflexivity. Qed.
Lemma fq_max_Z bits narrow : fq_max bits = inject_Z (NN bits narrow + (if narrow then 1 else 0))%Z.
Proof. unfold fq_max, NN, levels. f_equal. destruct narrow; lia. Qed.
Lemma floor_half z : Qfloor (inject_Z z + (1#2)) = z.
Proof. apply Qfloor_unique; lra. Qed.
Lemma scale_eq bits narrow lo hi : fq_scale bits narrow lo hi == (hi - lo) / inject_Z (NN bits narrow).
Proof. unfold fq_scale. rewrite fq_diff. reflexivity. Qed.
Lemma div_pos_lt a b : 0 < a -> 0 < b -> 0 < a / b.
Proof. intros A B. apply Qlt_shift_div_l; lra. Qed.
Lemma injN_pos bits narrow : (2 <= bits)%nat -> 0 < inject_Z (NN bits narrow).
Proof. intros H. apply NN_pos with (narrow := narrow) in H. change 0 with (inject_Z 0). apply inj_lt. lia. Qed.
Lemma scale_pos bits narrow lo hi : (2 <= bits)%nat -> lo < hi -> 0 < fq_scale bits narrow lo hi.
Proof. intros B L. rewrite scale_eq. apply div_pos_lt; [lra|now apply injN_pos]. Qed.

Lemma fq_form bits narrow lo hi : (2 <= bits)%nat -> lo <= 0 <= hi -> lo < hi ->
  let s := fq_scale bits narrow lo hi in
  exists z : Z, (0 <= z <= NN bits narrow)%Z /\ Qabs (- inject_Z z * s - lo) <= (1#2) * s /\
    fq_nmin bits narrow lo hi == - inject_Z z * s /\ fq_nmax bits narrow lo hi == (inject_Z (NN bits narrow) - inject_Z z) * s /\
    forall x, fake_quant bits narrow lo hi x ==
      inject_Z (Qfloor (qmax (qmin x (fq_nmax bits narrow lo hi)) (fq_nmin bits narrow lo hi) / s + (1#2))) * s.
Proof.
  intros B [L0 H0] LH s. pose proof (scale_pos bits narrow lo hi B LH) as Sp. fold s in Sp.
  pose proof (injN_pos bits narrow B) as Np. pose proof (scale_eq bits narrow lo hi) as Se. fold s in Se.
  set (N := NN bits narrow) in *. set (m := (if narrow then 1 else 0)%Z).
  assert (hi - lo == inject_Z N * s) as W. { rewrite Se. field. lra. }
  set (t := - lo / s).
  assert (t * s == - lo) as Tt. { unfold t. field. lra. }
  assert (0 <= t) as T0. { unfold t. apply Qle_shift_div_l; [auto|lra]. }
  assert (t <= inject_Z N) as TN. { unfold t. apply Qle_shift_div_r; [auto|lra]. }
  assert (exists z, (0 <= z <= N)%Z /\ Qabs (inject_Z z - t) <= 1#2 /\ fq_zero_point bits narrow lo hi == inject_Z (z + m)) as (z & Zr & Zt & Zp).
  { exists (Qfloor (t + (1#2))). pose proof (floor_bounds (t + (1#2))) as [F1 F2]. split; [|split].
    - split.
      + assert (0 <= Qfloor (t + (1#2)))%Z; [|lia]. apply inj_lt_succ. change (inject_Z 0) with 0. lra.
      + apply inj_lt_succ. apply Qlt_le_trans with (inject_Z (Qfloor (t + (1 # 2))) + (1#2)); [lra|]. lra.
    - apply Qabs_case; intros; lra.
    - unfold fq_zero_point. fold s. set (zz := fq_min narrow - lo / s).
      assert (zz == inject_Z m + t) as Ez. { unfold zz, t. rewrite fq_min_Z. fold m. field. lra. }
      assert (fq_max bits = inject_Z (N + m)) as Em by apply fq_max_Z.
      destruct (qltb zz (fq_min narrow)) eqn:C1.
      { exfalso. apply qltb_iff in C1. rewrite fq_min_Z in C1. fold m in C1. lra. }
      destruct (qltb (fq_max bits) zz) eqn:C2.
      { exfalso. apply qltb_iff in C2. rewrite Em, inject_Z_plus in C2. lra. }
      apply inject_Z_injective. unfold std_round.
      assert (0 <= inject_Z m) as M0. { change 0 with (inject_Z 0). apply inj_le. unfold m; destruct narrow; lia. }
      assert (Qle_bool 0 zz = true) as -> by (apply Qle_bool_iff; lra).
      apply Qfloor_unique; rewrite inject_Z_plus; lra. }
  exists z. split; [auto|]. split.
  - assert (- inject_Z z * s - lo == (t - inject_Z z) * s) as -> by lra. rewrite Qabs_Qmult, (Qabs_pos s) by lra.
    apply Qmult_le_compat_r; [|lra]. rewrite Qabs_Qminus. exact Zt.
  - assert (fq_nmin bits narrow lo hi == - inject_Z z * s) as En.
    { unfold fq_nmin. fold s. rewrite Zp, fq_min_Z, inject_Z_plus. fold m. ring. }
    assert (fq_nmax bits narrow lo hi == (inject_Z N - inject_Z z) * s) as Ex.
    { unfold fq_nmax. fold s. rewrite Zp, (fq_max_Z bits narrow). fold N m. rewrite !inject_Z_plus. ring. }
    split; [exact En|]. split; [exact Ex|]. intros x. unfold fake_quant.
    assert ((Qeq_bool lo 0 && Qeq_bool hi 0)%bool = false) as ->.
    { destruct (Qeq_bool lo 0) eqn:E1; [|reflexivity]. destruct (Qeq_bool hi 0) eqn:E2; [|reflexivity]. apply Qeq_bool_iff in E1, E2. exfalso; lra. }
    fold s. set (c := qmax _ _).
    assert (Qfloor (- fq_nmin bits narrow lo hi / s + (1#2)) = z) as ->.
    { transitivity (Qfloor (inject_Z z + (1#2))); [|apply floor_half]. apply Qfloor_compat. rewrite En. field. lra. }
    apply Qmult_comp; [|reflexivity]. apply inject_Z_injective. apply Qfloor_compat. rewrite En. field. lra.
Qed.

Lemma floor_mono a b : a <= b -> (Qfloor a <= Qfloor b)%Z.
Proof. apply Qfloor_resp_le. Qed.
Lemma div_le a b s : 0 < s -> a <= b -> a / s <= b / s.
Proof. intros S L. apply Qle_shift_div_l; [auto|]. assert (a / s * s == a) as -> by (field; lra). exact L. Qed.

Section Fq.
Context (bits : nat) (narrow : bool) (lo hi : Q) (Hb : (2 <= bits)%nat) (H0 : lo <= 0 <= hi) (Hlt : lo < hi).
Let fq := fake_quant bits narrow lo hi.

Theorem fq_main : exists step nlo nhi, step == (hi - lo) / inject_Z (levels bits narrow - 1) /\ 0 < step /\
  nlo <= 0 <= nhi /\ nhi - nlo == step * inject_Z (levels bits narrow - 1) /\ Qabs (nlo - lo) <= (1#2) * step /\ Qabs (nhi - hi) <= (1#2) * step /\
  (forall x, exists i, (0 <= i < levels bits narrow)%Z /\ fq x == nlo + inject_Z i * step) /\
  fq 0 == 0 /\
  (forall x y, x <= y -> fq x <= fq y) /\
  (forall x, nlo <= x <= nhi -> Qabs (fq x - x) <= (1#2) * step) /\
  (forall x, x <= nlo -> fq x == nlo) /\ (forall x, nhi <= x -> fq x == nhi) /\
  (forall x, fq (fq x) == fq x).
Proof.
  destruct (fq_form bits narrow lo hi Hb H0 Hlt) as (z & Zr & Zs & En & Ex & F).
  pose proof (scale_pos bits narrow lo hi Hb Hlt) as Sp. pose proof (scale_eq bits narrow lo hi) as Se. pose proof (injN_pos bits narrow Hb) as Np.
  set (s := fq_scale bits narrow lo hi) in *. set (N := NN bits narrow) in *.
  set (nlo := fq_nmin bits narrow lo hi) in *. set (nhi := fq_nmax bits narrow lo hi) in *.
  assert (hi - lo == inject_Z N * s) as W. { rewrite Se. field. lra. }
  assert (0 <= inject_Z z) as z0 by (change 0 with (inject_Z 0); apply inj_le; lia).
  assert (inject_Z z <= inject_Z N) as zN by (apply inj_le; lia).
  assert (nlo <= 0) as Nl. { rewrite En. assert (0 <= inject_Z z * s) by (apply Qmult_le_0_compat; lra). lra. }
  assert (0 <= nhi) as Nh. { rewrite Ex. apply Qmult_le_0_compat; lra. }
  assert (nhi - nlo == s * inject_Z N) as Wd by (rewrite En, Ex; ring).
  assert (nlo < nhi) as Nlt. { assert (0 < s * inject_Z N) by (apply Qmult_lt_0_compat; lra). lra. }
  set (c := fun x => qmax (qmin x nhi) nlo).
  assert (forall x, nlo <= c x <= nhi) as Cr.
  { intros x. unfold c. destruct (qmin_spec x nhi) as [[? ->]|[? ->]]; destruct (qmax_spec x nlo) as [[? E]|[? E]]; destruct (qmax_spec nhi nlo) as [[? E']|[? E']]; rewrite ?E, ?E'; split; lra. }
  assert (forall x, nlo <= x <= nhi -> c x == x) as Cid.
  { intros x [A B]. unfold c. destruct (qmin_spec x nhi) as [[? ->]|[? ->]]; [|lra]. destruct (qmax_spec x nlo) as [[? ->]|[? ->]]; lra. }
  assert (forall x y, x <= y -> c x <= c y) as Cm.
  { intros x y L. unfold c. destruct (qmin_spec x nhi) as [[? ->]|[? ->]]; destruct (qmin_spec y nhi) as [[? ->]|[? ->]];
    match goal with |- qmax ?a ?b <= qmax ?d ?e => destruct (qmax_spec a b) as [[? EE1]|[? EE1]]; destruct (qmax_spec d e) as [[? EE2]|[? EE2]]; rewrite ?EE1, ?EE2 end; lra. }
  set (k := fun x => Qfloor (c x / s + (1#2))).
  assert (forall x, fq x == inject_Z (k x) * s) as Fk by exact F.
  assert (forall j, Qfloor (inject_Z j * s / s + (1#2)) = j) as Kint.
  { intros j. transitivity (Qfloor (inject_Z j + (1#2))); [|apply floor_half]. apply Qfloor_compat. field. lra. }
  assert (forall x, (- z <= k x <= N - z)%Z) as Kr.
  { intros x. destruct (Cr x) as [A B]. unfold k. split.
    - rewrite <- (Kint (- z)%Z). apply floor_mono. apply Qplus_le_l. apply div_le; [auto|]. rewrite inject_Z_opp. lra.
    - rewrite <- (Kint (N - z)%Z). apply floor_mono. apply Qplus_le_l. apply div_le; [auto|]. unfold Zminus. rewrite inject_Z_plus, inject_Z_opp. lra. }
  assert (forall x j, c x == inject_Z j * s -> k x = j) as Kc.
  { intros x j E. unfold k. rewrite <- (Kint j). apply Qfloor_compat. rewrite E. reflexivity. }
  assert (forall j, (- z <= j <= N - z)%Z -> nlo <= inject_Z j * s <= nhi) as Jr.
  { intros j [A B]. rewrite En, Ex. split.
    - rewrite <- inject_Z_opp. apply Qmult_le_compat_r; [apply inj_le; lia|lra].
    - apply Qmult_le_compat_r; [|lra]. apply inj_le in B. unfold Zminus in B. rewrite inject_Z_plus, inject_Z_opp in B. exact B. }
  exists s, nlo, nhi. replace (levels bits narrow - 1)%Z with N by reflexivity. split; [exact Se|]. split; [auto|]. split; [auto|]. split; [exact Wd|].
  split; [|split]; [| |split; [|split; [|split; [|split; [|split; [|split]]]]]].
  - assert (nlo - lo == - inject_Z z * s - lo) as -> by lra. exact Zs.
  - assert (nhi - hi == - inject_Z z * s - lo) as -> by lra. exact Zs.
  - intros x. exists (k x + z)%Z. split; [specialize (Kr x); unfold N, NN in Kr; lia|]. rewrite Fk, En, inject_Z_plus. ring.
  - rewrite Fk. rewrite (Kc 0 0%Z); [ring|]. rewrite Cid by lra. ring.
  - intros x y L. rewrite !Fk. apply Qmult_le_compat_r; [|lra]. apply inj_le. apply floor_mono. apply Qplus_le_l. apply div_le; auto.
  - intros x R. rewrite Fk. pose proof (floor_bounds (c x / s + (1#2))) as [A B]. fold (k x) in A, B. rewrite (Cid x R) in A, B.
    assert (inject_Z (k x) * s - x == (inject_Z (k x) - x / s) * s) as -> by (field; lra). rewrite Qabs_Qmult, (Qabs_pos s) by lra.
    apply Qmult_le_compat_r; [|lra]. apply Qabs_case; intros; lra.
  - intros x L. rewrite Fk. rewrite (Kc x (- z)%Z); [rewrite En, inject_Z_opp; reflexivity|]. rewrite inject_Z_opp, <- En.
    unfold c. destruct (qmin_spec x nhi) as [[? ->]|[? ->]]; [|lra]. destruct (qmax_spec x nlo) as [[? ->]|[? ->]]; lra.
  - intros x L. assert (inject_Z (N - z) == inject_Z N - inject_Z z) as EN by (unfold Zminus; rewrite inject_Z_plus, inject_Z_opp; reflexivity).
    rewrite Fk. rewrite (Kc x (N - z)%Z); [rewrite Ex, EN; reflexivity|]. rewrite EN, <- Ex.
    unfold c. destruct (qmin_spec x nhi) as [[? ->]|[? ->]]; [|destruct (qmax_spec nhi nlo) as [[? ->]|[? ->]]; lra]. destruct (qmax_spec x nlo) as [[? ->]|[? ->]]; lra.
  - intros x. rewrite (Fk (fq x)). rewrite (Kc (fq x) (k x)); [symmetry; apply Fk|]. rewrite <- Fk. apply Cid. rewrite Fk. apply Jr. apply Kr.
Qed.
End Fq.
Lemma fq_zero_range bits narrow x lo hi : lo == 0 -> hi == 0 -> fake_quant bits narrow lo hi x = 0.
Proof. intros A B. unfold fake_quant. apply Qeq_bool_iff in A, B. now rewrite A, B. Qed.

(** Ranges that do not contain zero: the zero point saturates, so the range is shifted until it touches zero. *)
Lemma fq_scale_shift bits narrow lo hi lo' hi' : hi - lo == hi' - lo' -> fq_scale bits narrow lo hi == fq_scale bits narrow lo' hi'.
Proof. intros H. unfold fq_scale. rewrite H. reflexivity. Qed.
Lemma fq_same_params bits narrow lo hi lo' hi' x : (Qeq_bool lo 0 && Qeq_bool hi 0 = false)%bool -> (Qeq_bool lo' 0 && Qeq_bool hi' 0 = false)%bool ->
  fq_scale bits narrow lo hi == fq_scale bits narrow lo' hi' -> fq_zero_point bits narrow lo hi == fq_zero_point bits narrow lo' hi' ->
  fake_quant bits narrow lo hi x == fake_quant bits narrow lo' hi' x.
Proof.
  intros N N' S Z. unfold fake_quant. rewrite N, N'.
  assert (fq_nmin bits narrow lo hi == fq_nmin bits narrow lo' hi') as Em by (unfold fq_nmin; rewrite S, Z; reflexivity).
  assert (fq_nmax bits narrow lo hi == fq_nmax bits narrow lo' hi') as Ex by (unfold fq_nmax; rewrite S, Z; reflexivity).
  set (a := qmax (qmin x (fq_nmax bits narrow lo hi)) (fq_nmin bits narrow lo hi)).
  set (b := qmax (qmin x (fq_nmax bits narrow lo' hi')) (fq_nmin bits narrow lo' hi')).
  assert (a == b) as Ab.
  { unfold a, b. destruct (qmin_spec x (fq_nmax bits narrow lo hi)) as [[? ->]|[? ->]]; destruct (qmin_spec x (fq_nmax bits narrow lo' hi')) as [[? ->]|[? ->]];
    match goal with |- qmax ?a ?b == qmax ?d ?e => destruct (qmax_spec a b) as [[? EE1]|[? EE1]]; destruct (qmax_spec d e) as [[? EE2]|[? EE2]]; rewrite ?EE1, ?EE2 end; lra. }
  apply Qmult_comp; [|exact S]. apply inject_Z_injective. apply Qfloor_compat. clearbody a b.
  assert (forall n n' s s', n == n' -> s == s' -> Qfloor (- n / s + (1#2)) = Qfloor (- n' / s' + (1#2))) as H.
  { intros n n' s s' E1 E2. apply Qfloor_compat. rewrite E1, E2. reflexivity. }
  rewrite (H _ _ _ _ Em S). assert (forall n n' s s', n == n' -> s == s' -> (a - n) / s == (b - n') / s') as H2.
  { intros n n' s s' E1 E2. rewrite E1, E2, Ab. reflexivity. }
  rewrite (H2 _ _ _ _ Em S). reflexivity.
Qed.
Lemma fq_one_sided bits narrow lo hi x : (2 <= bits)%nat -> lo < hi ->
  (0 < lo -> fake_quant bits narrow lo hi x == fake_quant bits narrow 0 (hi - lo) x) /\
  (hi < 0 -> fake_quant bits narrow lo hi x == fake_quant bits narrow (lo - hi) 0 x).
Proof.
  intros B L. pose proof (scale_pos bits narrow lo hi B L) as Sp.
  assert (forall a b, a < b -> (Qeq_bool a 0 && Qeq_bool b 0 = false)%bool) as Nz.
  { intros a b H. destruct (Qeq_bool a 0) eqn:E1; [|reflexivity]. destruct (Qeq_bool b 0) eqn:E2; [|reflexivity]. apply Qeq_bool_iff in E1, E2. exfalso; lra. }
  pose proof (fq_diff bits narrow) as D. pose proof (injN_pos bits narrow B) as Np.
  split; intros P.
  - assert (fq_scale bits narrow lo hi == fq_scale bits narrow 0 (hi - lo)) as S by (apply fq_scale_shift; lra).
    apply fq_same_params; [now apply Nz|apply Nz; lra|exact S|].
    unfold fq_zero_point. set (s := fq_scale bits narrow lo hi) in *.
    assert (0 < lo / s) as Q1 by (apply div_pos_lt; auto).
    assert (qltb (fq_min narrow - lo / s) (fq_min narrow) = true) as -> by (apply qltb_iff; lra).
    assert (0 / fq_scale bits narrow 0 (hi - lo) == 0) as Z0 by (unfold Qdiv; ring).
    set (zz := fq_min narrow - 0 / fq_scale bits narrow 0 (hi - lo)). assert (zz == fq_min narrow) as Ez by (unfold zz; lra).
    destruct (qltb zz (fq_min narrow)) eqn:C1; [reflexivity|].
    destruct (qltb (fq_max bits) zz) eqn:C2; [exfalso; apply qltb_iff in C2; lra|].
    rewrite fq_min_Z in *. apply inject_Z_injective. unfold std_round.
    assert (Qle_bool 0 zz = true) as ->. { apply Qle_bool_iff. rewrite Ez. change 0 with (inject_Z 0). apply inj_le. destruct narrow; lia. }
    transitivity (Qfloor (inject_Z (if narrow then 1 else 0) + (1#2))); [symmetry; apply floor_half|]. apply Qfloor_compat. lra.
  - assert (fq_scale bits narrow lo hi == fq_scale bits narrow (lo - hi) 0) as S by (apply fq_scale_shift; lra).
    apply fq_same_params; [now apply Nz|apply Nz; lra|exact S|].
    unfold fq_zero_point. set (s := fq_scale bits narrow lo hi) in *.
    assert (hi - lo == inject_Z (NN bits narrow) * s) as W. { unfold s. rewrite (scale_eq bits narrow lo hi). field. lra. }
    assert (lo / s == - inject_Z (NN bits narrow) + hi / s) as E1. { assert (lo == hi - inject_Z (NN bits narrow) * s) as -> by lra. field. lra. }
    assert (hi / s < 0) as Q1. { apply Qlt_shift_div_r; lra. }
    set (z1 := fq_min narrow - lo / s). assert (fq_max bits < z1) as G by (unfold z1; lra).
    assert (qltb z1 (fq_min narrow) = false) as ->. { destruct (qltb z1 (fq_min narrow)) eqn:C; [|reflexivity]. apply qltb_iff in C. lra. }
    assert (qltb (fq_max bits) z1 = true) as -> by (now apply qltb_iff).
    set (zz := fq_min narrow - (lo - hi) / fq_scale bits narrow (lo - hi) 0).
    assert (zz == fq_max bits) as Ez. { unfold zz. rewrite <- S. assert (lo - hi == - inject_Z (NN bits narrow) * s) as -> by lra. assert (- inject_Z (NN bits narrow) * s / s == - inject_Z (NN bits narrow)) by (field; lra). lra. }
    destruct (qltb zz (fq_min narrow)) eqn:C1; [exfalso; apply qltb_iff in C1; lra|].
    destruct (qltb (fq_max bits) zz) eqn:C2; [reflexivity|].
    unfold std_round. assert (fq_max bits = inject_Z (2 ^ Z.of_nat bits - 1)) as Em by reflexivity.
    pose proof (pow_ge4 bits B) as P4.
    assert (Qle_bool 0 zz = true) as ->. { apply Qle_bool_iff. rewrite Ez, Em. change 0 with (inject_Z 0). apply inj_le. lia. }
    rewrite Em. apply inject_Z_injective. transitivity (Qfloor (inject_Z (2 ^ Z.of_nat bits - 1) + (1#2))); [symmetry; apply floor_half|]. apply Qfloor_compat. rewrite Ez, Em. reflexivity.
Qed.
Lemma fixed_one_sided init_min init_max narrow x y : FixedQuantize init_min init_max narrow x = Ok y ->
  exists lo hi, lo <= 0 <= hi /\ hi - lo == init_max - init_min /\ lo < hi /\
    (init_min <= 0 <= init_max -> lo == init_min /\ hi == init_max) /\ (0 < init_min -> lo == 0) /\ (init_max < 0 -> hi == 0) /\
    shape y = shape x /\ Forall2 (fun v u => u == fake_quant 8 narrow lo hi v) (data x) (data y).
Proof.
  unfold FixedQuantize. destruct (qltb init_min init_max) eqn:C; [|discriminate]. intros [= <-]. apply qltb_iff in C.
  assert (forall f g, (forall v, f v == g v) -> Forall2 (fun v u => u == g v) (data x) (data (tmap f x))) as F2.
  { intros f g H. unfold tmap. cbn [data]. induction (data x); cbn; constructor; auto. }
  destruct (Qlt_le_dec 0 init_min) as [P|P]; [|destruct (Qlt_le_dec init_max 0) as [P'|P']].
  - exists 0, (init_max - init_min). repeat split; try lra; auto. apply F2. intros v. apply fq_one_sided; auto; lia.
  - exists (init_min - init_max), 0. repeat split; try lra; auto. apply F2. intros v. apply fq_one_sided; auto; lia.
  - exists init_min, init_max. repeat split; try lra; auto. apply F2. reflexivity.
Qed.
