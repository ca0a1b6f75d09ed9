From Verif Require Import Base M_Tensor M_Bitpack.
Open Scope Z_scope.

(** ** chunks *)
Lemma chunks_fuel_concat {A} (n : nat) (rs : list (list A)) : (0 < n)%nat -> Forall (fun r => length r = n) rs ->
  forall fuel, (length rs <= fuel)%nat -> chunks_fuel fuel n (concat rs) = rs.
Proof.
  intros Hn F. induction F as [|r rs Hr F IH]; intros fuel Hf; cbn [concat].
  - destruct fuel; auto.
  - cbn [length] in Hf. destruct fuel as [|fuel]; [lia|]. cbn [chunks_fuel].
    destruct (r ++ concat rs) eqn:E.
    + apply app_eq_nil in E as [-> _]. cbn in Hr. lia.
    + rewrite <- E, <- Hr, firstn_app, Nat.sub_diag, firstn_all, firstn_O, app_nil_r.
      rewrite skipn_app, skipn_all, Nat.sub_diag. cbn [skipn app]. rewrite Hr, IH by lia. auto.
Qed.
Lemma concat_len {A} n (rs : list (list A)) : Forall (fun r => length r = n) rs -> length (concat rs) = (length rs * n)%nat.
Proof. induction 1; cbn; auto. rewrite app_length. lia. Qed.
Lemma chunks_concat_id {A} n (rs : list (list A)) : (0 < n)%nat -> Forall (fun r => length r = n) rs -> chunks n (concat rs) = rs.
Proof.
  intros Hn F. unfold chunks. apply chunks_fuel_concat; auto. rewrite (concat_len n) by auto. nia.
Qed.
Lemma split_rows {A} (n q : nat) : forall (l : list A), length l = (q * n)%nat ->
  exists rs, l = concat rs /\ length rs = q /\ Forall (fun r => length r = n) rs.
Proof.
  induction q as [|q IH]; intros l H.
  - destruct l; [|discriminate]. exists []. auto.
  - destruct (IH (skipn n l)) as (rs & E & L & F). { rewrite skipn_length. lia. }
    exists (firstn n l :: rs). cbn [concat length]. rewrite <- E, firstn_skipn. repeat split; auto.
    constructor; auto. rewrite firstn_length. lia.
Qed.

Lemma extra_spec n len : (0 < n)%nat -> exists q, (len + extra n len = q * n)%nat.
Proof.
  intros Hn. unfold extra. pose proof (Nat.div_mod len n). pose proof (Nat.mod_upper_bound len n).
  destruct (Nat.eq_dec (len mod n) 0) as [E|E].
  - exists (len / n)%nat. rewrite E, Nat.sub_0_r, Nat.mod_same by lia. lia.
  - exists (S (len / n))%nat. rewrite (Nat.mod_small (n - len mod n)) by lia. nia.
Qed.
Lemma extra_lt n len : (0 < n)%nat -> (extra n len < n)%nat.
Proof. intros. unfold extra. apply Nat.mod_upper_bound. lia. Qed.
Lemma extra_mult n q : (0 < n)%nat -> extra n (q * n) = 0%nat.
Proof. intros. unfold extra. rewrite Nat.mod_mul by lia. rewrite Nat.sub_0_r. apply Nat.mod_same. lia. Qed.
Lemma extra_sub m q k : (k < m)%nat -> (0 < q \/ k = 0)%nat -> extra m (q * m - k) = k.
Proof.
  intros Hk Hq. destruct k as [|k]; [rewrite Nat.sub_0_r; apply extra_mult; lia|].
  destruct Hq as [Hq|]; [|discriminate]. unfold extra.
  replace (q * m - S k)%nat with ((m - S k) + (q - 1) * m)%nat by nia.
  rewrite Nat.mod_add by lia. rewrite (Nat.mod_small (m - S k)) by lia.
  rewrite Nat.mod_small; lia.
Qed.

(** the rows of a padded value *)
Lemma rows_spec n l : (0 < n)%nat -> Forall (fun r => length r = n) (rows n l) /\
  concat (rows n l) = l ++ repeat 0 (extra n (length l)).
Proof.
  intros Hn. unfold rows. destruct (extra_spec n (length l) Hn) as (q & E).
  destruct (split_rows n q (l ++ repeat 0 (extra n (length l)))) as (rs & E2 & L & F).
  { rewrite app_length, repeat_length. auto. }
  rewrite E2, chunks_concat_id by auto. auto.
Qed.
Lemma rows_bound n l (P : Z -> Prop) : (0 < n)%nat -> P 0 -> Forall P l -> Forall (Forall P) (rows n l).
Proof.
  intros Hn H0 HP. destruct (rows_spec n l Hn) as [_ E].
  assert (Forall P (concat (rows n l))) as F.
  { rewrite E. apply Forall_app. split; auto. apply Forall_forall. intros x Hx. apply repeat_spec in Hx. subst. auto. }
  clear E. induction (rows n l); constructor; cbn in F; apply Forall_app in F as [A B]; auto.
Qed.
Lemma rows_last n l : (0 < n)%nat -> (0 < extra n (length l))%nat ->
  exists rs a, rows n l = rs ++ [a ++ repeat 0 (extra n (length l))] /\ length a = (n - extra n (length l))%nat.
Proof.
  intros Hn He. destruct (rows_spec n l Hn) as [F E]. set (e := extra n (length l)) in *.
  assert (Hlt : (e < n)%nat) by (apply extra_lt; auto).
  destruct (exists_last (l := rows n l)) as (l0 & r0 & R).
  - intros R. rewrite R in E. cbn in E. symmetry in E. apply app_eq_nil in E as [_ E]. destruct e; [lia|discriminate].
  - rewrite R in *. exists l0. rewrite concat_app in E. cbn [concat] in E. rewrite app_nil_r in E.
    apply Forall_app in F as [_ F]. inversion F as [|? ? Hr _]; subst.
    exists (firstn (length r0 - e) r0). split; [|rewrite firstn_length; lia].
    f_equal. f_equal. rewrite <- (firstn_skipn (length r0 - e) r0) at 1. f_equal.
    assert (skipn (length l) (l ++ repeat 0 e) = repeat 0 e) as H.
    { rewrite skipn_app, skipn_all, Nat.sub_diag. auto. }
    rewrite <- E in H. rewrite skipn_app in H.
    assert (length (concat l0) + length r0 = length l + e)%nat as LL.
    { rewrite <- (app_length (concat l0)), E, app_length, repeat_length. auto. }
    rewrite skipn_all2 in H by lia. cbn [app] in H. rewrite <- H. f_equal. lia.
Qed.

Lemma flat_map_len {A B} (f : A -> list B) m l : (forall a, length (f a) = m) -> length (flat_map f l) = (length l * m)%nat.
Proof. intros H. induction l; cbn; auto. rewrite app_length, H. lia. Qed.
Lemma flat_map_concat_map' {A B} (f : A -> list B) l : flat_map f l = concat (map f l).
Proof. induction l; cbn; congruence. Qed.

(** generic round trip for the row-wise packers *)
Section RoundTrip.
  Variables (n m : nat) (P U : list Z -> list Z) (bound : Z).
  Hypothesis Hn : (0 < n)%nat.
  Hypothesis Hm : (0 < m)%nat.
  Hypothesis Hb : 0 < bound.
  Hypothesis PL : forall r, length (P r) = m.
  Hypothesis UL : forall r, length (U r) = n.
  Hypothesis UP : forall r, length r = n -> Forall (fun x => 0 <= x < bound) r -> U (P r) = r.

  Lemma map_UP l : Forall (fun x => 0 <= x < bound) l ->
    flat_map U (map P (rows n l)) = l ++ repeat 0 (extra n (length l)).
  Proof.
    intros HB. destruct (rows_spec n l Hn) as [F E]. rewrite <- E.
    assert (Forall (Forall (fun x => 0 <= x < bound)) (rows n l)) as FB by (apply rows_bound; auto; lia).
    clear E. induction (rows n l) as [|r rs IH]; auto. inversion F; inversion FB; subst. cbn. rewrite IH, UP; auto.
  Qed.

  Lemma rows_packed l k : (k < m)%nat ->
    ((0 < k)%nat -> exists rs r, rows n l = rs ++ [r] /\ skipn (m - k)%nat (P r) = repeat 0 k) ->
    rows m (drop_last k (flat_map P (rows n l))) = map P (rows n l).
  Proof.
    intros Hk HZ. set (X := flat_map P (rows n l)).
    assert (LX : length X = (length (rows n l) * m)%nat) by (apply flat_map_len; auto).
    assert (EX : drop_last k X ++ repeat 0 k = X).
    { destruct (Nat.eq_dec k 0) as [->|Nk].
      - unfold drop_last. rewrite Nat.sub_0_r, firstn_all. cbn. apply app_nil_r.
      - destruct HZ as (rs & r & ER & SK); [lia|]. unfold drop_last.
        transitivity (firstn (length X - k) X ++ skipn (length X - k) X); [f_equal|apply firstn_skipn].
        unfold X. rewrite ER, flat_map_app. cbn [flat_map]. rewrite app_nil_r.
        rewrite skipn_app, app_length, PL. rewrite skipn_all2 by lia. cbn [app].
        rewrite <- SK. f_equal. lia. }
    unfold rows at 1. assert (LD : length (drop_last k X) = (length (rows n l) * m - k)%nat).
    { unfold drop_last. rewrite firstn_length. lia. }
    rewrite LD, extra_sub; auto.
    - rewrite EX. unfold X. rewrite flat_map_concat_map'. apply chunks_concat_id; auto.
      apply Forall_map. apply Forall_forall. auto.
    - destruct (Nat.eq_dec k 0); [auto|]. left. destruct HZ as (rs & r & -> & _); [lia|]. rewrite app_length. cbn. lia.
  Qed.

  Lemma roundtrip l k shape : (k < m)%nat ->
    ((0 < k)%nat -> exists rs r, rows n l = rs ++ [r] /\ skipn (m - k)%nat (P r) = repeat 0 k) ->
    Forall (fun x => 0 <= x < bound) l -> prod shape = length l ->
    unpack_rows m U (drop_last k (flat_map P (rows n l))) shape = Ok (mkT shape l).
  Proof.
    intros Hk HZ HB HS. unfold unpack_rows. rewrite rows_packed by auto. rewrite map_UP by auto.
    unfold slice_to. rewrite app_length, HS. destruct (Nat.leb_spec (length l) (length l + length (repeat 0 (extra n (length l))))); [|lia].
    cbn [bind]. rewrite firstn_app, Nat.sub_diag, firstn_all, firstn_O, app_nil_r. unfold reshape_to.
    rewrite HS, Nat.eqb_refl. auto.
  Qed.
End RoundTrip.

Lemma drop_last_0 l : drop_last 0 l = l.
Proof. unfold drop_last. rewrite Nat.sub_0_r. apply firstn_all. Qed.

Ltac destr_row r H := repeat (destruct r as [|? r]; [discriminate H|]); destruct r; [|discriminate H]; clear H.
Ltac inv_bounds := repeat match goal with
  | H : Forall _ (_ :: _) |- _ => inversion H; subst; clear H
  | H : Forall _ [] |- _ => clear H end.
Ltac consts := repeat match goal with |- context [2 ^ ?k] => let v := eval compute in (2 ^ k) in change (2 ^ k) with v end.

Lemma UP6 r : length r = 14%nat -> Forall (fun x => 0 <= x < 2^6) r -> unpack_row_6 (pack_row_6 r) = r.
Proof.
  intros H B. destr_row r H. change (2^6) with 64 in B. inv_bounds.
  unfold unpack_row_6, pack_row_6, md, g. cbn [nth]. consts.
  repeat (apply (f_equal2 cons); [Z.div_mod_to_equations; lia|]). reflexivity.
Qed.
Lemma UP7 r : length r = 4%nat -> Forall (fun x => 0 <= x < 2^7) r -> unpack_row_7 (pack_row_7 r) = r.
Proof.
  intros H B. destr_row r H. change (2^7) with 128 in B. inv_bounds.
  unfold unpack_row_7, pack_row_7, md, g. cbn [nth]. consts.
  repeat (apply (f_equal2 cons); [Z.div_mod_to_equations; lia|]). reflexivity.
Qed.
Lemma UP8 r : length r = 7%nat -> Forall (fun x => 0 <= x < 2^8) r -> unpack_row_8 (pack_row_8 r) = r.
Proof.
  intros H B. destr_row r H. change (2^8) with 256 in B. inv_bounds.
  unfold unpack_row_8, pack_row_8, md, g. cbn [nth]. consts.
  repeat (apply (f_equal2 cons); [Z.div_mod_to_equations; lia|]). reflexivity.
Qed.
Lemma UP12 r : length r = 7%nat -> Forall (fun x => 0 <= x < 2^12) r -> unpack_row_12 (pack_row_12 r) = r.
Proof.
  intros H B. destr_row r H. change (2^12) with 4096 in B. inv_bounds.
  unfold unpack_row_12, pack_row_12, md, g. cbn [nth]. consts.
  repeat (apply (f_equal2 cons); [Z.div_mod_to_equations; lia|]). reflexivity.
Qed.

Lemma mem_nat_In x l : mem_nat x l = true <-> In x l.
Proof.
  unfold mem_nat. rewrite existsb_exists. split; [intros (y & H & E); apply Nat.eqb_eq in E; congruence|].
  intros H. exists x. split; auto. apply Nat.eqb_refl.
Qed.
Lemma mem_nat_nIn x l : mem_nat x l = false <-> ~ In x l.
Proof. rewrite <- mem_nat_In. destruct (mem_nat x l); split; congruence. Qed.
Lemma nth_pad (a : list Z) e i : (length a <= i)%nat -> nth i (a ++ repeat 0 e) 0 = 0.
Proof.
  intros H. rewrite app_nth2 by auto. destruct (Nat.lt_ge_cases (i - length a) e).
  - apply nth_repeat.
  - apply nth_overflow. rewrite repeat_length. auto.
Qed.

Definition ub (b : nat) (l : list Z) : Prop := Forall (fun x => 0 <= x < 2 ^ Z.of_nat b) l.

(** the specialised packers are row packing followed by dropping some trailing integers *)
Lemma pack6_form static l : exists k, (k < 3)%nat /\ pack_6_28 static l = drop_last k (flat_map pack_row_6 (rows 14 l)) /\
  ((0 < k)%nat -> exists rs r, rows 14 l = rs ++ [r] /\ skipn (3 - k)%nat (pack_row_6 r) = repeat 0 k) /\
  (static = true -> (length (rows 14 l) * 3 - k = (6 * length l + 27) / 28)%nat).
Proof.
  unfold pack_6_28. set (e := extra 14 (length l)).
  assert (He : (e < 14)%nat) by (apply extra_lt; lia).
  assert (HC : (length (rows 14 l) * 14 = length l + e)%nat).
  { destruct (rows_spec 14 l) as [F E]; [lia|]. rewrite <- (concat_len 14) by auto. rewrite E, app_length, repeat_length. auto. }
  assert (HL : (0 < e)%nat -> exists rs a, rows 14 l = rs ++ [a ++ repeat 0 e] /\ length a = (14 - e)%nat)
    by (intros; apply rows_last; auto; lia).
  clearbody e.
  assert (CNT : forall k, (28 * (length (rows 14 l) * 3 - k) <= 6 * length l + 27 < 28 * (length (rows 14 l) * 3 - k) + 28)%nat ->
     (length (rows 14 l) * 3 - k = (6 * length l + 27) / 28)%nat).
  { intros k K. apply Nat.div_unique with (6 * length l + 27 - 28 * (length (rows 14 l) * 3 - k))%nat; lia. }
  destruct (static && mem_nat e [5;6;7;8;9]%nat)%bool eqn:E1.
  - apply andb_prop in E1 as [-> E1]. exists 1%nat. split; [lia|].
    assert (5 <= e <= 9)%nat.
    { apply mem_nat_In in E1. cbn in E1. lia. }
    replace (mem_nat e [10;11;12;13]%nat) with false by (symmetry; apply mem_nat_nIn; cbn; lia).
    cbn [andb]. split; auto. split.
    + intros _. destruct HL as (rs & a & R & La); [lia|]. exists rs, (a ++ repeat 0 e). split; auto.
      cbn [pack_row_6 skipn Nat.sub repeat]. unfold g. rewrite !(nth_pad a e) by lia. reflexivity.
    + intros _. apply CNT. lia.
  - destruct (static && mem_nat e [10;11;12;13]%nat)%bool eqn:E2.
    + apply andb_prop in E2 as [-> E2]. exists 2%nat. split; [lia|].
      assert (10 <= e <= 13)%nat.
      { apply mem_nat_In in E2. cbn in E2. lia. }
      split; auto. split.
      * intros _. destruct HL as (rs & a & R & La); [lia|]. exists rs, (a ++ repeat 0 e). split; auto.
        cbn [pack_row_6 skipn Nat.sub repeat]. unfold g. rewrite !(nth_pad a e) by lia. reflexivity.
      * intros _. apply CNT. lia.
    + exists 0%nat. rewrite drop_last_0. split; [lia|]. split; auto. split; [lia|]. intros ->.
      cbn [andb] in E1, E2. apply mem_nat_nIn in E1. apply mem_nat_nIn in E2. apply CNT. cbn in E1, E2. lia.
Qed.
Lemma pack8_form static l : exists k, (k < 2)%nat /\ pack_8_28 static l = drop_last k (flat_map pack_row_8 (rows 7 l)) /\
  ((0 < k)%nat -> exists rs r, rows 7 l = rs ++ [r] /\ skipn (2 - k)%nat (pack_row_8 r) = repeat 0 k) /\
  (static = true -> (length (rows 7 l) * 2 - k = (8 * length l + 27) / 28)%nat).
Proof.
  unfold pack_8_28. set (e := extra 7 (length l)).
  assert (He : (e < 7)%nat) by (apply extra_lt; lia).
  assert (HC : (length (rows 7 l) * 7 = length l + e)%nat).
  { destruct (rows_spec 7 l) as [F E]; [lia|]. rewrite <- (concat_len 7) by auto. rewrite E, app_length, repeat_length. auto. }
  assert (HL : (0 < e)%nat -> exists rs a, rows 7 l = rs ++ [a ++ repeat 0 e] /\ length a = (7 - e)%nat)
    by (intros; apply rows_last; auto; lia).
  clearbody e.
  assert (CNT : forall k, (28 * (length (rows 7 l) * 2 - k) <= 8 * length l + 27 < 28 * (length (rows 7 l) * 2 - k) + 28)%nat ->
     (length (rows 7 l) * 2 - k = (8 * length l + 27) / 28)%nat).
  { intros k K. apply Nat.div_unique with (8 * length l + 27 - 28 * (length (rows 7 l) * 2 - k))%nat; lia. }
  destruct (static && mem_nat e [4;5;6]%nat)%bool eqn:E1.
  - apply andb_prop in E1 as [-> E1]. exists 1%nat. split; [lia|].
    assert (4 <= e <= 6)%nat.
    { apply mem_nat_In in E1. cbn in E1. lia. }
    split; auto. split.
    + intros _. destruct HL as (rs & a & R & La); [lia|]. exists rs, (a ++ repeat 0 e). split; auto.
      cbn [pack_row_8 skipn Nat.sub repeat]. unfold g. rewrite !(nth_pad a e) by lia. reflexivity.
    + intros _. apply CNT. lia.
  - exists 0%nat. rewrite drop_last_0. split; [lia|]. split; auto. split; [lia|]. intros ->.
    cbn [andb] in E1. apply mem_nat_nIn in E1. apply CNT. cbn in E1. lia.
Qed.
Lemma pack12_form static l : exists k, (k < 3)%nat /\ pack_12_28 static l = drop_last k (flat_map pack_row_12 (rows 7 l)) /\
  ((0 < k)%nat -> exists rs r, rows 7 l = rs ++ [r] /\ skipn (3 - k)%nat (pack_row_12 r) = repeat 0 k) /\
  (static = true -> (length (rows 7 l) * 3 - k = (12 * length l + 27) / 28)%nat).
Proof.
  unfold pack_12_28. set (e := extra 7 (length l)).
  assert (He : (e < 7)%nat) by (apply extra_lt; lia).
  assert (HC : (length (rows 7 l) * 7 = length l + e)%nat).
  { destruct (rows_spec 7 l) as [F E]; [lia|]. rewrite <- (concat_len 7) by auto. rewrite E, app_length, repeat_length. auto. }
  assert (HL : (0 < e)%nat -> exists rs a, rows 7 l = rs ++ [a ++ repeat 0 e] /\ length a = (7 - e)%nat)
    by (intros; apply rows_last; auto; lia).
  clearbody e.
  assert (CNT : forall k, (28 * (length (rows 7 l) * 3 - k) <= 12 * length l + 27 < 28 * (length (rows 7 l) * 3 - k) + 28)%nat ->
     (length (rows 7 l) * 3 - k = (12 * length l + 27) / 28)%nat).
  { intros k K. apply Nat.div_unique with (12 * length l + 27 - 28 * (length (rows 7 l) * 3 - k))%nat; lia. }
  destruct (static && mem_nat e [3;4]%nat)%bool eqn:E1.
  - apply andb_prop in E1 as [-> E1]. exists 1%nat. split; [lia|].
    assert (3 <= e <= 4)%nat.
    { apply mem_nat_In in E1. cbn in E1. lia. }
    replace (mem_nat e [5;6]%nat) with false by (symmetry; apply mem_nat_nIn; cbn; lia).
    cbn [andb]. split; auto. split.
    + intros _. destruct HL as (rs & a & R & La); [lia|]. exists rs, (a ++ repeat 0 e). split; auto.
      cbn [pack_row_12 skipn Nat.sub repeat]. unfold g. rewrite !(nth_pad a e) by lia. reflexivity.
    + intros _. apply CNT. lia.
  - destruct (static && mem_nat e [5;6]%nat)%bool eqn:E2.
    + apply andb_prop in E2 as [-> E2]. exists 2%nat. split; [lia|].
      assert (5 <= e <= 6)%nat.
      { apply mem_nat_In in E2. cbn in E2. lia. }
      split; auto. split.
      * intros _. destruct HL as (rs & a & R & La); [lia|]. exists rs, (a ++ repeat 0 e). split; auto.
        cbn [pack_row_12 skipn Nat.sub repeat]. unfold g. rewrite !(nth_pad a e) by lia. reflexivity.
      * intros _. apply CNT. lia.
    + exists 0%nat. rewrite drop_last_0. split; [lia|]. split; auto. split; [lia|]. intros ->.
      cbn [andb] in E1, E2. apply mem_nat_nIn in E1. apply mem_nat_nIn in E2. apply CNT. cbn in E1, E2. lia.
Qed.

(** ** binary form *)
Definition bitsZ (v : Z) (b : nat) : list Z := map (fun i => (v / 2 ^ Z.of_nat i) mod 2) (seq 0 b).
Lemma bitsZ_S v b : bitsZ v (S b) = (v mod 2) :: bitsZ (v / 2) b.
Proof.
  unfold bitsZ. cbn [seq map]. f_equal. { rewrite Z.div_1_r. auto. }
  rewrite <- seq_shift, map_map. apply map_ext. intros i. f_equal.
  rewrite Nat2Z.inj_succ, Z.pow_succ_r, <- Z.div_div by lia. auto.
Qed.
Lemma dot2_scale w bits : dot2 w bits = w * dot2 1 bits.
Proof.
  revert w. induction bits as [|b r IH]; intros w; cbn [dot2]; [lia|]. rewrite (IH (2*w)), (IH (2*1)). lia.
Qed.
Lemma dot2_bits b : forall v, dot2 1 (bitsZ v b) = v mod 2 ^ Z.of_nat b.
Proof.
  induction b as [|b IH]; intros v.
  - cbn. rewrite Z.mod_1_r. auto.
  - rewrite bitsZ_S. cbn [dot2]. rewrite dot2_scale, IH, Nat2Z.inj_succ, Z.pow_succ_r by lia.
    rewrite Z.rem_mul_r by lia. lia.
Qed.
Definition binary (l : list Z) : Prop := Forall (fun x => x = 0 \/ x = 1) l.
Lemma bits_dot2 bs : binary bs -> bitsZ (dot2 1 bs) (length bs) = bs.
Proof.
  induction 1 as [|b r Hb Hr IH]; auto. cbn [length]. rewrite bitsZ_S. cbn [dot2]. rewrite dot2_scale.
  assert ((b * 1 + 2 * 1 * dot2 1 r) mod 2 = b /\ (b * 1 + 2 * 1 * dot2 1 r) / 2 = dot2 1 r) as [-> ->].
  { destruct Hb; subst; Z.div_mod_to_equations; lia. }
  rewrite IH. auto.
Qed.
Lemma bitsZ_len v b : length (bitsZ v b) = b.
Proof. unfold bitsZ. rewrite map_length, seq_length. auto. Qed.
Lemma bitsZ_binary v b : binary (bitsZ v b).
Proof.
  apply Forall_map. apply Forall_forall. intros i _. pose proof (Z.mod_pos_bound (v / 2 ^ Z.of_nat i) 2). lia.
Qed.
Lemma dot2_bound bs : binary bs -> 0 <= dot2 1 bs < 2 ^ Z.of_nat (length bs).
Proof.
  induction 1 as [|b r Hb Hr IH]; [cbn; lia|]. cbn [dot2 length]. rewrite dot2_scale, Nat2Z.inj_succ, Z.pow_succ_r by lia.
  destruct Hb; subst; lia.
Qed.
Lemma expand_form value b : expand_to_binary_form value b = flat_map (fun v => bitsZ v b) value.
Proof. reflexivity. Qed.
Lemma expand_binary value b : binary (expand_to_binary_form value b).
Proof.
  rewrite expand_form. induction value; cbn; [constructor|]. apply Forall_app. split; auto. apply bitsZ_binary.
Qed.

Lemma unpack_bits V t : (0 < t)%nat -> binary V -> expand_to_binary_form (pack_binary_form V t) t = V ++ repeat 0 (extra t (length V)).
Proof.
  intros Ht HB. rewrite expand_form. unfold pack_binary_form. destruct (rows_spec t V Ht) as [F E]. rewrite <- E.
  assert (Forall binary (rows t V)) as FB by (apply rows_bound; auto). clear E.
  induction (rows t V) as [|r rs IH]; auto. inversion F; inversion FB; subst. cbn [map flat_map concat].
  rewrite IH by auto. rewrite bits_dot2; auto.
Qed.
Lemma pack_expand value b : (0 < b)%nat -> ub b value -> pack_binary_form (expand_to_binary_form value b) b = value.
Proof.
  intros Hb HU. unfold pack_binary_form, rows. rewrite expand_form.
  assert (length (flat_map (fun v => bitsZ v b) value) = (length value * b)%nat) as L
    by (apply flat_map_len; intros; apply bitsZ_len).
  rewrite L, extra_mult by auto. cbn [repeat]. rewrite app_nil_r, flat_map_concat_map', chunks_concat_id; auto.
  - rewrite map_map. clear L. induction HU; auto. cbn [map]. rewrite IHHU, dot2_bits, Z.mod_small; auto.
  - apply Forall_map. apply Forall_forall. intros. apply bitsZ_len.
Qed.

Lemma ub1_binary l : ub 1 l -> binary l.
Proof. apply Forall_impl. intros a H. change (2 ^ Z.of_nat 1) with 2 in H. lia. Qed.

Lemma general_roundtrip value b t shape : (0 < b)%nat -> (0 < t)%nat -> ub b value -> prod shape = length value ->
  (do u <- slice_to (prod shape * b)
        (expand_to_binary_form (pack_binary_form (if (1 <? b)%nat then expand_to_binary_form value b else value) t) t) ;;
   if (1 <? b)%nat then reshape_to shape (pack_binary_form u b) else reshape_to shape u) = Ok (mkT shape value).
Proof.
  intros Hb Ht HU HS.
  set (V := if (1 <? b)%nat then expand_to_binary_form value b else value).
  assert (HV : binary V /\ length V = (prod shape * b)%nat).
  { unfold V. destruct (Nat.ltb_spec 1 b).
    - split; [apply expand_binary|]. rewrite expand_form, HS. apply flat_map_len. intros; apply bitsZ_len.
    - assert (b = 1%nat) as -> by lia. split; [apply ub1_binary; auto|lia]. }
  destruct HV as [HB HL]. rewrite unpack_bits by auto. unfold slice_to. rewrite app_length, HL.
  destruct (Nat.leb_spec (prod shape * b) (prod shape * b + length (repeat 0 (extra t (prod shape * b))))); [|lia].
  cbn [bind]. rewrite <- HL, firstn_app, Nat.sub_diag, firstn_all, firstn_O, app_nil_r.
  unfold V. destruct (Nat.ltb_spec 1 b).
  - rewrite pack_expand by auto. unfold reshape_to. rewrite HS, Nat.eqb_refl. auto.
  - unfold reshape_to. rewrite HS, Nat.eqb_refl. auto.
Qed.

Theorem pack_roundtrip static value b t shape : (0 < b)%nat -> (0 < t)%nat -> ub b value -> prod shape = length value ->
  unpack_from_int (pack_into_int static value b t) b t shape = Ok (mkT shape value).
Proof.
  intros Hb Ht HU HS. unfold unpack_from_int, pack_into_int.
  destruct ((b =? 6) && (t =? 28))%nat eqn:E6.
  { apply andb_prop in E6 as [E6 _]. apply Nat.eqb_eq in E6. subst b.
    destruct (pack6_form static value) as (k & Hk & -> & HZ & _).
    apply (roundtrip 14 3 pack_row_6 unpack_row_6 (2^6)); auto; try lia. apply UP6. }
  destruct ((b =? 7) && (t =? 28))%nat eqn:E7.
  { apply andb_prop in E7 as [E7 _]. apply Nat.eqb_eq in E7. subst b. unfold pack_7_28.
    rewrite <- (drop_last_0 (flat_map pack_row_7 _)).
    apply (roundtrip 4 1 pack_row_7 unpack_row_7 (2^7)); auto; try lia. apply UP7. }
  destruct ((b =? 8) && (t =? 28))%nat eqn:E8.
  { apply andb_prop in E8 as [E8 _]. apply Nat.eqb_eq in E8. subst b.
    destruct (pack8_form static value) as (k & Hk & -> & HZ & _).
    apply (roundtrip 7 2 pack_row_8 unpack_row_8 (2^8)); auto; try lia. apply UP8. }
  destruct ((b =? 12) && (t =? 28))%nat eqn:E12.
  { apply andb_prop in E12 as [E12 _]. apply Nat.eqb_eq in E12. subst b.
    destruct (pack12_form static value) as (k & Hk & -> & HZ & _).
    apply (roundtrip 7 3 pack_row_12 unpack_row_12 (2^12)); auto; try lia. apply UP12. }
  apply general_roundtrip; auto.
Qed.

(** ** range of the packed integers *)
Lemma firstn_Forall {A} (P : A -> Prop) n l : Forall P l -> Forall P (firstn n l).
Proof. intros H. revert n. induction H; destruct n; cbn; auto. Qed.
Lemma pack_rows_bound n P bound l k : (0 < n)%nat -> 0 < bound ->
  (forall r, length r = n -> Forall (fun x => 0 <= x < bound) r -> Forall (fun x => 0 <= x < 2^28) (P r)) ->
  Forall (fun x => 0 <= x < bound) l -> Forall (fun x => 0 <= x < 2^28) (drop_last k (flat_map P (rows n l))).
Proof.
  intros Hn Hb HP HL. apply firstn_Forall. destruct (rows_spec n l Hn) as [F _].
  assert (Forall (Forall (fun x => 0 <= x < bound)) (rows n l)) as FB by (apply rows_bound; auto; lia).
  induction (rows n l); cbn; [constructor|]. inversion F; inversion FB; subst. apply Forall_app. auto.
Qed.
Ltac rowb r H B := destr_row r H; consts; inv_bounds;
  repeat (constructor; [split; Z.div_mod_to_equations; lia|]); constructor.
Lemma pack_bound static value b : (0 < b)%nat -> ub b value ->
  Forall (fun x => 0 <= x < 2^28) (pack_into_int static value b 28).
Proof.
  intros Hb HU. unfold pack_into_int. rewrite Nat.eqb_refl, !andb_true_r.
  destruct (b =? 6)%nat eqn:E6.
  { apply Nat.eqb_eq in E6. subst b. destruct (pack6_form static value) as (k & _ & -> & _).
    apply (pack_rows_bound 14 _ (2^6)); auto; try lia. intros r H B. change (2^6) with 64 in B.
    unfold pack_row_6, g. destr_row r H. cbn [nth]. consts. inv_bounds.
    repeat (constructor; [Z.div_mod_to_equations; lia|]). constructor. }
  destruct (b =? 7)%nat eqn:E7.
  { apply Nat.eqb_eq in E7. subst b. unfold pack_7_28. rewrite <- (drop_last_0 (flat_map pack_row_7 _)).
    apply (pack_rows_bound 4 _ (2^7)); auto; try lia. intros r H B. change (2^7) with 128 in B.
    unfold pack_row_7, g. destr_row r H. cbn [nth]. consts. inv_bounds.
    repeat (constructor; [Z.div_mod_to_equations; lia|]). constructor. }
  destruct (b =? 8)%nat eqn:E8.
  { apply Nat.eqb_eq in E8. subst b. destruct (pack8_form static value) as (k & _ & -> & _).
    apply (pack_rows_bound 7 _ (2^8)); auto; try lia. intros r H B. change (2^8) with 256 in B.
    unfold pack_row_8, g. destr_row r H. cbn [nth]. consts. inv_bounds.
    repeat (constructor; [Z.div_mod_to_equations; lia|]). constructor. }
  destruct (b =? 12)%nat eqn:E12.
  { apply Nat.eqb_eq in E12. subst b. destruct (pack12_form static value) as (k & _ & -> & _).
    apply (pack_rows_bound 7 _ (2^12)); auto; try lia. intros r H B. change (2^12) with 4096 in B.
    unfold pack_row_12, g. destr_row r H. cbn [nth]. consts. inv_bounds.
    repeat (constructor; [Z.div_mod_to_equations; lia|]). constructor. }
  unfold pack_binary_form. apply Forall_map.
  set (V := if (1 <? b)%nat then _ else _).
  assert (HB : binary V).
  { unfold V. destruct (Nat.ltb_spec 1 b); [apply expand_binary|]. assert (b = 1%nat) as -> by lia. apply ub1_binary; auto. }
  destruct (rows_spec 28 V) as [F _]; [lia|].
  assert (Forall binary (rows 28 V)) as FB by (apply rows_bound; auto; lia).
  induction (rows 28 V); constructor; inversion F; inversion FB; subst; auto.
  pose proof (dot2_bound a H5). rewrite H1 in H. exact H.
Qed.

(** ** number of packed integers *)
Lemma drop_flat_len P m k rs : (forall r : list Z, length (P r) = m) -> length (drop_last k (flat_map P rs)) = (length rs * m - k)%nat.
Proof. intros H. unfold drop_last. rewrite firstn_length, (flat_map_len P m) by auto. lia. Qed.
Lemma rows_count n l : (0 < n)%nat -> (length (rows n l) = (length l + (n - 1)) / n)%nat.
Proof.
  intros Hn. destruct (rows_spec n l Hn) as [F E]. pose proof (concat_len n _ F) as L.
  rewrite E, app_length, repeat_length in L. pose proof (extra_lt n (length l) Hn).
  apply Nat.div_unique with (n - 1 - extra n (length l))%nat; nia.
Qed.
Lemma pack_count value b : (0 < b)%nat -> ub b value ->
  length (pack_into_int true value b 28) = ((b * length value + 27) / 28)%nat.
Proof.
  intros Hb HU. unfold pack_into_int. rewrite Nat.eqb_refl, !andb_true_r.
  destruct (b =? 6)%nat eqn:E6.
  { apply Nat.eqb_eq in E6. subst b. destruct (pack6_form true value) as (k & _ & -> & _ & HC).
    rewrite (drop_flat_len _ 3) by auto. auto. }
  destruct (b =? 7)%nat eqn:E7.
  { apply Nat.eqb_eq in E7. subst b. unfold pack_7_28. rewrite (flat_map_len _ 1) by auto. rewrite rows_count by lia.
    rewrite Nat.mul_1_r. replace (7 * length value + 27)%nat with (6 + (length value + 3) * 7)%nat by lia.
    change 28%nat with (7 * 4)%nat. rewrite <- Nat.div_div by lia. rewrite Nat.div_add by lia. auto. }
  destruct (b =? 8)%nat eqn:E8.
  { apply Nat.eqb_eq in E8. subst b. destruct (pack8_form true value) as (k & _ & -> & _ & HC).
    rewrite (drop_flat_len _ 2) by auto. auto. }
  destruct (b =? 12)%nat eqn:E12.
  { apply Nat.eqb_eq in E12. subst b. destruct (pack12_form true value) as (k & _ & -> & _ & HC).
    rewrite (drop_flat_len _ 3) by auto. auto. }
  unfold pack_binary_form. rewrite map_length, rows_count by lia. f_equal. f_equal.
  destruct (Nat.ltb_spec 1 b).
  - rewrite expand_form, (flat_map_len _ b); [lia|]. intros; apply bitsZ_len.
  - assert (b = 1%nat) as -> by lia. lia.
Qed.

Lemma bitpack_stage b static x p : (forall v, In v (data x) -> 0 <= v < 2 ^ Z.of_nat b) -> wf x ->
  bitpack_encode b static x = Ok p -> bitpack_decode b p (shape x) = Ok x.
Proof.
  intros HU W. unfold bitpack_encode, bitpack_decode. destruct (_ && _)%bool eqn:E; [|discriminate].
  intros H. injection H as <-. apply andb_prop in E as [E _]. apply Nat.leb_le in E. rewrite pack_roundtrip; auto; try lia.
  - destruct x; auto.
  - apply Forall_forall. auto.
Qed.
