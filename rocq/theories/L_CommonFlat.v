(** Library stages meet the contract of S_CoreTree. *)
From Coq Require Import Reals Lra Psatz.
From Verif Require Import Base M_Tensor L_Tensor M_Bitpack L_Bitpack M_Hadamard S_Hadamard L_Hadamard L_Kashin M_Encoder S_Encoder L_Encoder M_Composer M_CommonEncoders S_CommonEncoders L_CommonEncoders L_CommonEncoders4
  M_Dicts S_Dicts M_Gather S_Gather M_CoreTree S_CoreTree L_CoreTree L_CoreTree5 M_CommonFlat S_CommonFlat.
From Coq Require Import Lra Psatz.
Open Scope R_scope.
Open Scope list_scope.
Local Notation lib k := (as_adaptive (lib_stage k) : astage fval string (nat -> R)).

(** ** Read by key *)
Lemma pick_same ks d d' : (forall k, dget k d = dget k d') -> pick ks d = pick ks d'.
Proof. intros H. induction ks as [|k ks IH]; [reflexivity|]. cbn [pick]. now rewrite IH, H. Qed.
Lemma pick_params_same ks d d' : (forall k, dget k d = dget k d') -> pick_params ks d = pick_params ks d'.
Proof. intros H. induction ks as [|k ks IH]; [reflexivity|]. cbn [pick_params]. now rewrite IH, H. Qed.
Lemma prm_same k w p p' : (forall q, dget q p = dget q p') -> lib_prm k w p = lib_prm k w p'.
Proof. intros H. unfold lib_prm, dindex. rewrite (pick_params_same _ p p' H), (H "seed"%string). reflexivity. Qed.
Lemma nd1 (a : string) : NoDup [a]. Proof. repeat constructor; cbn; tauto. Qed.
Lemma nd2 (a b : string) : a <> b -> NoDup [a; b]. Proof. intros N. repeat constructor; cbn; intuition congruence. Qed.
Lemma params_nodup k w : NoDup (dkeys (lib_params k w)).
Proof. destruct k as [| | |b [[lo hi]|] st|b st]; cbn; try constructor; try apply nd1; try (now apply nd2); try constructor; cbn; intuition discriminate. Qed.
Lemma enc_nodup k t p e : s_encode (to_stage k) t p = Ok e -> NoDup (dkeys e).
Proof.
  destruct k as [| | |b mm st|b st]; cbn [to_stage s_encode identity_stage flatten_stage hadamard_stage uniform_stage bitpack_stage].
  - intros [= <-]. apply nd1.
  - intros H. apply bind_ok in H as (x & _ & H). injection H as <-. apply nd1.
  - intros H. apply bind_ok in H as (x & _ & H). apply bind_ok in H as (y & _ & H). injection H as <-. apply nd1.
  - intros H. apply bind_ok in H as (x & _ & H). unfold uq_encode in H. apply bind_ok in H as (mv & _ & H). cbv zeta in H. injection H as <-. destruct (dget "min_max" (p_dict p)); [apply nd1|now apply nd2].
  - intros H. apply bind_ok in H as (x & _ & H). apply bind_ok in H as (y & _ & H). injection H as <-. apply nd1.
Qed.
Lemma keys_map (e : dict ten) : dkeys (map (fun kt => (fst kt, FV (snd kt))) e) = dkeys e.
Proof. unfold dkeys. rewrite map_map. reflexivity. Qed.
Lemma get_map k (e : dict ten) : dget k (map (fun kt => (fst kt, FV (snd kt))) e) = option_map FV (dget k e).
Proof. induction e as [|[k' t] e IH]; [reflexivity|]. cbn. now destruct (String.eqb k k'). Qed.
Theorem lib_by_key k : stage_by_key (lib k).
Proof.
  constructor; cbn [as_adaptive a_update a_params a_encode a_decode lib_stage p_params p_encode p_decode].
  - intros. cbn. apply same_items_refl. constructor.
  - intros. split; apply same_items_refl; apply params_nodup.
  - intros w x p p' (_ & _ & H). unfold lib_encode. rewrite (prm_same k w p p' H). destruct (tens x) as [t|]; [|exact Logic.I]. cbn [bind]. destruct (lib_prm k w p') as [pr|]; [|exact Logic.I]. cbn [bind].
    destruct (s_encode (to_stage k) t pr) as [e|] eqn:E; [|exact Logic.I]. cbn. split; apply same_items_refl; [|constructor]. cbn [fst]. rewrite keys_map. eapply enc_nodup. exact E.
  - intros d d' p p' n sh (_ & _ & H1) (_ & _ & H2). unfold lib_decode. rewrite (prm_same k no_draws p p' H2), (pick_same (reads k) d d' H1).
    destruct (pick (reads k) d') as [ts|]; [|exact Logic.I]. cbn [bind]. destruct (lib_prm k no_draws p') as [pr|]; [|exact Logic.I]. cbn [bind]. destruct (shape_arg sh) as [s|]; [|exact Logic.I]. cbn [bind]. destruct (s_decode (to_stage k) ts pr n s); [reflexivity|exact Logic.I].
Qed.

(** ** Fixed structure *)
Definition fz (sh : list nat) : fval := FV (F (mkT sh (repeat 0 (prod sh)))).
Lemma fz_spec sh : fspec_of (fz sh) = SFloat sh (prod sh). Proof. cbn. now rewrite repeat_length. Qed.
Lemma spec_float v sh : fspec_of v = SFloat sh (prod sh) <-> float_of sh v.
Proof.
  split.
  - destruct v as [[t|l]|s|l|u|]; try discriminate. cbn. intros [= E1 E2]. exists t. split; [reflexivity|]. split; [exact E1|]. unfold wf. congruence.
  - intros (t & -> & <- & W). cbn. unfold wf in W. now rewrite W.
Qed.
Lemma tens_float t : wf t -> tens (FV (F t)) = Ok (F t).
Proof. unfold wf. intros W. cbn. rewrite W, Nat.eqb_refl. reflexivity. Qed.
Lemma it1 {A B} (R : A -> B -> Prop) k a b : R a b -> items R [(k, a)] [(k, b)].
Proof. intros H. split; [apply nd1|]. split; [apply nd1|]. intros k'. cbn. now destruct (String.eqb k' k). Qed.
Lemma it2 {A B} (R : A -> B -> Prop) k a b k2 a2 b2 : k <> k2 -> R a b -> R a2 b2 -> items R [(k, a); (k2, a2)] [(k, b); (k2, b2)].
Proof. intros N H H2. split; [now apply nd2|]. split; [now apply nd2|]. intros k'. cbn. destruct (String.eqb k' k); [exact H|]. now destruct (String.eqb k' k2). Qed.
Lemma it0 {A B} (R : A -> B -> Prop) : items R [] []. Proof. repeat split; constructor. Qed.
Lemma items_get {A B} (R : A -> B -> Prop) d d' k a : items R d d' -> dget k d = Some a -> exists b, dget k d' = Some b /\ R a b.
Proof. intros (_ & _ & H) D. specialize (H k). rewrite D in H. destruct (dget k d') as [b|]; [|destruct H]. eauto. Qed.
Lemma items_none {A B} (R : A -> B -> Prop) d d' k : items R d d' -> dget k d = None -> dget k d' = None.
Proof. intros (_ & _ & H) D. specialize (H k). rewrite D in H. destruct (dget k d') as [b|]; [destruct H|reflexivity]. Qed.

(** Bit packing: lengths only depend on lengths. *)
Lemma pack_len static v v' b : List.length v = List.length v' -> List.length (pack_into_int static v b 28) = List.length (pack_into_int static v' b 28).
Proof.
  intros L. assert (RL : forall n (l l' : list Z), List.length l = List.length l' -> (0 < n)%nat -> List.length (rows n l) = List.length (rows n l')) by (intros n l l' E P; rewrite !rows_count by exact P; now rewrite E).
  assert (DL : forall P m k n, (forall r : list Z, List.length (P r) = m) -> (0 < n)%nat -> List.length (drop_last k (flat_map P (rows n v))) = List.length (drop_last k (flat_map P (rows n v')))) by (intros P m k n Q N; rewrite !(drop_flat_len P m) by exact Q; now rewrite (RL n v v' L N)).
  unfold pack_into_int. destruct ((b =? 6) && (28 =? 28))%nat; [|destruct ((b =? 7) && (28 =? 28))%nat; [|destruct ((b =? 8) && (28 =? 28))%nat; [|destruct ((b =? 12) && (28 =? 28))%nat]]].
  - unfold pack_6_28. rewrite L. assert (D0 : forall k, List.length (drop_last k (flat_map pack_row_6 (rows 14 v))) = List.length (drop_last k (flat_map pack_row_6 (rows 14 v')))) by (intros k; apply (DL _ 3%nat); [reflexivity|lia]).
    pose proof (D0 O) as D1. rewrite !drop_last_0 in D1. destruct (static && _)%bool; destruct (static && _)%bool; unfold drop_last in *; rewrite ?firstn_length; try lia.
  - unfold pack_7_28. rewrite !(flat_map_len pack_row_7 1) by reflexivity. now rewrite (RL 4%nat v v' L ltac:(lia)).
  - unfold pack_8_28. rewrite L. assert (D0 : forall k, List.length (drop_last k (flat_map pack_row_8 (rows 7 v))) = List.length (drop_last k (flat_map pack_row_8 (rows 7 v')))) by (intros k; apply (DL _ 2%nat); [reflexivity|lia]).
    pose proof (D0 O) as D1. rewrite !drop_last_0 in D1. destruct (static && _)%bool; unfold drop_last in *; rewrite ?firstn_length; try lia.
  - unfold pack_12_28. rewrite L. assert (D0 : forall k, List.length (drop_last k (flat_map pack_row_12 (rows 7 v))) = List.length (drop_last k (flat_map pack_row_12 (rows 7 v')))) by (intros k; apply (DL _ 3%nat); [reflexivity|lia]).
    pose proof (D0 O) as D1. rewrite !drop_last_0 in D1. destruct (static && _)%bool; destruct (static && _)%bool; unfold drop_last in *; rewrite ?firstn_length; try lia.
  - unfold pack_binary_form. rewrite !map_length. apply RL; [|lia]. destruct (1 <? b)%nat; [|exact L]. rewrite !expand_form, !(flat_map_len _ b) by (intros; apply bitsZ_len). now rewrite L.
Qed.
Lemma unpack_ok v v' b sh t : (1 <= b)%nat -> List.length v = List.length v' -> unpack_from_int v b 28 sh = Ok t -> exists t', unpack_from_int v' b 28 sh = Ok t' /\ shape t' = sh /\ wf t'.
Proof.
  intros B L. assert (RL : forall n, (0 < n)%nat -> List.length (rows n v) = List.length (rows n v')) by (intros n P; rewrite !rows_count by exact P; now rewrite L).
  assert (U : forall m row c, (0 < m)%nat -> (forall r : list Z, List.length (row r) = c) -> unpack_rows m row v sh = Ok t -> exists t', unpack_rows m row v' sh = Ok t' /\ shape t' = sh /\ wf t').
  { intros m row c P C H. unfold unpack_rows in *. apply bind_ok in H as (u & H & _). unfold slice_to in *. destruct (prod sh <=? List.length (flat_map row (rows m v)))%nat eqn:E; [|discriminate]. rewrite (flat_map_len row c) in E by exact C. rewrite (RL m P) in E.
    assert (E' : (prod sh <=? List.length (flat_map row (rows m v')))%nat = true) by (rewrite (flat_map_len row c) by exact C; exact E). rewrite E'. cbn [bind]. unfold reshape_to. apply Nat.leb_le in E'. rewrite firstn_length, Nat.min_l by exact E'. rewrite Nat.eqb_refl. eexists. split; [reflexivity|]. split; [reflexivity|].
    unfold wf. cbn [data shape]. rewrite firstn_length. lia. }
  unfold unpack_from_int. destruct ((b =? 6) && (28 =? 28))%nat; [apply (U _ _ 14%nat); [lia|reflexivity]|]. destruct ((b =? 7) && (28 =? 28))%nat; [apply (U _ _ 4%nat); [lia|reflexivity]|].
  destruct ((b =? 8) && (28 =? 28))%nat; [apply (U _ _ 7%nat); [lia|reflexivity]|]. destruct ((b =? 12) && (28 =? 28))%nat; [apply (U _ _ 7%nat); [lia|reflexivity]|]. clear U.
  intros H. apply bind_ok in H as (u & H & _). unfold slice_to in *. rewrite expand_form, (flat_map_len _ 28) in H by (intros; apply bitsZ_len). rewrite L in H.
  rewrite expand_form. assert (LL : List.length (flat_map (fun v0 : Z => bitsZ v0 28) v') = (List.length v' * 28)%nat) by (apply flat_map_len; intros; apply bitsZ_len). rewrite LL. destruct (prod sh * b <=? List.length v' * 28)%nat eqn:E; [|discriminate]. apply Nat.leb_le in E. cbn [bind].
  assert (L1 : List.length (firstn (prod sh * b) (flat_map (fun v0 : Z => bitsZ v0 28) v')) = (prod sh * b)%nat) by (rewrite firstn_length, LL; lia).
  unfold reshape_to. destruct (1 <? b)%nat eqn:B1.
  - assert (L2 : List.length (pack_binary_form (firstn (prod sh * b) (flat_map (fun v0 : Z => bitsZ v0 28) v')) b) = prod sh).
    { unfold pack_binary_form. rewrite map_length, rows_count by lia. rewrite L1. rewrite Nat.div_add_l by lia. rewrite Nat.div_small by lia. lia. }
    rewrite L2, Nat.eqb_refl. eexists. split; [reflexivity|]. split; [reflexivity|]. exact L2.
  - assert (b = 1%nat) as -> by (apply Nat.ltb_ge in B1; lia). rewrite Nat.mul_1_r in *. rewrite L1, Nat.eqb_refl. eexists. split; [reflexivity|]. split; [reflexivity|]. exact L1.
Qed.
