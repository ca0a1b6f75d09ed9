(** Lemmas about joined string paths. *)
From Verif Require Import Base M_Encoder M_Dicts S_Dicts.
From Coq Require Import Permutation Sorted Lia.

Fixpoint klt (a b : key) : Prop :=
  match a, b with
  | [], [] => False | [], _ :: _ => True | _ :: _, [] => False
  | x :: a', y :: b' => (x < y)%nat \/ (x = y /\ klt a' b')
  end.
Lemma klt_irrefl a : ~ klt a a.
Proof. induction a as [|x a IH]; cbn; [tauto|]. intros [H|[_ H]]; [lia|auto]. Qed.
Lemma klt_trans a b c : klt a b -> klt b c -> klt a c.
Proof.
  revert b c; induction a as [|x a IH]; intros [|y b] [|z c]; cbn; try tauto. intros [H|[-> H]] [H'|[-> H']]; try (left; lia). right; eauto.
Qed.
Lemma kleb_total a b : kleb a b = false -> klt b a.
Proof.
  revert b; induction a as [|x a IH]; intros [|y b]; cbn [kleb klt]; try discriminate; auto.
  destruct (Nat.ltb_spec x y); [discriminate|]. destruct (Nat.ltb_spec y x); [auto|]. intros H'. right. split; [lia|auto].
Qed.
Lemma kleb_le a b : kleb a b = true -> a = b \/ klt a b.
Proof.
  revert b; induction a as [|x a IH]; intros [|y b]; cbn [kleb klt]; try discriminate; auto.
  destruct (Nat.ltb_spec x y); [auto|]. destruct (Nat.ltb_spec y x); [discriminate|]. intros H'. assert (x = y) by lia. subst.
  destruct (IH b H') as [->|K]; auto.
Qed.
Section S.
Context {A : Type}.
Lemma kinsert_perm k v (l : list (key * A)) : Permutation ((k, v) :: l) (kinsert k v l).
Proof. induction l as [|[k' w] r IH]; cbn; [auto|]. destruct (kleb k k'); [auto|]. rewrite perm_swap. constructor. exact IH. Qed.
Lemma ksort_perm (l : list (key * A)) : Permutation l (ksort l).
Proof. induction l as [|[k v] r IH]; cbn; [auto|]. rewrite <- kinsert_perm. constructor; exact IH. Qed.
Definition ssorted (l : list key) := StronglySorted klt l.
Lemma kinsert_sorted k v (l : list (key * A)) : ~ In k (map fst l) -> ssorted (map fst l) -> ssorted (map fst (kinsert k v l)).
Proof.
  intros N S. induction l as [|[k' w] r IH]; cbn in *; [repeat constructor|].
  inversion S as [|? ? S1 S2]; subst. destruct (kleb k k') eqn:E; cbn.
  - constructor; [exact S|]. apply kleb_le in E. destruct E as [->|E]; [exfalso; auto|]. constructor; [auto|].
    rewrite Forall_forall in *. intros x Hx. eapply klt_trans; eauto.
  - constructor; [apply IH; auto|]. apply kleb_total in E. rewrite Forall_forall in *. intros x Hx.
    assert (In x (map fst ((k, v) :: r))) as Hx'. { rewrite (kinsert_perm k v r). exact Hx. }
    cbn in Hx'. destruct Hx' as [<-|Hx']; auto.
Qed.
Lemma ksort_sorted (l : list (key * A)) : NoDup (map fst l) -> ssorted (map fst (ksort l)).
Proof.
  induction l as [|[k v] r IH]; cbn; intros N; [constructor|]. inversion N; subst. apply kinsert_sorted; auto.
  intros H. match goal with H' : ~ In _ _ |- _ => apply H' end. rewrite (ksort_perm r). exact H.
Qed.
End S.
Lemma ssorted_nodup l : ssorted l -> NoDup l.
Proof.
  induction 1 as [|a l S IH F]; constructor; auto. intros H. rewrite Forall_forall in F. apply (klt_irrefl a). auto.
Qed.
Lemma ssorted_unique l l' : ssorted l -> ssorted l' -> Permutation l l' -> l = l'.
Proof.
  intros S; revert l'. induction S as [|a l S IH F]; intros l' S' Pm; [apply Permutation_nil in Pm; auto|].
  destruct S' as [|b l' S' F']; [symmetry in Pm; apply Permutation_nil in Pm; discriminate|].
  rewrite Forall_forall in F, F'.
  assert (a = b) as ->.
  { assert (In a (b :: l')) as Ha by (rewrite <- Pm; now left). assert (In b (a :: l)) as Hb by (rewrite Pm; now left).
    destruct Ha as [->|Ha]; [auto|]. destruct Hb as [->|Hb]; [auto|]. exfalso. apply (klt_irrefl a). eapply klt_trans; eauto. }
  f_equal. apply IH; auto. eapply Permutation_cons_inv; eauto.
Qed.

(** Suffixes that may follow a key in a joined path. *)
Definition tail47 (s : key) := s = [] \/ exists r, s = 47%nat :: r.
Lemma klt_app k : forall k' s s', klt k k' -> s = [] \/ extends 47 k k' -> tail47 s -> klt (k ++ s) (k' ++ s').
Proof.
  induction k as [|x k IH]; intros [|y k'] s s'; cbn; try tauto.
  - intros _ E [->|[r ->]]; cbn; [auto|]. destruct E as [E|E]; [discriminate|]. left. apply (E y k'). reflexivity.
  - intros [H|[-> H]] E T; [auto|]. right. split; [reflexivity|]. apply IH; auto. destruct E as [E|E]; [now left|right]. intros ch r ->. apply (E ch r). reflexivity.
Qed.
Lemma klt_same k s s' : klt s s' -> klt (k ++ s) (k ++ s').
Proof. induction k as [|x k IH]; cbn; auto. Qed.

Lemma join_cons k p : join 47 (k :: p) = k ++ match p with [] => [] | _ => 47%nat :: join 47 p end.
Proof. destruct p; cbn; [now rewrite app_nil_r|reflexivity]. Qed.

Lemma ss_app l l' : ssorted l -> ssorted l' -> (forall a b, In a l -> In b l' -> klt a b) -> ssorted (l ++ l').
Proof.
  intros S; revert l'; induction S as [|a l S IH F]; intros l' S' H; cbn; [auto|]. constructor; [apply IH; auto; intros; apply H; cbn; auto|].
  apply Forall_app. split; [auto|]. apply Forall_forall. intros b Hb. apply H; cbn; auto.
Qed.
Section T.
Context {V : Type}.
Notation struct := (struct V).
Fixpoint struct_ind2 (Q : struct -> Prop) (H1 : forall v, Q (Leaf v))
  (H : forall d, (forall k c, In (k, c) d -> Q c) -> Q (Tree d)) (e : struct) : Q e.
Proof.
  destruct e as [t|d]; [apply H1|]. apply H. induction d as [|[k c] r IH]; [intros ? ? []|].
  intros k' c' [E|G]; [|eapply IH; eauto]. injection E as _ <-. apply struct_ind2; auto.
Qed.
Definition blocks (d : list (key * struct)) := map (fun kc => (fst kc, map (fun pv => (fst kc :: fst pv, snd pv)) (flatten_with_path (snd kc)))) d.
Lemma flatten_tree (d : list (key * struct)) : flatten_with_path (Tree d) = List.concat (map snd (ksort (blocks d))).
Proof.
  cbn [flatten_with_path]. do 3 f_equal. induction d as [|[k c] r IH]; cbn; [reflexivity|]. f_equal. exact IH.
Qed.
Lemma joinable_inv sep (d : list (key * struct)) : joinable sep (Tree d) ->
  NoDup (map fst d) /\ (forall k c k', In (k, Tree c) d -> In k' (map fst d) -> extends sep k k') /\ forall k c, In (k, c) d -> joinable sep c.
Proof.
  cbn. intros (N & X & H). split; [auto|]. split; [auto|]. clear N X. induction d as [|[k c] r IH]; [intros ? ? []|]. destruct H as (A & B).
  intros k' c' [[= <- <-]|H]; eauto.
Qed.
Lemma map_fst_blocks (d : list (key * struct)) : map fst (blocks d) = map fst d.
Proof. unfold blocks. rewrite map_map. reflexivity. Qed.
Lemma flatten_nonnil (s : struct) p v : In (p, v) (flatten_with_path s) -> match s with Leaf _ => p = [] | Tree _ => p <> [] end.
Proof.
  destruct s as [w|d]; [cbn; intros [[= <- _]|[]]; reflexivity|]. rewrite flatten_tree. intros H. apply in_concat in H. destruct H as (b & Hb & H).
  apply in_map_iff in Hb. destruct Hb as ([k b'] & <- & Hb). cbn in H.
  apply (Permutation_in _ (Permutation_sym (ksort_perm (blocks d)))) in Hb. unfold blocks in Hb. apply in_map_iff in Hb. destruct Hb as ([k' c] & [= <- <-] & _).
  apply in_map_iff in H. destruct H as ([q u] & [= <- _] & _). discriminate.
Qed.
Lemma sorted_blocks (bs : list (key * list (list key * V))) :
  ssorted (map fst bs) -> (forall k b, In (k, b) bs -> ssorted (map (fun pv => join 47 (fst pv)) b) /\
     forall p v, In (p, v) b -> exists q, p = k :: q /\ (q = [] \/ forall k', In k' (map fst bs) -> extends 47 k k')) ->
  ssorted (map (fun pv => join 47 (fst pv)) (List.concat (map snd bs))).
Proof.
  induction bs as [|[k b] r IH]; cbn; intros S H; [constructor|]. inversion S as [|? ? S1 S2]; subst. rewrite map_app. apply ss_app.
  - apply (H k b); auto.
  - apply IH; auto. intros k' b' Hb'. destruct (H k' b' (or_intror Hb')) as (Q1 & Q2). split; [exact Q1|]. intros p v I1. destruct (Q2 p v I1) as (q & -> & Q3).
    exists q. split; [reflexivity|]. destruct Q3 as [Q3|Q3]; [now left|right]. intros k'' I2. apply Q3. now right.
  - intros x y Hx Hy. apply in_map_iff in Hx, Hy. destruct Hx as ([p v] & <- & Hx), Hy as ([q w] & <- & Hy). cbn.
    apply in_concat in Hy. destruct Hy as (b' & Hb' & Hy). apply in_map_iff in Hb'. destruct Hb' as ([k' b''] & <- & Hb'). cbn in Hy.
    destruct (H k b (or_introl eq_refl)) as (_ & P1). destruct (P1 p v Hx) as (p' & -> & X).
    destruct (H k' b'' (or_intror Hb')) as (_ & P2). destruct (P2 q w Hy) as (q' & -> & _).
    assert (Ik : In k' (map fst r)) by (apply in_map_iff; exists (k', b''); auto).
    rewrite !join_cons. apply klt_app.
    + rewrite Forall_forall in S2. now apply S2.
    + destruct X as [->|X]; [now left|right]. apply X. now right.
    + destruct p'; [now left|right; eauto].
Qed.
Lemma flatten_sorted (s : struct) : joinable 47 s -> ssorted (map (fun pv => join 47 (fst pv)) (flatten_with_path s)).
Proof.
  induction s as [v|d IH] using struct_ind2; intros K; [cbn; repeat constructor|]. rewrite flatten_tree.
  apply joinable_inv in K. destruct K as (N & X & K). apply sorted_blocks.
  - apply ksort_sorted. now rewrite map_fst_blocks.
  - intros k b Hb. apply (Permutation_in _ (Permutation_sym (ksort_perm (blocks d)))) in Hb. unfold blocks in Hb. apply in_map_iff in Hb.
    destruct Hb as ([k' c] & [= <- <-] & Hb). cbn [fst snd]. pose proof (K k' c Hb) as Kc. split.
    + specialize (IH k' c Hb Kc). rewrite map_map. cbn [fst].
      assert (forall p v, In (p, v) (flatten_with_path c) -> match c with Leaf _ => p = [] | Tree _ => p <> [] end) as FN by apply flatten_nonnil.
      destruct c as [v|dc]; [cbn; repeat constructor|].
      set (l := flatten_with_path (Tree dc)) in *. clearbody l. clear - IH FN.
      induction l as [|[p v] r IHr]; cbn [map fst] in *; [constructor|]. inversion IH as [|? ? I1 I2]; subst. constructor; [apply IHr; auto; intros; eapply FN; right; eauto|].
      rewrite Forall_forall in *. intros x Hx. apply in_map_iff in Hx. destruct Hx as ([q w] & <- & Hq).
      assert (p <> []) by (eapply FN; now left). assert (q <> []) by (eapply FN; right; eauto). cbn [fst]. rewrite !join_cons.
      destruct p; [congruence|]. destruct q; [congruence|]. apply klt_same. cbn. right. split; [reflexivity|]. apply I2. apply in_map_iff. eexists; split; [|exact Hq]; reflexivity.
    + intros p v H. apply in_map_iff in H. destruct H as ([q u] & [= <- _] & Hq). exists q. split; [reflexivity|].
      destruct c as [w|dc]; [left; now apply flatten_nonnil in Hq|right]. intros k2 I2. apply (X k' dc); [exact Hb|].
      rewrite <- map_fst_blocks. eapply Permutation_in; [apply Permutation_map; symmetry; apply ksort_perm|exact I2].
Qed.

Lemma combine_in {X Y} (f : X -> key) (xs : list X) (ys : list (key * Y)) : map f xs = map fst ys -> forall x y, In (x, y) (combine xs (map snd ys)) -> In (f x, y) ys.
Proof.
  revert ys; induction xs as [|x xs IH]; intros [|[k y] ys] E; cbn in *; try tauto; try discriminate. injection E as E1 E2.
  intros x' y' [[= <- <-]|H]; [left; now rewrite E1|right; eauto].
Qed.
Theorem repack {X} (s : struct) (fd : list (key * X)) : joinable 47 s ->
  Permutation (map fst fd) (map fst (flatten_with_joined_string_paths s)) ->
  exists r, pack_sequence_as s (nest_flatten_flat fd) = Ok r /\ map fst r = map fst (flatten_with_path s) /\
    forall p v, In (p, v) r -> In (join 47 p, v) fd.
Proof.
  intros K Pm. pose proof (flatten_sorted s K) as S. unfold flatten_with_joined_string_paths in Pm. rewrite map_map in Pm. cbn [fst] in Pm.
  assert (NoDup (map fst fd)) as N. { eapply Permutation_NoDup; [symmetry; exact Pm|]. now apply ssorted_nodup. }
  assert (map (join 47) (map fst (flatten_with_path s)) = map fst (ksort fd)) as E.
  { rewrite map_map. apply ssorted_unique; [exact S|now apply ksort_sorted|]. etransitivity; [symmetry; exact Pm|]. apply Permutation_map. apply ksort_perm. }
  assert (List.length (flatten_with_path s) = List.length (nest_flatten_flat fd)) as L.
  { unfold nest_flatten_flat. rewrite map_length. apply (f_equal (@List.length _)) in E. now rewrite !map_length in E. }
  unfold pack_sequence_as. rewrite L, Nat.eqb_refl. eexists; split; [reflexivity|]. split.
  - assert (forall X0 Y (a : list X0) (b : list Y), List.length a = List.length b -> map fst (combine a b) = a) as C.
    { clear. induction a; intros [|? ?] H; cbn in *; try discriminate; auto. f_equal; auto. }
    apply C. now rewrite map_length.
  - intros p v H. unfold nest_flatten_flat in H. apply (combine_in (join 47) _ _ E) in H.
    eapply Permutation_in; [symmetry; apply ksort_perm|exact H].
Qed.
End T.
