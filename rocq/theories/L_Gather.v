(** Lemmas about flattening and packing nested dictionaries. *)
From Coq Require Import Ascii Permutation Sorted Lia.
From Verif Require Import Base M_Encoder L_Encoder M_Dicts S_Dicts L_Dicts L_Keys M_Gather S_Gather.

Lemma codes_inj a b : codes a = codes b -> a = b.
Proof.
  unfold codes. intros H. rewrite <- (string_of_list_ascii_of_string a), <- (string_of_list_ascii_of_string b). f_equal.
  revert H. generalize (list_ascii_of_string a) (list_ascii_of_string b). induction l as [|x l IH]; intros [|y l'] E; cbn in E; try discriminate; [reflexivity|].
  injection E as E1 E2. f_equal; [|auto]. rewrite <- (ascii_nat_embedding x), <- (ascii_nat_embedding y). now rewrite E1.
Qed.
Lemma map_codes_inj p q : map codes p = map codes q -> p = q.
Proof. revert q; induction p as [|k p IH]; intros [|k' q] E; cbn in E; try discriminate; [reflexivity|]. injection E as E1 E2. f_equal; [now apply codes_inj|auto]. Qed.

(** Path order on code points. *)
Fixpoint plt (p q : list key) : Prop := match p, q with k :: p', k' :: q' => klt k k' \/ (k = k' /\ plt p' q') | _, _ => False end.
Lemma plt_irrefl p : ~ plt p p.
Proof. induction p as [|k p IH]; cbn; [tauto|]. intros [H|[_ H]]; [now apply klt_irrefl in H|auto]. Qed.
Lemma plt_trans p q r : plt p q -> plt q r -> plt p r.
Proof.
  revert q r; induction p as [|a p IH]; intros [|b q] [|c r]; cbn [plt]; try tauto. intros [H|[-> H]] [H'|[-> H']].
  - left; eapply klt_trans; eauto. - now left. - now left. - right. split; [reflexivity|eauto].
Qed.
Lemma key_lt_klt a b : key_lt a b <-> klt a b.
Proof. revert b; induction a as [|x a IH]; intros [|y b]; cbn; rewrite ?IH; tauto. Qed.
Lemma path_lt_plt p q : path_lt p q <-> plt (map codes p) (map codes q).
Proof.
  revert q; induction p as [|k p IH]; intros [|k' q]; cbn; try tauto. rewrite key_lt_klt, IH. split; intros [H|[E H]]; auto; right; split; auto; [now f_equal|now apply codes_inj].
Qed.
Lemma sorted_unique {A} (R : A -> A -> Prop) : (forall a, ~ R a a) -> (forall a b c, R a b -> R b c -> R a c) ->
  forall l l', StronglySorted R l -> StronglySorted R l' -> (forall x, In x l <-> In x l') -> l = l'.
Proof.
  intros Irr Tr l. induction l as [|a l IH]; intros l' S S' E.
  - destruct l' as [|b l']; [reflexivity|]. destruct (proj2 (E b)); now left.
  - destruct l' as [|b l']; [destruct (proj1 (E a)); now left|]. inversion S as [|? ? S1 F1]; subst. inversion S' as [|? ? S2 F2]; subst. rewrite Forall_forall in F1, F2.
    assert (a = b) as ->.
    { destruct (proj1 (E a) (or_introl eq_refl)) as [->|Ha]; [reflexivity|]. destruct (proj2 (E b) (or_introl eq_refl)) as [->|Hb]; [reflexivity|]. exfalso. apply (Irr a). eapply Tr; eauto. }
    f_equal. apply IH; auto. intros x. split; intros H.
    + destruct (proj1 (E x) (or_intror H)) as [->|]; [|assumption]. now apply F1, Irr in H.
    + destruct (proj2 (E x) (or_intror H)) as [->|]; [|assumption]. now apply F2, Irr in H.
Qed.

(** Structures with distinct keys flatten to sorted paths. *)
Section Str.
Context {X : Type}.
Inductive distinct : struct X -> Prop :=
| dLeaf x : distinct (Leaf x)
| dTree d : NoDup (map fst d) -> (forall k c, In (k, c) d -> distinct c) -> distinct (Tree d).
Lemma in_flatten (d : list (key * struct X)) p x : In (p, x) (flatten_with_path (Tree d)) <-> exists k c q, In (k, c) d /\ p = k :: q /\ In (q, x) (flatten_with_path c).
Proof.
  rewrite flatten_tree, in_concat. split.
  - intros (b & Hb & H). apply in_map_iff in Hb. destruct Hb as ([k b'] & <- & Hb). cbn in H.
    apply (Permutation_in _ (Permutation_sym (ksort_perm (blocks d)))) in Hb. unfold blocks in Hb. apply in_map_iff in Hb. destruct Hb as ([k' c] & [= <- <-] & Hb).
    cbn [fst snd] in H. apply in_map_iff in H. destruct H as ([q u] & [= <- <-] & Hq). exists k', c, q. auto.
  - intros (k & c & q & I1 & -> & I2). exists (map (fun pv => (k :: fst pv, snd pv)) (flatten_with_path c)). split.
    + apply in_map_iff. exists (k, map (fun pv => (k :: fst pv, snd pv)) (flatten_with_path c)). split; [reflexivity|].
      eapply Permutation_in; [apply ksort_perm|]. unfold blocks. apply in_map_iff. exists (k, c). auto.
    + apply in_map_iff. exists (q, x). auto.
Qed.
Lemma pss_app (l l' : list (list key)) : StronglySorted plt l -> StronglySorted plt l' -> (forall a b, In a l -> In b l' -> plt a b) -> StronglySorted plt (l ++ l').
Proof.
  intros S; revert l'; induction S as [|a l S IH F]; intros l' S' H; cbn; [auto|]. constructor; [apply IH; auto; intros; apply H; cbn; auto|].
  apply Forall_app. split; [auto|]. apply Forall_forall. intros b Hb. apply H; cbn; auto.
Qed.
Lemma flatten_psorted (s : struct X) : distinct s -> StronglySorted plt (map fst (flatten_with_path s)).
Proof.
  induction s as [v|d IH] using struct_ind2; intros D; [cbn; repeat constructor|]. rewrite flatten_tree. inversion D as [|? N Dc]; subst.
  assert (S : ssorted (map fst (ksort (blocks d)))) by (apply ksort_sorted; now rewrite map_fst_blocks).
  assert (B : forall k b, In (k, b) (ksort (blocks d)) -> exists c, In (k, c) d /\ b = map (fun pv => (k :: fst pv, snd pv)) (flatten_with_path c)).
  { intros k b Hb. apply (Permutation_in _ (Permutation_sym (ksort_perm (blocks d)))) in Hb. unfold blocks in Hb. apply in_map_iff in Hb.
    destruct Hb as ([k' c] & [= <- <-] & Hb). exists c. auto. }
  revert S B. generalize (ksort (blocks d)). induction l as [|[k b] r IHr]; intros S B; cbn; [constructor|]. inversion S as [|? ? S1 S2]; subst. rewrite map_app. apply pss_app.
  - destruct (B k b (or_introl eq_refl)) as (c & Ic & ->). specialize (IH k c Ic (Dc k c Ic)). rewrite map_map. cbn [fst].
    revert IH. generalize (flatten_with_path c). induction l as [|[p v] l IHl]; cbn [map fst]; intros IH; [constructor|]. inversion IH as [|? ? I1 I2]; subst. constructor; [auto|].
    rewrite Forall_forall in *. intros q Hq. apply in_map_iff in Hq. destruct Hq as ([q' w] & <- & Hq). cbn. right. split; [reflexivity|]. apply I2. apply in_map_iff. exists (q', w). auto.
  - apply IHr; auto. intros k' b' Hb'. apply B. now right.
  - intros p q Hp Hq. apply in_map_iff in Hp, Hq. destruct Hp as ([p' v] & <- & Hp), Hq as ([q' w] & <- & Hq). cbn [fst].
    destruct (B k b (or_introl eq_refl)) as (c & _ & ->). apply in_map_iff in Hp. destruct Hp as ([p1 v1] & [= <- _] & _).
    apply in_concat in Hq. destruct Hq as (b' & Hb' & Hq). apply in_map_iff in Hb'. destruct Hb' as ([k' b''] & <- & Hb'). cbn [snd] in Hq.
    destruct (B k' b'' (or_intror Hb')) as (c' & _ & ->). apply in_map_iff in Hq. destruct Hq as ([q1 w1] & [= <- _] & _). cbn. left.
    rewrite Forall_forall in S2. apply S2. apply in_map_iff. exists (k', map (fun pv => (k' :: fst pv, snd pv)) (flatten_with_path c')). auto.
Qed.
End Str.

(** Flattened dictionaries. *)
Section Dv.
Context {V : Type}.
Notation dval := (dval V).
Lemma struct_dict {X} (f : bool -> V -> X) (d : dict dval) : structure f (DDict d) = Tree (map (fun kc => (codes (fst kc), structure f (snd kc))) d).
Proof. cbn. f_equal. induction d as [|[k c] r IH]; cbn; [reflexivity|]. now rewrite IH. Qed.
Lemma struct_distinct {X} (f : bool -> V -> X) (v : dval) : wf_dval v -> distinct (structure f v).
Proof.
  induction v as [x|x|d IH] using dval_ind2; intros Wf; [constructor|constructor|]. rewrite struct_dict. apply wf_inv in Wf. destruct Wf as [N Wd]. constructor.
  - rewrite map_map. cbn [fst]. replace (map (fun x => codes (fst x)) d) with (map codes (dkeys d)) by (unfold dkeys; now rewrite map_map).
    clear - N. induction N as [|k l N1 N2 IHn]; cbn; constructor; auto. intros H. apply N1. apply in_map_iff in H. destruct H as (k' & E & H). apply codes_inj in E. now subst.
  - intros k c H. apply in_map_iff in H. destruct H as ([k' c'] & [= <- <-] & H). cbn [snd]. eauto.
Qed.
(** A leaf, if there is one at the path. *)
Definition leaf_at (p : list string) (v : dval) : option (leaf V) := match at_path p v with APy x => Some (false, x) | ATf x => Some (true, x) | _ => None end.
Lemma in_struct {X} (f : bool -> V -> X) (v : dval) : wf_dval v -> forall p x, In (p, x) (flatten_with_path (structure f v)) <->
  exists q b y, p = map codes q /\ leaf_at q v = Some (b, y) /\ x = f b y.
Proof.
  induction v as [y|y|d IH] using dval_ind2; intros Wf p x.
  - cbn. split.
    + intros [[= <- <-]|[]]. exists [], false, y. auto.
    + intros ([|k q] & b & z & -> & E & ->); cbn in E; [|discriminate]. injection E as <- <-. now left.
  - cbn. split.
    + intros [[= <- <-]|[]]. exists [], true, y. auto.
    + intros ([|k q] & b & z & -> & E & ->); cbn in E; [|discriminate]. injection E as <- <-. now left.
  - rewrite struct_dict, in_flatten. apply wf_inv in Wf. destruct Wf as [N Wd]. split.
    + intros (k & c & q & I1 & -> & I2). apply in_map_iff in I1. destruct I1 as ([k' c'] & [= <- <-] & I1). cbn [snd] in I2.
      apply (IH k' c' I1 (Wd k' c' I1)) in I2. destruct I2 as (q' & b & y & -> & E & ->). exists (k' :: q'), b, y. split; [reflexivity|]. split; [|reflexivity].
      unfold leaf_at in *. cbn [at_path]. now rewrite (dget_nodup _ _ _ N I1).
    + intros (q & b & y & -> & E & ->). unfold leaf_at in E. destruct q as [|k q]; cbn [at_path] in E; [discriminate|].
      destruct (dget k d) as [c|] eqn:G; [|discriminate]. apply dget_in in G. exists (codes k), (structure f c), (map codes q). split; [apply in_map_iff; exists (k, c); auto|].
      split; [reflexivity|]. apply (IH k c G (Wd k c G)). exists q, b, y. auto.
Qed.
End Dv.
