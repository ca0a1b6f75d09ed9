(** Slash-joined dictionaries and specification checks. *)
From Coq Require Import Ascii Permutation Sorted Lia.
From Verif Require Import Base M_Encoder L_Encoder M_Dicts S_Dicts L_Dicts L_Keys M_Gather S_Gather L_Gather L_Gather2 L_Gather3.

Lemma kunique {B} (l l' : list (key * B)) : ssorted (map fst l) -> ssorted (map fst l') -> (forall x, In x l <-> In x l') -> l = l'.
Proof.
  unfold ssorted. rewrite !ss_pairs. apply sorted_unique; [intros a; apply klt_irrefl|intros a b c; apply klt_trans].
Qed.
Lemma ksort_id {B} (l : list (key * B)) : ssorted (map fst l) -> ksort l = l.
Proof.
  intros S. apply kunique; [apply ksort_sorted; now apply ssorted_nodup|exact S|]. intros x. split; intros H; [eapply Permutation_in; [apply Permutation_sym, ksort_perm|exact H]|eapply Permutation_in; [apply ksort_perm|exact H]].
Qed.
Lemma kset_new {X} k (v : X) (d : list (key * X)) : ~ In k (map fst d) -> kset k v d = d ++ [(k, v)].
Proof.
  induction d as [|[k' w] r IH]; cbn; intros H; [reflexivity|]. destruct (list_eq_dec Nat.eq_dec k k') as [->|]; [tauto|]. rewrite IH; [reflexivity|tauto].
Qed.
Lemma odict_id {X} (l : list (key * X)) : NoDup (map fst l) -> odict l = l.
Proof.
  intros N. unfold odict. enough (G : forall acc, NoDup (map fst (acc ++ l)) -> fold_left (fun d kv => kset (fst kv) (snd kv) d) l acc = acc ++ l) by (rewrite (G []); auto).
  clear N. induction l as [|[k v] r IH]; intros acc N; cbn; [now rewrite app_nil_r|]. rewrite kset_new.
  - rewrite IH; rewrite <- app_assoc; [reflexivity|exact N].
  - rewrite map_app in N. cbn in N. apply NoDup_remove in N. destruct N as [_ N]. intros H. apply N. apply in_app_iff. now left.
Qed.
Lemma joinable_intro {X} (d : list (key * struct X)) : NoDup (map fst d) -> (forall k c k', In (k, Tree c) d -> In k' (map fst d) -> extends 47 k k') ->
  (forall k c, In (k, c) d -> joinable 47 c) -> joinable 47 (Tree d).
Proof.
  intros N E C. cbn. split; [exact N|]. split; [exact E|]. clear N E. induction d as [|[k c] r IH]; [exact I|]. split; [apply (C k); now left|]. apply IH. intros k' c' H. apply (C k'). now right.
Qed.
Lemma in_combine_fst {A B C} (l : list (A * B)) (l' : list (A * C)) x y : map fst l = map fst l' -> In (x, y) (combine l l') -> fst x = fst y /\ In x l /\ In y l'.
Proof.
  revert l'. induction l as [|a l IH]; intros [|b l'] E H; cbn in *; try tauto; try discriminate. injection E as E1 E2. destruct H as [[= <- <-]|H]; [auto|].
  destruct (IH l' E2 H) as (? & ? & ?). auto.
Qed.

Section G4.
Context {V Sp : Type} (spec : V -> Sp) (compatible : Sp -> V -> bool).
Hypothesis Eager : forall x y, compatible (spec x) y = true <-> spec x = spec y.
Notation dval := (dval V).
Notation alike := (alike spec).
Notation check_list := (check_list compatible).
Notation check_dict := (check_dict compatible).
Notation check_part := (check_part compatible).

Lemma safe_joinable (v : dval) : wf_dval v -> slash_safe v -> joinable 47 (to_struct v).
Proof.
  induction v as [x|x|d IH] using dval_ind2; intros W Sf; [exact I|exact I|]. pose proof (struct_distinct (fun b x => (b, x)) _ W) as D. unfold to_struct in *. rewrite struct_dict in *.
  inversion D as [|? N _]; subst. apply wf_inv in W. destruct W as [Nd W]. apply joinable_intro; [exact N| |].
  - intros k c k' H H'. apply in_map_iff in H. destruct H as ([k0 c0] & [= <- Ec] & H). apply in_map_iff in H'. destruct H' as ([k1 t1] & <- & H'). cbn [fst]. apply in_map_iff in H'. destruct H' as ([k2 c2] & [= <- _] & H').
    intros ch r E. apply (Sf [] k0 k2 ch r); [| |exact E]; cbn [app at_path].
    + rewrite (dget_nodup _ _ _ Nd H). cbn [snd fst] in *. destruct c0; cbn in Ec; try discriminate. reflexivity.
    + rewrite (dget_nodup _ _ _ Nd H'). destruct c2; cbn; discriminate.
  - intros k c H. apply in_map_iff in H. destruct H as ([k0 c0] & [= <- <-] & H). cbn [snd]. apply (IH k0 c0 H (W k0 c0 H)).
    intros p k k' ch r. specialize (Sf (k0 :: p) k k' ch r). cbn [app at_path] in Sf. now rewrite (dget_nodup _ _ _ Nd H) in Sf.
Qed.
Lemma joined_eq (v : dval) : wf_dval v -> slash_safe v -> joined v = flatten_with_joined_string_paths (to_struct v) /\ ssorted (map fst (joined v)).
Proof.
  intros W Sf. pose proof (flatten_sorted _ (safe_joinable v W Sf)) as S. unfold joined. rewrite odict_id.
  - split; [reflexivity|]. unfold flatten_with_joined_string_paths. rewrite map_map. exact S.
  - unfold flatten_with_joined_string_paths. rewrite map_map. cbn [fst]. now apply ssorted_nodup.
Qed.
Lemma jv_keys (v : dval) : map fst (joined_values v) = map fst (joined v).
Proof. unfold joined_values. rewrite map_map. reflexivity. Qed.
Lemma jv_snd (v : dval) : wf_dval v -> slash_safe v -> map snd (joined_values v) = values v.
Proof.
  intros W Sf. unfold joined_values, values, nflatten. destruct (joined_eq v W Sf) as [-> _]. unfold flatten_with_joined_string_paths. rewrite !map_map. reflexivity.
Qed.
Lemma jv_holds (v : dval) : wf_dval v -> slash_safe v -> only_tensors v -> holds v (joined_values v).
Proof.
  intros W Sf O. destruct (joined_eq v W Sf) as [E S]. split; [rewrite jv_keys; now apply ssorted_nodup|]. intros k x. unfold joined_values. rewrite E. unfold flatten_with_joined_string_paths. rewrite map_map. cbn [fst snd].
  rewrite in_map_iff. split.
  - intros ([p l] & [= <- <-] & H). unfold to_struct in H. apply (in_struct _ v W) in H. destruct H as (q & b & y & -> & Lf & ->). destruct (only_leaf _ _ _ O Lf) as (z & Ez & A). injection Ez as -> ->. exists q. auto.
  - intros (p & -> & A). exists (map codes p, (true, x)). split; [reflexivity|]. apply leaf_flat; [exact W|]. unfold leaf_at. now rewrite A.
Qed.
Lemma holds_ext (v w : dval) d : (forall p x, at_path p v = ATf x <-> at_path p w = ATf x) -> holds v d -> holds w d.
Proof.
  intros E [N H]. split; [exact N|]. intros k x. rewrite H. split; intros (p & -> & A); exists p; (split; [reflexivity|]); now apply E.
Qed.
Lemma holds_ksort (v : dval) d : wf_dval v -> slash_safe v -> only_tensors v -> holds v d -> ksort d = joined_values v.
Proof.
  intros W Sf O [N H]. destruct (jv_holds v W Sf O) as [N' H']. apply kunique; [now apply ksort_sorted|rewrite jv_keys; now apply joined_eq|].
  intros [k x]. rewrite H', <- H. split; intros G; [eapply Permutation_in; [apply Permutation_sym, ksort_perm|exact G]|eapply Permutation_in; [apply ksort_perm|exact G]].
Qed.
Lemma holds_flat (v : dval) d : wf_dval v -> slash_safe v -> only_tensors v -> holds v d -> nest_flatten_flat d = values v.
Proof. intros W Sf O H. unfold nest_flatten_flat. rewrite (holds_ksort v d) by assumption. now apply jv_snd. Qed.

(** ** Specification checks *)
Lemma alike_paths (v w : dval) : alike v w -> map fst (flatten_with_path (to_struct v)) = map fst (flatten_with_path (to_struct w)).
Proof. intros A. pose proof A as (Wv & Ww & _). apply same_paths; auto. intros q. now apply (alike_leaf spec). Qed.
Lemma check_values (v w : dval) : alike v w -> check_list (map spec (values v)) (values w) = Ok tt.
Proof.
  intros A. pose proof (alike_paths _ _ A) as P. unfold M_Gather.check_list, values, nflatten.
  assert (L : List.length (flatten_with_path (to_struct v)) = List.length (flatten_with_path (to_struct w))) by (rewrite <- (map_length fst), P; apply map_length).
  rewrite !map_length, L, Nat.eqb_refl. cbn [andb].
  enough (forallb (fun p => compatible (fst p) (snd p)) (combine (map spec (map snd (map snd (flatten_with_path (to_struct v))))) (map snd (map snd (flatten_with_path (to_struct w))))) = true) as -> by reflexivity.
  apply forallb_forall. intros [s x] H. cbn [fst snd]. rewrite !map_map in H. apply in_combine_map in H. destruct H as ([p l] & [p' l'] & H & [= -> ->]). apply in_combine_fst in H; [|exact P]. destruct H as (E & H1 & H2).
  cbn [fst snd] in *. subst p'. apply Eager. destruct A as (Wv & Ww & A). pose proof H1 as H1'. unfold to_struct in H1. apply (in_struct _ v Wv) in H1. destruct H1 as (q & b & y & -> & _).
  apply leaf_flat in H1'; [|exact Wv]. apply leaf_flat in H2; [|exact Ww]. specialize (A q). unfold leaf_at in *. destruct (at_path q v), (at_path q w); cbn in A; try tauto; try discriminate; injection H1' as <-; injection H2 as <-; cbn; congruence.
Qed.
Lemma check_joined (v w : dval) d : alike v w -> slash_safe v -> only_tensors v -> holds w d -> check_dict (map (fun kv => (fst kv, spec (snd kv))) (joined_values v)) d = Ok tt.
Proof.
  intros A Sf O H. pose proof A as (Wv & Ww & _). pose proof (alike_safe spec _ _ A Sf) as Sw. pose proof (alike_only spec _ _ A O) as Ow.
  unfold M_Gather.check_dict. rewrite (holds_ksort w d) by assumption. rewrite ksort_id by (rewrite map_map; cbn [fst]; change (map (fun x => fst x) (joined_values v)) with (map fst (joined_values v)); rewrite jv_keys; now apply joined_eq).
  rewrite map_map. cbn [fst]. change (map (fun x => fst x) (joined_values v)) with (map fst (joined_values v)). rewrite !jv_keys.
  replace (map fst (joined v)) with (map fst (joined w)).
  - replace (path_eqb (map fst (joined w)) (map fst (joined w))) with true by (symmetry; now apply path_eqb_iff). rewrite map_map. cbn [snd]. rewrite <- (map_map snd spec), !jv_snd by assumption. now apply check_values.
  - destruct (joined_eq v Wv Sf) as [-> _], (joined_eq w Ww Sw) as [-> _]. unfold flatten_with_joined_string_paths. rewrite !map_map. cbn [fst].
    rewrite <- (map_map fst (join 47)), <- (map_map fst (join 47) (flatten_with_path (to_struct v))). f_equal. symmetry. now apply alike_paths.
Qed.
(** ** Packing *)
Lemma pack_lists (v0 v : dval) l : wf_dval v0 -> wf_dval v -> only_tensors v -> (forall q, (exists x, leaf_at q v0 = Some x) <-> (exists x, leaf_at q v = Some x)) ->
  (forall q, at_path q v0 = ADict <-> at_path q v = ADict) -> lists v l -> exists v', pack (blank v0) (map tf l) = Ok v' /\ same v' v.
Proof.
  intros W0 W O Lf Di L. apply lists_values in L; [|exact W|exact O]. subst l. rewrite <- nflatten_tf by assumption. apply pack_flatten; [now apply blank_wf|exact W| |].
  - intros q. rewrite <- Lf. unfold leaf_at. rewrite blank_at. destruct (at_path q v0); split; intros [? ?]; try discriminate; eauto.
  - intros q. rewrite <- Di, blank_at. destruct (at_path q v0); split; congruence.
Qed.
Lemma pack_alike (v0 v : dval) l : alike v0 v -> only_tensors v0 -> lists v l -> exists v', pack (blank v0) (map tf l) = Ok v' /\ same v' v.
Proof.
  intros A O. pose proof A as (W0 & W & _). apply pack_lists; [exact W0|exact W|now apply (alike_only spec _ _ A)|intros q; now apply (alike_leaf spec)|intros q; now apply (alike_adict spec)].
Qed.
Lemma pack_arranged (v0 v : dval) l : arranged v0 v -> lists v l -> exists v', pack (blank v0) (map tf l) = Ok v' /\ same v' v.
Proof.
  intros A. pose proof A as (W0 & W & _). apply pack_lists; [exact W0|exact W|now apply (arranged_only _ _ A)|intros q; now apply arranged_leaf|intros q; now apply arranged_adict].
Qed.
Lemma lists_nil_tensor (v : dval) x : at_path [] v = ATf x -> lists v [x].
Proof.
  intros H. exists [[]]. split; [repeat constructor|]. split; [reflexivity|]. destruct v as [y|y|d]; try discriminate. injection H as ->. intros [|k p] z; cbn.
  - split; [intros [[= <-]|[]]; reflexivity|intros [= <-]; now left]. - split; [intros [[=]|[]]|discriminate].
Qed.
Lemma part_lists (v : dval) p : wf_dval v -> slash_safe v -> only_tensors v -> part_of v p -> lists v (part_values p).
Proof.
  intros W Sf O. destruct p as [x|d]; cbn [part_of part_values]; [apply lists_nil_tensor|]. intros [_ H]. apply lists_values; [exact W|exact O|]. now apply holds_flat.
Qed.
Lemma to_part_of (v : dval) : wf_dval v -> slash_safe v -> only_tensors v -> part_of v (to_part v).
Proof.
  intros W Sf O. destruct v as [x|x|d]; cbn [to_part part_of]; [now destruct (O [] x)|reflexivity|]. split; [reflexivity|]. now apply jv_holds.
Qed.
Lemma check_parts (v w : dval) p : alike v w -> slash_safe v -> only_tensors v -> part_of w p -> check_part (spec_of_part spec (to_part v)) p = Ok tt.
Proof.
  intros A Sf O H. pose proof A as (Wv & Ww & Al). specialize (Al []). destruct p as [x|d]; cbn [part_of] in H.
  - rewrite H in Al. destruct v as [y|y|dv]; cbn in Al; try tauto. cbn. unfold M_Gather.check_list. cbn. replace (compatible (spec y) x) with true by (symmetry; now apply Eager). reflexivity.
  - destruct H as [H1 H2]. rewrite H1 in Al. destruct v as [y|y|dv]; cbn in Al; try tauto. cbn [to_part spec_of_part M_Gather.check_part]. now apply (check_joined _ w).
Qed.
(** Two-key dictionaries. *)
Definition two (k1 k2 : string) (a b : dval) : dval := DDict [(k1, a); (k2, b)].
Lemma two_at k1 k2 a b p : at_path p (two k1 k2 a b) = match p with [] => ADict | k :: q => if String.eqb k k1 then at_path q a else if String.eqb k k2 then at_path q b else Nothing end.
Proof. destruct p as [|k q]; [reflexivity|]. cbn. destruct (String.eqb k k1); [reflexivity|]. destruct (String.eqb k k2); reflexivity. Qed.
Lemma two_wf k1 k2 a b : k1 <> k2 -> wf_dval a -> wf_dval b -> wf_dval (two k1 k2 a b).
Proof. intros N Wa Wb. apply wf_inv. split; [cbn; repeat constructor; cbn; intuition|]. intros k v [[= <- <-]|[[= <- <-]|[]]]; auto. Qed.
Lemma two_alike k1 k2 a b a' b' : k1 <> k2 -> alike a a' -> alike b b' -> alike (two k1 k2 a b) (two k1 k2 a' b').
Proof.
  intros N (Wa & Wa' & A) (Wb & Wb' & B). split; [now apply two_wf|]. split; [now apply two_wf|]. intros p. rewrite !two_at. destruct p as [|k q]; [exact I|].
  destruct (String.eqb k k1); [apply A|]. destruct (String.eqb k k2); [apply B|exact I].
Qed.
Lemma two_same k1 k2 a b a' b' : k1 <> k2 -> same a a' -> same b b' -> same (two k1 k2 a b) (two k1 k2 a' b').
Proof.
  intros N (Wa & Wa' & A) (Wb & Wb' & B). split; [now apply two_wf|]. split; [now apply two_wf|]. intros p. rewrite !two_at. destruct p as [|k q]; [reflexivity|].
  destruct (String.eqb k k1); [apply A|]. destruct (String.eqb k k2); [apply B|reflexivity].
Qed.
Lemma two_item k1 k2 a b v : k1 <> k2 -> same v (two k1 k2 a b) -> wf_dval a -> wf_dval b -> exists a' b', dict_item k1 v = Ok a' /\ dict_item k2 v = Ok b' /\ same a' a /\ same b' b.
Proof.
  intros N (W & _ & E) Wa Wb. destruct v as [x|x|d]; [specialize (E []); discriminate|specialize (E []); discriminate|]. apply wf_inv in W. destruct W as [Nd W]. unfold dict_item, dindex.
  assert (G1 : exists a', dget k1 d = Some a' /\ same a' a).
  { pose proof (E [k1]) as E1. rewrite two_at, String.eqb_refl in E1. cbn [at_path] in E1. destruct (dget k1 d) as [a'|] eqn:G; [|destruct a; discriminate]. exists a'. split; [reflexivity|].
    split; [apply (W k1); now apply dget_in|]. split; [exact Wa|]. intros p. specialize (E (k1 :: p)). rewrite two_at, String.eqb_refl in E. cbn [at_path] in E. now rewrite G in E. }
  assert (G2 : exists b', dget k2 d = Some b' /\ same b' b).
  { assert (Nb : String.eqb k2 k1 = false) by (apply String.eqb_neq; congruence).
    pose proof (E [k2]) as E1. rewrite two_at, Nb, String.eqb_refl in E1. cbn [at_path] in E1. destruct (dget k2 d) as [b'|] eqn:G; [|destruct b; discriminate]. exists b'. split; [reflexivity|].
    split; [apply (W k2); now apply dget_in|]. split; [exact Wb|]. intros p. specialize (E (k2 :: p)). rewrite two_at, Nb, String.eqb_refl in E. cbn [at_path] in E. now rewrite G in E. }
  destruct G1 as (a' & -> & Sa), G2 as (b' & -> & Sb). exists a', b'. auto.
Qed.
End G4.
