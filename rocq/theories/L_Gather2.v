(** Packing is the inverse of flattening. *)
From Coq Require Import Ascii Permutation Sorted Lia.
From Verif Require Import Base M_Encoder L_Encoder M_Dicts S_Dicts L_Dicts L_Keys M_Gather S_Gather L_Gather.

(** Lists of pairs sorted by their first components. *)
Lemma ss_pairs {A B} (R : A -> A -> Prop) (l : list (A * B)) : StronglySorted R (map fst l) <-> StronglySorted (fun x y => R (fst x) (fst y)) l.
Proof.
  induction l as [|a l IH]; cbn; split; intros S; try constructor; inversion S as [|? ? S1 F]; subst.
  - now apply IH. - rewrite Forall_forall in *. intros y Hy. apply F. now apply in_map.
  - now apply IH. - rewrite Forall_forall in *. intros y Hy. apply in_map_iff in Hy. destruct Hy as (z & <- & Hz). now apply F.
Qed.
Lemma ss_nodup {A} (R : A -> A -> Prop) (l : list A) : (forall a, ~ R a a) -> StronglySorted R l -> NoDup l.
Proof. intros Irr. induction 1 as [|a l S IH F]; constructor; auto. intros H. rewrite Forall_forall in F. apply (Irr a). auto. Qed.
Lemma pairs_unique {B} (l l' : list (list key * B)) : StronglySorted plt (map fst l) -> StronglySorted plt (map fst l') -> (forall x, In x l <-> In x l') -> l = l'.
Proof.
  rewrite !ss_pairs. apply sorted_unique; [intros a; apply plt_irrefl|intros a b c; apply plt_trans].
Qed.
Lemma map_fst_combine {X Y} (a : list X) (b : list Y) : List.length a = List.length b -> map fst (combine a b) = a.
Proof. revert b; induction a; intros [|? ?] H; cbn in *; try discriminate; auto. f_equal; auto. Qed.
Lemma map_snd_combine {X Y} (a : list X) (b : list Y) : List.length a = List.length b -> map snd (combine a b) = b.
Proof. revert b; induction a; intros [|? ?] H; cbn in *; try discriminate; auto. f_equal; auto. Qed.
Lemma combine_fst_snd {X Y} (l : list (X * Y)) : combine (map fst l) (map snd l) = l.
Proof. induction l as [|[a b] l IH]; cbn; [reflexivity|]. now rewrite IH. Qed.

Lemma path_eqb_iff p q : path_eqb p q = true <-> p = q.
Proof. unfold path_eqb. destruct (list_eq_dec (list_eq_dec Nat.eq_dec) p q); split; congruence. Qed.
Lemma plookup_in {V} p (r : list (list key * leaf V)) l : NoDup (map fst r) -> (plookup p r = Some l <-> In (p, l) r).
Proof.
  induction r as [|[q m] r IH]; cbn; intros N; [split; [discriminate|tauto]|]. inversion N as [|? ? N1 N2]; subst. destruct (path_eqb p q) eqn:E.
  - apply path_eqb_iff in E as ->. split; [intros [= ->]; now left|]. intros [[= ->]|H]; [reflexivity|]. destruct N1. apply (in_map fst) in H. exact H.
  - rewrite IH by assumption. split; [auto|]. intros [[= -> _]|H]; [|assumption]. assert (path_eqb p p = true) by now apply path_eqb_iff. congruence.
Qed.

Section Sites.
Context {A B : Type}.
Lemma same_paths {X Y} (f : bool -> A -> X) (g : bool -> B -> Y) (v : dval A) (w : dval B) : wf_dval v -> wf_dval w ->
  (forall q, (exists l, leaf_at q v = Some l) <-> (exists l, leaf_at q w = Some l)) ->
  map fst (flatten_with_path (structure f v)) = map fst (flatten_with_path (structure g w)).
Proof.
  intros Wv Ww E. apply (sorted_unique plt plt_irrefl plt_trans); [now apply flatten_psorted, struct_distinct|now apply flatten_psorted, struct_distinct|].
  intros p. rewrite !in_map_iff. split.
  - intros ([p' x] & <- & H). apply (in_struct f v Wv) in H. destruct H as (q & b & y & -> & L & _). destruct (proj1 (E q)) as [[b' y'] L']; [eauto|].
    exists (map codes q, g b' y'). split; [reflexivity|]. apply (in_struct g w Ww). exists q, b', y'. auto.
  - intros ([p' x] & <- & H). apply (in_struct g w Ww) in H. destruct H as (q & b & y & -> & L & _). destruct (proj2 (E q)) as [[b' y'] L']; [eauto|].
    exists (map codes q, f b' y'). split; [reflexivity|]. apply (in_struct f v Wv). exists q, b', y'. auto.
Qed.
End Sites.

Section Pack.
Context {V : Type}.
Notation dval := (dval V).
Lemma blank_dict (d : dict dval) : blank (DDict d) = DDict (map (fun kc => (fst kc, blank (snd kc))) d).
Proof. cbn. f_equal. induction d as [|[k c] r IH]; cbn; [reflexivity|]. now rewrite IH. Qed.
Lemma blank_at (v : dval) : forall q, at_path q (blank v) = match at_path q v with Nothing => Nothing | ADict => ADict | _ => APy tt end.
Proof.
  induction v as [x|x|d IH] using dval_ind2; intros [|k q]; try reflexivity. rewrite blank_dict. cbn [at_path]. rewrite dget_map. destruct (dget k d) as [c|] eqn:E; [|reflexivity].
  cbn [option_map]. apply dget_in in E. eauto.
Qed.
Lemma blank_wf (v : dval) : wf_dval v -> wf_dval (blank v).
Proof.
  induction v as [x|x|d IH] using dval_ind2; intros Wf; [exact I|exact I|]. rewrite blank_dict. apply wf_inv in Wf. destruct Wf as [N Wd]. apply wf_inv. split.
  - unfold dkeys in *. rewrite map_map. exact N.
  - intros k c H. apply in_map_iff in H. destruct H as ([k' c'] & [= <- <-] & H). cbn [snd]. eauto.
Qed.
Definition found_of (o : option (leaf V)) : @found V := match o with Some (true, x) => ATf x | Some (false, x) => APy x | None => Nothing end.
Lemma fill_spec (s : M_Dicts.dval unit) : wf_dval s -> forall look : list key -> option (leaf V), (forall q, at_path q s = APy tt \/ at_path q s = ATf tt -> look (map codes q) <> None) ->
  exists v, fill s look = Ok v /\ wf_dval v /\ forall q, at_path q v = match at_path q s with Nothing => Nothing | ADict => ADict | _ => found_of (look (map codes q)) end.
Proof.
  induction s as [[]|[]|d IH] using dval_ind2; intros Wf look H.
  - cbn [fill]. specialize (H [] (or_introl eq_refl)) as H'. cbn [map] in H'. destruct (look []) as [[[] x]|] eqn:E; [| |congruence]; (eexists; split; [reflexivity|]; split; [exact I|]);
      intros [|k q]; cbn; rewrite ?E; reflexivity.
  - cbn [fill]. specialize (H [] (or_intror eq_refl)) as H'. cbn [map] in H'. destruct (look []) as [[[] x]|] eqn:E; [| |congruence]; (eexists; split; [reflexivity|]; split; [exact I|]);
      intros [|k q]; cbn; rewrite ?E; reflexivity.
  - apply wf_inv in Wf. destruct Wf as [N Wd]. cbn [fill].
    assert (G : exists d', (fix go d := match d with
                         | [] => Ok []
                         | (k, c) :: r => do c' <- fill c (fun p => look (codes k :: p)) ;; do r' <- go r ;; Ok ((k, c') :: r')
                         end) d = Ok d' /\ dkeys d' = dkeys d /\ (forall k c', In (k, c') d' -> wf_dval c') /\
        forall k, match dget k d with
                  | None => dget k d' = None
                  | Some c => exists c', dget k d' = Some c' /\ forall q, at_path q c' = match at_path q c with Nothing => Nothing | ADict => ADict | _ => found_of (look (codes k :: map codes q)) end
                  end).
    { assert (H' : forall k c, In (k, c) d -> forall q, at_path q c = APy tt \/ at_path q c = ATf tt -> look (codes k :: map codes q) <> None).
      { intros k c Hin q Hq. apply (H (k :: q)). cbn [at_path]. now rewrite (dget_nodup _ _ _ N Hin). }
      clear H. induction d as [|[k c] r IHr].
      - exists []. repeat split. intros ? ? []. 
      - inversion N as [|? ? N1 N2]; subst. destruct (IH k c (or_introl eq_refl) (Wd k c (or_introl eq_refl)) (fun p => look (codes k :: p)) (H' k c (or_introl eq_refl))) as (c' & E1 & W1 & A1).
        destruct IHr as (r' & E2 & K2 & W2 & A2); [intros k2 c2 Hc; apply (IH k2 c2); now right|assumption|intros k2 c2 Hc; apply (Wd k2 c2); now right|intros k2 c2 Hc; apply (H' k2 c2); now right|].
        rewrite E1. cbn [bind]. rewrite E2. cbn [bind]. exists ((k, c') :: r'). split; [reflexivity|]. split; [unfold dkeys in *; cbn [map fst]; now rewrite K2|]. split.
        + intros k2 c2 [[= <- <-]|Hc]; eauto.
        + intros k2. cbn [dget]. destruct (String.eqb_spec k2 k) as [->|]; [|apply A2]. exists c'. auto. }
    destruct G as (d' & E & Kd & Wd' & A). rewrite E. cbn [bind]. exists (DDict d'). split; [reflexivity|]. split; [apply wf_inv; split; [now rewrite Kd|exact Wd']|].
    intros [|k q]; [reflexivity|]. cbn [at_path map]. specialize (A k). destruct (dget k d) as [c|]; [|now rewrite A]. destruct A as (c' & -> & A). apply A.
Qed.
Notation usites := (structure (fun _ _ => tt)).
Lemma pack_list (s : M_Dicts.dval unit) (l : list (leaf V)) : wf_dval s -> List.length l = List.length (flatten_with_path (usites s)) ->
  exists v, pack s l = Ok v /\ wf_dval v /\ nflatten v = l /\ (forall q, (exists x, leaf_at q v = Some x) <-> (exists x, leaf_at q s = Some x)) /\
    (forall q, at_path q v = ADict <-> at_path q s = ADict).
Proof.
  intros Wf L. unfold pack, pack_sequence_as. rewrite L, Nat.eqb_refl. cbn [bind]. set (ps := map fst (flatten_with_path (usites s))).
  assert (Lp : List.length ps = List.length l) by (unfold ps; now rewrite map_length).
  assert (Sp : StronglySorted plt ps) by (apply flatten_psorted, struct_distinct; exact Wf).
  assert (Np : NoDup (map fst (combine ps l))) by (rewrite map_fst_combine by exact Lp; apply (ss_nodup plt _ plt_irrefl Sp)).
  assert (Site : forall q, In (map codes q) ps <-> exists x, leaf_at q s = Some x).
  { intros q. unfold ps. rewrite in_map_iff. split.
    - intros ([p x] & E & H). cbn [fst] in E. apply (in_struct _ s Wf) in H. destruct H as (q' & b & y & -> & Lf & _). apply map_codes_inj in E as ->. eauto.
    - intros [[b y] Lf]. exists (map codes q, tt). split; [reflexivity|]. apply (in_struct _ s Wf). exists q, b, y. auto. }
  assert (Look : forall q x, plookup (map codes q) (combine ps l) = Some x <-> In (map codes q, x) (combine ps l)) by (intros; now apply plookup_in).
  destruct (fill_spec s Wf (fun p => plookup p (combine ps l))) as (v & E & Wv & A).
  { intros q Hq. assert (Hs : In (map codes q) ps) by (apply Site; unfold leaf_at; destruct Hq as [-> | ->]; eauto).
    intros Hn. rewrite <- (map_fst_combine ps l Lp) in Hs. apply in_map_iff in Hs. destruct Hs as ([p x] & Ep & Hs). cbn [fst] in Ep. subst p. apply plookup_in in Hs; [|exact Np]. congruence. }
  exists v. split; [exact E|]. split; [exact Wv|].
  assert (Lv : forall q, leaf_at q v = plookup (map codes q) (combine ps l)).
  { intros q. unfold leaf_at. rewrite A. destruct (at_path q s) eqn:Eq.
    - symmetry. destruct (plookup _ _) as [x|] eqn:P; [|reflexivity]. apply Look in P. apply (in_map fst) in P. rewrite map_fst_combine in P by exact Lp. apply Site in P. unfold leaf_at in P. rewrite Eq in P. now destruct P.
    - symmetry. destruct (plookup _ _) as [x|] eqn:P; [|reflexivity]. apply Look in P. apply (in_map fst) in P. rewrite map_fst_combine in P by exact Lp. apply Site in P. unfold leaf_at in P. rewrite Eq in P. now destruct P.
    - destruct (plookup _ _) as [[[] x]|]; reflexivity.
    - destruct (plookup _ _) as [[[] x]|]; reflexivity. }
  split.
  { unfold nflatten. rewrite <- (map_snd_combine ps l Lp). f_equal. apply pairs_unique.
    - apply flatten_psorted, struct_distinct, Wv. - now rewrite map_fst_combine.
    - intros [p x]. unfold to_struct. rewrite (in_struct _ v Wv). split.
      + intros (q & b & y & -> & Lf & ->). rewrite Lv in Lf. now apply Look.
      + intros H. assert (Hp : In p ps) by (rewrite <- (map_fst_combine ps l Lp); now apply (in_map fst) in H).
        assert (exists q, p = map codes q) as [q ->]. { unfold ps in Hp. apply in_map_iff in Hp. destruct Hp as ([p' t] & <- & Hp). apply (in_struct _ s Wf) in Hp. destruct Hp as (q & _ & _ & -> & _). now exists q. }
        destruct x as [b y]. exists q, b, y. split; [reflexivity|]. split; [|reflexivity]. rewrite Lv. now apply Look. }
  split.
  - intros q. rewrite Lv. rewrite <- Site. split.
    + intros [x P]. apply Look in P. apply (in_map fst) in P. now rewrite map_fst_combine in P.
    + intros Hs. rewrite <- (map_fst_combine ps l Lp) in Hs. apply in_map_iff in Hs. destruct Hs as ([p x] & Ep & Hs). cbn [fst] in Ep. subst p. exists x. now apply Look.
  - intros q. rewrite A. destruct (at_path q s); try (split; (reflexivity || congruence || discriminate)).
    + destruct (plookup (map codes q) (combine ps l)) as [[[] x]|]; split; discriminate.
    + destruct (plookup (map codes q) (combine ps l)) as [[[] x]|]; split; discriminate.
Qed.

(** Equal leaves and equal dictionary paths: the same dictionary. *)
Lemma leaf_found (v : dval) q : at_path q v = match leaf_at q v with Some l => found_of (Some l) | None => match at_path q v with ADict => ADict | _ => Nothing end end.
Proof. unfold leaf_at. destruct (at_path q v); reflexivity. Qed.
Lemma same_intro (v w : dval) : wf_dval v -> wf_dval w -> (forall q, leaf_at q v = leaf_at q w) -> (forall q, at_path q v = ADict <-> at_path q w = ADict) -> same v w.
Proof.
  intros Wv Ww L D. split; [exact Wv|]. split; [exact Ww|]. intros q. rewrite (leaf_found v q), (leaf_found w q), L. destruct (leaf_at q w); [reflexivity|].
  specialize (D q). destruct (at_path q v) eqn:Ev, (at_path q w) eqn:Ew; try reflexivity; exfalso; destruct D as [D1 D2]; try (specialize (D1 eq_refl); discriminate); try (specialize (D2 eq_refl); discriminate).
Qed.
Lemma leaf_flat (v : dval) q l : wf_dval v -> (leaf_at q v = Some l <-> In (map codes q, l) (flatten_with_path (to_struct v))).
Proof.
  intros Wv. unfold to_struct. rewrite (in_struct _ v Wv). split.
  - intros H. destruct l as [b y]. exists q, b, y. auto.
  - intros (q' & b & y & E & H & ->). apply map_codes_inj in E as ->. exact H.
Qed.
Lemma same_flat (v w : dval) : same v w -> flatten_with_path (to_struct v) = flatten_with_path (to_struct w).
Proof.
  intros (Wv & Ww & E). apply pairs_unique; [now apply flatten_psorted, struct_distinct|now apply flatten_psorted, struct_distinct|].
  intros [p x]. unfold to_struct. rewrite (in_struct _ v Wv), (in_struct _ w Ww). unfold leaf_at. split; intros (q & b & y & H); exists q, b, y; [now rewrite <- E|now rewrite E].
Qed.
(** What is packed from the listing of a dictionary of the recorded structure is that dictionary. *)
Lemma pack_flatten (s : M_Dicts.dval unit) (v0 : dval) : wf_dval s -> wf_dval v0 ->
  (forall q, (exists x, leaf_at q v0 = Some x) <-> (exists x, leaf_at q s = Some x)) -> (forall q, at_path q v0 = ADict <-> at_path q s = ADict) ->
  exists v, pack s (nflatten v0) = Ok v /\ same v v0.
Proof.
  intros Ws W0 Si Di. assert (P0 : map fst (flatten_with_path (to_struct v0)) = map fst (flatten_with_path (usites s))) by now apply same_paths.
  destruct (pack_list s (nflatten v0)) as (v & E & Wv & Fv & Sv & Dv); [exact Ws|unfold nflatten; rewrite map_length, <- (map_length fst (flatten_with_path (usites s))), <- P0; now rewrite map_length|].
  exists v. split; [exact E|].
  assert (Pv : map fst (flatten_with_path (to_struct v)) = map fst (flatten_with_path (to_struct v0))) by (rewrite P0; now apply same_paths).
  assert (Fl : flatten_with_path (to_struct v) = flatten_with_path (to_struct v0)).
  { rewrite <- (combine_fst_snd (flatten_with_path (to_struct v))), <- (combine_fst_snd (flatten_with_path (to_struct v0))). now rewrite Pv, <- (Fv : map snd _ = map snd _). }
  apply same_intro; [exact Wv|exact W0| |intros q; now rewrite Dv, Di].
  intros q. destruct (leaf_at q v) as [l|] eqn:Lv.
  - symmetry. apply leaf_flat; [exact W0|]. rewrite <- Fl. now apply leaf_flat.
  - destruct (leaf_at q v0) as [l|] eqn:L0; [|reflexivity]. apply leaf_flat in L0; [|exact W0]. rewrite <- Fl in L0. apply leaf_flat in L0; [|exact Wv]. congruence.
Qed.
End Pack.
