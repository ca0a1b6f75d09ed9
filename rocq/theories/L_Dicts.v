(** Lemmas about nested dictionaries. *)
From Verif Require Import Base M_Encoder L_Encoder M_Dicts S_Dicts.
From Coq Require Import Permutation Sorted.

Section DV.
Context {V : Type}.
Notation dval := (dval V).

Fixpoint dval_ind2 (Q : dval -> Prop) (H1 : forall v, Q (DPy v)) (H2 : forall v, Q (DTf v))
  (H : forall d, (forall k v, In (k, v) d -> Q v) -> Q (DDict d)) (e : dval) : Q e.
Proof.
  destruct e as [t|t|d]; [apply H1|apply H2|]. apply H. induction d as [|[k c] r IH]; [intros ? ? []|].
  intros k' c' [E|G]; [|eapply IH; eauto]. injection E as _ <-. apply dval_ind2; auto.
Qed.
Lemma wf_inv (d : dict dval) : wf_dval (DDict d) <-> NoDup (dkeys d) /\ forall k v, In (k, v) d -> wf_dval v.
Proof.
  cbn. split; intros [A B]; (split; [exact A|]); clear A.
  - induction d as [|[k v] r IH]; [intros ? ? []|]. destruct B as [B1 B2]. intros k' v' [E|H]; [injection E as _ <-; auto|eapply IH; eauto].
  - induction d as [|[k v] r IH]; [exact I|]. split; [eapply B; now left|]. apply IH. intros; eapply B; right; eauto.
Qed.

(** First loop of merge. *)
Definition first_loop (d2 : dict dval) := fix go (d : dict dval) : res (dict dval) := match d with
        | [] => Ok []
        | (k, v) :: r =>
            do w <- match v with
                    | DDict _ => match dget k d2 with
                                 | Some (DDict e) => merge_dicts v (DDict e)
                                 | _ => Err ValueError end
                    | _ => Ok v end ;;
            do rest <- go r ;; Ok ((k, w) :: rest)
        end.
Lemma merge_unfold (d1 d2 : dict dval) : merge_dicts (DDict d1) (DDict d2) = do merged <- first_loop d2 d1 ;; do m <- merge_second d1 d2 merged ;; Ok (DDict m).
Proof. reflexivity. Qed.

Lemma second_ok (d1 d2 m m' : dict dval) : NoDup (dkeys d2) -> merge_second d1 d2 m = Ok m' ->
  (forall k y, dget k d2 = Some (DDict y) -> exists x, dget k d1 = Some (DDict x)) /\
  (forall k v, dget k d2 = Some v -> is_dict v = false -> dget k m = None) /\
  (forall k, dget k m' = match dget k m with Some v => Some v | None => match dget k d2 with Some v => if is_dict v then None else Some v | None => None end end).
Proof.
  revert m. induction d2 as [|[k v] r IH]; intros m N; cbn [merge_second].
  - intros [= <-]. repeat split; try (cbn; discriminate). intros k. cbn. destruct (dget k m); reflexivity.
  - inversion N as [|? ? N1 N2]; subst. destruct (is_dict v) eqn:D.
    + destruct v as [| |d]; try discriminate. destruct (dget k d1) as [[| |x]|] eqn:G; try discriminate. intros H.
      destruct (IH m N2 H) as (A & B & C). assert (dget k r = None) as Kr by (apply dget_none; exact N1). repeat split.
      * intros k0 y. cbn [dget]. destruct (String.eqb_spec k0 k) as [->|]; [eauto|apply A].
      * intros k0 v0. cbn [dget]. destruct (String.eqb_spec k0 k) as [->|]; [intros [= <-]; cbn; discriminate|apply B].
      * intros k0. rewrite C. cbn [dget]. destruct (String.eqb_spec k0 k) as [->|]; [|reflexivity]. rewrite Kr. destruct (dget k m); reflexivity.
    + destruct (dget k m) eqn:G; [discriminate|]. intros H. destruct (IH _ N2 H) as (A & B & C).
      assert (dget k r = None) as Kr by (apply dget_none; exact N1).
      assert (forall k0, dget k0 (m ++ [(k, v)]) = match dget k0 m with Some w => Some w | None => if (k0 =? k)%string then Some v else None end) as Ga.
      { intros k0. clear. induction m as [|[k' w] r IH]; cbn; [reflexivity|]. destruct (k0 =? k')%string; [reflexivity|apply IH]. }
      repeat split.
      * intros k0 y. cbn [dget]. destruct (String.eqb_spec k0 k) as [->|]; [intros [= ->]; discriminate|apply A].
      * intros k0 v0. cbn [dget]. destruct (String.eqb_spec k0 k) as [->|Hn]; [intros; exact G|]. intros H1 H2. specialize (B k0 v0 H1 H2).
        rewrite Ga in B. destruct (dget k0 m); [discriminate|reflexivity].
      * intros k0. rewrite C, Ga. cbn [dget]. destruct (String.eqb_spec k0 k) as [->|]; [|destruct (dget k0 m); reflexivity].
        rewrite G, D. reflexivity.
Qed.
Lemma second_total (d1 d2 m : dict dval) : NoDup (dkeys d2) -> (forall k y, dget k d2 = Some (DDict y) -> exists x, dget k d1 = Some (DDict x)) ->
  (forall k v, dget k d2 = Some v -> is_dict v = false -> dget k m = None) -> exists m', merge_second d1 d2 m = Ok m'.
Proof.
  revert m. induction d2 as [|[k v] r IH]; intros m N A B; cbn [merge_second]; [eauto|]. inversion N as [|? ? N1 N2]; subst.
  assert (dget k r = None) as Kr by (apply dget_none; exact N1).
  destruct (is_dict v) eqn:D.
  - destruct v as [| |d]; try discriminate. destruct (A k d) as [x ->]; [cbn; now rewrite String.eqb_refl|]. apply IH; auto.
    + intros k0 y H. apply (A k0 y). cbn. destruct (String.eqb_spec k0 k) as [->|]; [congruence|auto].
    + intros k0 w H. apply (B k0 w). cbn. destruct (String.eqb_spec k0 k) as [->|]; [congruence|auto].
  - rewrite (B k v) by (cbn; rewrite ?String.eqb_refl; auto). apply IH; auto.
    + intros k0 y H. apply (A k0 y). cbn. destruct (String.eqb_spec k0 k) as [->|]; [congruence|auto].
    + intros k0 w H Dw. assert (dget k0 m = None) as E. { apply (B k0 w); auto. cbn. destruct (String.eqb_spec k0 k) as [->|]; [congruence|auto]. }
      clear - E H Kr. induction m as [|[k' u] r' IHm]; cbn in *.
      * destruct (String.eqb_spec k0 k) as [->|]; [congruence|reflexivity].
      * destruct (k0 =? k')%string; [discriminate|auto].
Qed.
Lemma first_inv (d2 d m : dict dval) : first_loop d2 d = Ok m -> forall k,
  match dget k d with
  | None => dget k m = None
  | Some (DDict x) => exists e w, dget k d2 = Some (DDict e) /\ merge_dicts (DDict x) (DDict e) = Ok w /\ dget k m = Some w
  | Some v => dget k m = Some v
  end.
Proof.
  revert m. induction d as [|[k v] r IH]; intros m; cbn [first_loop]; [intros [= <-] k0; reflexivity|].
  set (w := match v with DDict _ => _ | _ => _ end). destruct w as [w0|] eqn:W; cbn [bind]; [|discriminate].
  fold (first_loop d2). destruct (first_loop d2 r) as [rest|] eqn:F; cbn [bind]; [|discriminate]. intros [= <-] k0.
  cbn [dget]. destruct (String.eqb_spec k0 k) as [->|]; [|apply IH; reflexivity].
  subst w. destruct v as [x|x|x]; [congruence|congruence|]. destruct (dget k d2) as [[| |e]|] eqn:G; try discriminate. eauto.
Qed.
Lemma first_total (d2 d : dict dval) : (forall k v, In (k, v) d -> forall x, v = DDict x -> exists e w, dget k d2 = Some (DDict e) /\ merge_dicts (DDict x) (DDict e) = Ok w) ->
  exists m, first_loop d2 d = Ok m.
Proof.
  induction d as [|[k v] r IH]; intros H; cbn [first_loop]; [eauto|]. fold (first_loop d2).
  destruct IH as [m Hm]; [intros; eapply H; eauto; now right|]. rewrite Hm.
  destruct v as [x|x|x]; cbn [bind]; eauto. destruct (H k (DDict x) (or_introl eq_refl) x eq_refl) as (e & w & -> & ->). cbn. eauto.
Qed.
Lemma merge_dict_result (a b m : dval) : merge_dicts a b = Ok m -> exists d, m = DDict d.
Proof.
  destruct a as [|?|d1]; try (intros H; discriminate H). destruct b as [|?|d2]; try (intros H; discriminate H). rewrite merge_unfold.
  destruct (first_loop d2 d1); cbn; [|discriminate]. destruct (merge_second _ _ _); cbn; [|discriminate]. intros [= <-]. eauto.
Qed.

Theorem merge_values (a : dval) : forall b m, wf_dval a -> wf_dval b -> merge_dicts a b = Ok m -> forall p, at_path p m = or_else (at_path p a) (at_path p b).
Proof.
  induction a as [x|x|d1 IH] using dval_ind2; intros b m Wa Wb; [discriminate|discriminate|].
  destruct b as [y|y|d2]; try discriminate. rewrite merge_unfold. apply wf_inv in Wa, Wb. destruct Wa as [Na Wa], Wb as [Nb Wb].
  destruct (first_loop d2 d1) as [m1|] eqn:F; cbn [bind]; [|discriminate]. destruct (merge_second d1 d2 m1) as [m2|] eqn:S; cbn [bind]; [|discriminate].
  intros [= <-] [|k p]; [reflexivity|]. cbn [at_path]. apply second_ok in S; [|auto]. destruct S as (S1 & S2 & S3). rewrite S3.
  pose proof (first_inv d2 d1 m1 F k) as Fi. destruct (dget k d1) as [v|] eqn:G1.
  - destruct v as [x|x|x].
    + rewrite Fi. destruct (dget k d2) as [u|] eqn:G2; [|destruct p; reflexivity].
      destruct (is_dict u) eqn:Du; [|rewrite (S2 k u G2 Du) in Fi; discriminate]. destruct u as [| |u]; try discriminate. destruct (S1 k u G2) as [x' E]. congruence.
    + rewrite Fi. destruct (dget k d2) as [u|] eqn:G2; [|destruct p; reflexivity].
      destruct (is_dict u) eqn:Du; [|rewrite (S2 k u G2 Du) in Fi; discriminate]. destruct u as [| |u]; try discriminate. destruct (S1 k u G2) as [x' E]. congruence.
    + destruct Fi as (e & w & E1 & E2 & E3). rewrite E3, E1. apply (IH k (DDict x)) with (b := DDict e); auto.
      * now apply dget_in. * eapply Wa. apply dget_in; eauto. * eapply Wb. apply dget_in; eauto.
  - rewrite Fi. destruct (dget k d2) as [u|] eqn:G2; [|reflexivity]. destruct (is_dict u) eqn:Du; [|reflexivity].
    destruct u as [| |u]; try discriminate. destruct (S1 k u G2) as [x' E]. congruence.
Qed.

Theorem merge_ok_iff (a : dval) : forall b, wf_dval a -> wf_dval b -> (is_ok (merge_dicts a b) = true <-> corresponding a b).
Proof.
  induction a as [x|x|d1 IH] using dval_ind2; intros b Wa Wb; [split; [discriminate|inversion 1]|split; [discriminate|inversion 1]|].
  destruct b as [y|y|d2]; [split; [discriminate|inversion 1]|split; [discriminate|inversion 1]|].
  rewrite merge_unfold. apply wf_inv in Wa, Wb. destruct Wa as [Na Wa], Wb as [Nb Wb]. split.
  - destruct (first_loop d2 d1) as [m1|] eqn:F; cbn [bind]; [|discriminate]. destruct (merge_second d1 d2 m1) as [m2|] eqn:S; cbn [bind]; [|discriminate].
    intros _. apply second_ok in S; [|auto]. destruct S as (S1 & S2 & S3). constructor.
    + intros k x G. pose proof (first_inv d2 d1 m1 F k) as Fi. rewrite G in Fi. destruct Fi as (e & w & E1 & E2 & E3). exists e. split; [auto|].
      apply (IH k (DDict x)); [now apply dget_in| | |now rewrite E2]; [eapply Wa|eapply Wb]; apply dget_in; eauto.
    + exact S1.
    + intros k u v G1 G2. destruct u as [u|u|u]; [| |reflexivity]; exfalso; pose proof (first_inv d2 d1 m1 F k) as Fi; rewrite G1 in Fi;
        (destruct (is_dict v) eqn:Dv; [destruct v as [| |v]; try discriminate; destruct (S1 k v G2); congruence|rewrite (S2 k v G2 Dv) in Fi; discriminate]).
  - intros C. inversion C as [? ? C1 C2 C3]; subst.
    destruct (first_total d2 d1) as [m1 F].
    { intros k v Hin x ->. apply (dget_nodup k d1 _ Na) in Hin as G. destruct (C1 k x G) as (y & Gy & Cy).
      exists y. assert (is_ok (merge_dicts (DDict x) (DDict y)) = true) as O.
      { apply (IH k (DDict x) Hin); auto. eapply Wa; eauto. eapply Wb. apply dget_in; eauto. }
      destruct (merge_dicts (DDict x) (DDict y)) as [w|]; [|discriminate]. eauto. }
    rewrite F. cbn [bind]. destruct (second_total d1 d2 m1 Nb C2) as [m2 S].
    { intros k v G2 Dv. pose proof (first_inv d2 d1 m1 F k) as Fi. destruct (dget k d1) as [u|] eqn:G1; [|exact Fi].
      pose proof (C3 k u v G1 G2) as Du. destruct u as [| |u]; try discriminate. destruct (C1 k u G1) as (y & Gy & _). rewrite G2 in Gy. injection Gy as ->. discriminate. }
    rewrite S. reflexivity.
Qed.

(** Splitting. *)
Definition split_go := fix go (d : dict dval) : dict dval * dict dval := match d with
        | [] => ([], [])
        | (k, w) :: r =>
            let '(pa, pb) := split_items w in let '(ra, rb) := go r in
            ((match pa with Some x => [(k, x)] | None => [] end ++ ra),
             (match pb with Some x => [(k, x)] | None => [] end ++ rb))
        end.
Lemma split_unfold (d : dict dval) : split_items (DDict d) = let '(a, b) := split_go d in (Some (DDict a), Some (DDict b)).
Proof. reflexivity. Qed.
Lemma split_go_get (d : dict dval) : NoDup (dkeys d) -> forall k, dget k (fst (split_go d)) = match dget k d with Some w => fst (split_items w) | None => None end
  /\ dget k (snd (split_go d)) = match dget k d with Some w => snd (split_items w) | None => None end.
Proof.
  induction d as [|[k0 w] r IH]; intros N k; cbn [split_go dget]; [split; reflexivity|]. inversion N as [|? ? N1 N2]; subst. specialize (IH N2).
  fold split_go. destruct (split_items w) as [pa pb] eqn:E. destruct (split_go r) as [ra rb] eqn:F. cbn [fst snd] in *.
  destruct (IH k) as [I1 I2]. assert (dget k0 r = None) as Kr by (apply dget_none; exact N1).
  destruct pa as [pa|], pb as [pb|]; cbn [app dget]; destruct (String.eqb_spec k k0) as [->|]; rewrite ?E; cbn [fst snd]; auto; rewrite ?I1, ?I2, ?Kr; auto.
Qed.
Lemma split_go_keys (d : dict dval) k : In k (dkeys (fst (split_go d))) \/ In k (dkeys (snd (split_go d))) -> In k (dkeys d).
Proof.
  induction d as [|[k0 w] r IH]; cbn [split_go]; [cbn; tauto|]. fold split_go. destruct (split_items w) as [pa pb]. destruct (split_go r) as [ra rb]. cbn [fst snd] in *.
  destruct pa, pb; cbn; tauto.
Qed.
Lemma split_go_nodup (d : dict dval) : NoDup (dkeys d) -> NoDup (dkeys (fst (split_go d))) /\ NoDup (dkeys (snd (split_go d))).
Proof.
  induction d as [|[k0 w] r IH]; cbn [split_go]; intros N; [split; constructor|]. inversion N as [|? ? N1 N2]; subst. specialize (IH N2).
  pose proof (split_go_keys r k0) as K. fold split_go. destruct (split_items w) as [pa pb]. destruct (split_go r) as [ra rb]. cbn [fst snd] in *. destruct IH as [A B].
  split; [destruct pa|destruct pb]; cbn; auto; constructor; auto; intro; apply N1; apply K; auto.
Qed.
Lemma split_wf (v : dval) : wf_dval v -> (forall a, fst (split_items v) = Some a -> wf_dval a) /\ (forall b, snd (split_items v) = Some b -> wf_dval b).
Proof.
  induction v as [x|x|d IH] using dval_ind2; intros W.
  - cbn. split; intros ? [= <-]; exact I. - cbn. split; intros ? [= <-]; exact I.
  - apply wf_inv in W. destruct W as [N W]. rewrite split_unfold. pose proof (split_go_get d N) as G. pose proof (split_go_nodup d N) as [Na Nb].
    destruct (split_go d) as [a b]. cbn [fst snd] in *. split; intros ? [= <-]; apply wf_inv; (split; [assumption|]).
    + intros k v H. apply dget_nodup in H; [|auto]. destruct (G k) as [G1 _]. rewrite H in G1. destruct (dget k d) as [w|] eqn:E; [|discriminate].
      apply dget_in in E. destruct (IH k w E (W k w E)) as [I1 _]. auto.
    + intros k v H. apply dget_nodup in H; [|auto]. destruct (G k) as [_ G2]. rewrite H in G2. destruct (dget k d) as [w|] eqn:E; [|discriminate].
      apply dget_in in E. destruct (IH k w E (W k w E)) as [_ I2]. auto.
Qed.
Lemma split_items_dict (v : dval) a : wf_dval v -> (fst (split_items v) = Some (DDict a) \/ snd (split_items v) = Some (DDict a)) -> exists d, v = DDict d.
Proof. destruct v; cbn; intros _ [H|H]; try discriminate; eauto. Qed.

Lemma split_corr (d : dict dval) (a b : dval) : wf_dval (DDict d) -> split_dict_py_tf (DDict d) = Ok (a, b) -> corresponding a b /\ corresponding b a.
Proof.
  intros W. unfold split_dict_py_tf.
  assert (forall v : dval, wf_dval v -> forall a b : dval, is_dict v = true -> split_items v = (Some a, Some b) -> corresponding a b /\ corresponding b a) as H.
  { clear. induction v as [x|x|d IH] using dval_ind2; intros W a b; [discriminate|discriminate|]. intros _.
    apply wf_inv in W. destruct W as [N W]. rewrite split_unfold. pose proof (split_go_get d N) as G. destruct (split_go d) as [da db]. cbn [fst snd] in G.
    intros [= <- <-].
    assert (forall k x, dget k da = Some (DDict x) \/ dget k db = Some (DDict x) -> exists y z, dget k da = Some (DDict y) /\ dget k db = Some (DDict z) /\
       corresponding (DDict y) (DDict z) /\ corresponding (DDict z) (DDict y)) as X.
    { intros k x H. destruct (G k) as [G1 G2]. destruct (dget k d) as [w|] eqn:E; [|rewrite G1, G2 in H; destruct H; discriminate].
      rewrite G1, G2 in *. destruct w as [v|v|v]; cbn in H; [destruct H; discriminate|destruct H; discriminate|].
      apply dget_in in E. specialize (IH k _ E (W k _ E)). rewrite split_unfold in *. destruct (split_go v) as [ya yb]. cbn [fst snd] in *.
      destruct (IH (DDict ya) (DDict yb) eq_refl eq_refl) as [C1 C2]. exists ya, yb. auto. }
    assert (forall k u v, dget k da = Some u -> dget k db = Some v -> is_dict u = true /\ is_dict v = true) as Y.
    { intros k u v H1 H2. destruct (G k) as [G1 G2]. rewrite H1 in G1. rewrite H2 in G2. destruct (dget k d) as [w|]; [|discriminate].
      destruct w as [w|w|w]; try discriminate. rewrite split_unfold in *. destruct (split_go w). cbn in *. injection G1 as ->. injection G2 as ->. auto. }
    split; constructor.
    - intros k x H. destruct (X k x (or_introl H)) as (y & z & Y1 & Y2 & Y3 & Y4). exists z. split; [auto|]. rewrite H in Y1; injection Y1 as ->; auto.
    - intros k x H. destruct (X k x (or_intror H)) as (y & z & Y1 & Y2 & Y3 & Y4). eauto.
    - intros k u v H1 H2. destruct (Y k u v H1 H2); auto.
    - intros k x H. destruct (X k x (or_intror H)) as (y & z & Y1 & Y2 & Y3 & Y4). exists y. split; [auto|]. rewrite H in Y2; injection Y2 as ->; auto.
    - intros k x H. destruct (X k x (or_introl H)) as (y & z & Y1 & Y2 & Y3 & Y4). eauto.
    - intros k u v H1 H2. destruct (Y k v u H2 H1); auto. }
  specialize (H (DDict d) W). destruct (split_items (DDict d)) as [[x|] [y|]] eqn:E; try discriminate. intros [= <- <-]. apply H; auto.
Qed.
Lemma split_at (v : dval) : wf_dval v -> forall p,
  match fst (split_items v) with Some a => at_path p a | None => Nothing end = match at_path p v with ATf _ => Nothing | x => x end /\
  match snd (split_items v) with Some b => at_path p b | None => Nothing end = match at_path p v with APy _ => Nothing | x => x end.
Proof.
  induction v as [x|x|d IH] using dval_ind2; intros W p.
  - destruct p; cbn; auto. - destruct p; cbn; auto.
  - apply wf_inv in W. destruct W as [N W]. rewrite split_unfold. pose proof (split_go_get d N) as G. destruct (split_go d) as [da db]. cbn [fst snd] in *.
    destruct p as [|k p]; cbn [at_path]; [auto|]. destruct (G k) as [-> ->]. destruct (dget k d) as [w|] eqn:E; [|auto].
    apply dget_in in E. apply (IH k w E (W k w E)).
Qed.
Theorem split_merge (d : dict dval) : wf_dval (DDict d) -> exists a b, split_dict_py_tf (DDict d) = Ok (a, b) /\
  (exists m, merge_dicts a b = Ok m /\ forall p, at_path p m = at_path p (DDict d)) /\
  (exists m, merge_dicts b a = Ok m /\ forall p, at_path p m = at_path p (DDict d)) /\
  (forall p, at_path p a = match at_path p (DDict d) with ATf _ => Nothing | x => x end) /\
  (forall p, at_path p b = match at_path p (DDict d) with APy _ => Nothing | x => x end).
Proof.
  intros W. pose proof (split_wf _ W) as [Wa Wb]. pose proof (split_at _ W) as At. pose proof (split_corr d) as C. unfold split_dict_py_tf in *.
  rewrite split_unfold in *. destruct (split_go d) as [da db]. cbn [fst snd] in *. exists (DDict da), (DDict db). split; [reflexivity|].
  specialize (Wa _ eq_refl). specialize (Wb _ eq_refl). destruct (C (DDict da) (DDict db) W eq_refl) as [C1 C2].
  apply merge_ok_iff in C1, C2; auto.
  destruct (merge_dicts (DDict da) (DDict db)) as [m1|] eqn:E1; [|discriminate].
  destruct (merge_dicts (DDict db) (DDict da)) as [m2|] eqn:E2; [|discriminate].
  split; [exists m1; split; [reflexivity|]|split; [exists m2; split; [reflexivity|]|]].
  - intros p. rewrite (merge_values _ _ _ Wa Wb E1). destruct (At p) as [-> ->]. destruct (at_path p (DDict d)); reflexivity.
  - intros p. rewrite (merge_values _ _ _ Wb Wa E2). destruct (At p) as [-> ->]. destruct (at_path p (DDict d)); reflexivity.
  - split; intros p; apply At.
Qed.
End DV.

(** Error kinds. *)
Lemma merge_second_err {V} (d1 d2 m : dict (dval V)) e : merge_second d1 d2 m = Err e -> e = ValueError.
Proof.
  revert m. induction d2 as [|[k v] r IH]; intros m H; [discriminate|]. cbn [merge_second] in H. destruct (is_dict v).
  - destruct (dget k d1) as [[x|x|d]|]; try congruence. eauto.
  - destruct (dget k m); [congruence|eauto].
Qed.
Lemma merge_err {V} (a : dval V) : forall d2 e, is_dict a = true -> merge_dicts a (DDict d2) = Err e -> e = ValueError.
Proof.
  induction a as [x|x|d1 IH] using dval_ind2; intros d2 e D H; try discriminate D. rewrite merge_unfold in H.
  match type of H with bind ?f _ = _ => destruct f as [m1|e1] eqn:F end; cbn [bind] in H.
  - destruct (merge_second d1 d2 m1) as [m2|e2] eqn:G; cbn [bind] in H; [discriminate|]. injection H as <-. now apply merge_second_err in G.
  - injection H as <-. revert e1 F. clear D. induction d1 as [|[k v] r IH2]; intros e1 F; [discriminate|]. cbn [first_loop] in F.
    destruct (match v with DDict _ => match dget k d2 with Some (DDict e) => merge_dicts v (DDict e) | _ => Err ValueError end | _ => Ok v end) as [w|ew] eqn:W.
    + cbn [bind] in F. fold (first_loop d2) in F. destruct (first_loop d2 r) as [m1|e2] eqn:F2; cbn [bind] in F; [discriminate|].
      injection F as <-. apply (IH2 (fun k' c' K => IH k' c' (or_intror K)) e2 eq_refl).
    + cbn [bind] in F. injection F as <-. destruct v as [x|x|dv]; try discriminate. destruct (dget k d2) as [[y|y|dd]|]; try congruence.
      exact (IH k (DDict dv) (or_introl eq_refl) dd ew eq_refl W).
Qed.
