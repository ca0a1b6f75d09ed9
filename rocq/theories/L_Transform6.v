From Coq Require Import String.
From Verif Require Import Base M_Tensor M_Transform S_Transform L_Transform L_Transform2 L_Transform5.
Open Scope nat_scope.

Lemma match_satisfies k st p : forall l hd m, match_with_inputs k st l p hd = Ok (Some m) -> satisfies p m.
Proof.
  induction p as [c g ps IH] using pat_ind'. intros l hd m. cbn [match_with_inputs].
  destruct (negb (match_layer st l c g)) eqn:E; [discriminate|].
  destruct (match k with Functional => negb (is_match_supported st l hd) | Sequential => false end) eqn:E2; [discriminate|].
  apply negb_false_iff in E. unfold match_layer in E. apply andb_true_iff in E as [E E3]. apply andb_true_iff in E as [_ E].
  assert (E4 : forall k0 v, In (k0, v) g -> match_pattern (config_get l k0) v = true \/ config_get l k0 = v).
  { rewrite forallb_forall in E3. intros k0 v I. apply E3 in I. cbn in I. apply orb_true_iff in I as [I|I]; auto. right. now apply String.eqb_eq. }
  destruct ps as [|p0 ps'].
  - intros [= <-]. unfold mk_node. constructor; auto.
  - set (ps := p0 :: ps') in *. destruct (input_layer_names k st l) as [inames|] eqn:EI; [|discriminate]. cbn [bind].
    destruct (negb (Nat.eqb (List.length (get_layers st inames)) (List.length ps))) eqn:EL; [discriminate|].
    apply negb_false_iff, Nat.eqb_eq in EL.
    set (go := fix go (ls : list layerc) (qs : list pat) {struct qs} : res (option (list node)) := _).
    assert (GO : forall qs ls ns, Forall (fun p => forall l hd m, match_with_inputs k st l p hd = Ok (Some m) -> satisfies p m) qs ->
               List.length ls = List.length qs -> go ls qs = Ok (Some ns) -> Forall2 satisfies qs ns).
    { induction qs as [|q qs IQ]; intros ls ns F L.
      - destruct ls; [|discriminate]. cbn. intros [= <-]. auto.
      - destruct ls as [|a ls]; [discriminate|]. injection L as L. inversion F; subst.
        cbn [go]. fold go. destruct (match_with_inputs k st a q false) as [[n|]|] eqn:EM; cbn [bind]; try discriminate.
        destruct (go ls qs) as [[ns'|]|] eqn:EG; cbn [bind]; try discriminate. intros [= <-]. constructor; eauto. }
    match goal with |- (bind ?x _ = _ -> _) => change x with (go (get_layers st inames) ps) end.
    destruct (go (get_layers st inames) ps) as [[ns|]|] eqn:EG; cbn [bind]; try discriminate. intros E'; cbv beta iota in E'; injection E' as E'; subst m.
    unfold mk_node. constructor; auto. eapply GO; eauto.
Qed.
Lemma find_satisfies k st p matched m : find_pattern k st p matched = Ok (Some m) -> satisfies p m.
Proof.
  unfold find_pattern. generalize (s_layers st) as ls. induction ls as [|l r IH]; cbn [find_pattern_in]; [discriminate|].
  destruct (inb (lc_name l) matched); auto. destruct (match_with_inputs k st l p true) as [[n|]|] eqn:EM; cbn [bind]; try discriminate; auto.
  intros E'; injection E' as E'; subst m. eapply match_satisfies; eauto.
Qed.

(** ** Termination *)
Section Term.
  Variables (meq : meta -> meta -> bool) (k : mkind) (ts : list transform).
  Variable wt : state -> list (string * string) -> nat.
  (** The weight never grows, and shrinks when a new name appears. *)
  Variable Inv : state -> Prop.
  Hypothesis HI : forall st matched t m r st', Inv st -> In t ts -> find_pattern k st (t_pattern t) (matched_names t matched) = Ok (Some m) ->
    t_repl t (List.length matched) m = Ok r -> replace k st m r = Ok st' -> Inv st'.
  Hypothesis HW : forall st matched t m r st', Inv st -> In t ts -> find_pattern k st (t_pattern t) (matched_names t matched) = Ok (Some m) ->
    t_repl t (List.length matched) m = Ok r -> (st' = st \/ replace k st m r = Ok st') ->
    wt st' ((t_name t, n_name m) :: matched) < wt st matched \/
    (wt st' ((t_name t, n_name m) :: matched) = wt st matched /\ forall n, In n (names st') -> In n (names st)).
  Definition pdec : forall a b : string * string, {a = b} + {a <> b} := ltac:(intros [a b] [c d]; destruct (string_dec a c), (string_dec b d); subst; (left; reflexivity) || (right; congruence)).
  Definition pairs (st : state) : list (string * string) := nodup pdec (list_prod (map t_name ts) (names st)).
  Definition unmatched (s : loop_state) : list (string * string) := filter (fun p => if in_dec pdec p (ls_matched s) then false else true) (pairs (ls_state s)).
  Definition passes (s : loop_state) : nat := (if ls_found s then S (List.length ts) else 0) + List.length (ls_todo s).
  Definition lex (a b : nat * (nat * nat)) : Prop := fst a < fst b \/ fst a = fst b /\ (fst (snd a) < fst (snd b) \/ fst (snd a) = fst (snd b) /\ snd (snd a) < snd (snd b)).
  Lemma lex_wf : well_founded lex.
  Proof.
    intros [a bc]. revert bc. induction a as [a IHa] using (well_founded_induction lt_wf). intros [b c]. revert c. induction b as [b IHb] using (well_founded_induction lt_wf).
    intros c. induction c as [c IHc] using (well_founded_induction lt_wf). constructor. intros [a' [b' c']] H. unfold lex in H; cbn in H.
    destruct H as [H|[-> [H|[-> H]]]]; [apply IHa; auto|apply IHb; auto|apply IHc; auto].
  Qed.
  Definition measure (s : loop_state) : nat * (nat * nat) := (wt (ls_state s) (ls_matched s), (List.length (unmatched s), passes s)).
  Lemma unmatched_nodup s : NoDup (unmatched s).
  Proof. apply NoDup_filter, NoDup_nodup. Qed.
  Lemma in_unmatched s p : In p (unmatched s) <-> (In (fst p) (map t_name ts) /\ In (snd p) (names (ls_state s))) /\ ~ In p (ls_matched s).
  Proof.
    unfold unmatched, pairs. rewrite filter_In, nodup_In. destruct p as [a b]. rewrite in_prod_iff. cbn. destruct (in_dec pdec (a, b) (ls_matched s)); split; intros [? ?]; repeat split; tauto || congruence.
  Qed.
  Lemma step_dec s s' : Inv (ls_state s) -> incl (ls_todo s) ts -> step meq k ts s = Running s' -> Inv (ls_state s') /\ incl (ls_todo s') ts /\ lex (measure s') (measure s).
  Proof.
    intros IV IT. unfold step. destruct (ls_todo s) as [|t rest] eqn:T.
    - destruct (ls_found s) eqn:FD; [|discriminate]. intros [= <-]. split; auto. split; [apply incl_refl|]. right. split; auto. right. unfold measure; cbn [fst snd]. split; auto.
      unfold passes. cbn. rewrite FD. rewrite T. cbn. lia.
    - destruct (find_pattern _ _ _ _) as [[m|]|] eqn:F; [| |discriminate].
      + assert (TI : In t ts) by (apply IT; now left). destruct (t_repl t _ m) as [r|] eqn:TR; [|discriminate].
        assert (G : forall st' b, (st' = ls_state s \/ replace k (ls_state s) m r = Ok st') ->
           lex (measure (mkLoop st' ((t_name t, n_name m) :: ls_matched s) (t :: rest) b)) (measure s)).
        { intros st' b H. destruct (HW (ls_state s) (ls_matched s) t m r st' IV TI F TR H) as [L|[L NS]]; [left; exact L|]. right. split; [exact L|]. left. unfold measure; cbn [fst snd].
          apply find_pattern_tree in F as [M NM]. assert (HN : In (n_name m) (names (ls_state s))) by (inversion M as [? ? (X & _)]; subst; exact (in_map lc_name _ _ X)).
          set (s1 := mkLoop _ _ _ _). assert (NIP : ~ In (t_name t, n_name m) (ls_matched s)).
          { intros J. apply NM. unfold matched_names. apply in_map_iff. exists (t_name t, n_name m). split; auto. apply filter_In. split; auto. cbn. apply String.eqb_refl. }
          apply (NoDup_incl_length (l := (t_name t, n_name m) :: unmatched s1)).
          - constructor; [|apply unmatched_nodup]. rewrite in_unmatched. intros [_ J]. apply J. now left.
          - intros p [<-|P]; [apply in_unmatched; cbn; repeat split; auto; now apply in_map|]. apply in_unmatched in P as [[P1 P2] P3]. apply in_unmatched. cbn in *. repeat split; auto. }
        destruct (node_eqb _ _ _); [intros [= <-]; cbn [ls_state ls_todo]; split; [exact IV|split; [exact IT|now apply G; left]]|]. destruct (replace _ _ _ _) as [st'|] eqn:R; [|discriminate]. intros [= <-]. split; [eapply HI; eauto|]. split; [auto|]. apply G; auto.
      + intros [= <-]. split; auto. split; [intros x X; apply IT; now right|]. right. split; auto. right. split; auto. unfold measure, passes; cbn. rewrite T. cbn. lia.
  Qed.
  Lemma ends s : Inv (ls_state s) -> incl (ls_todo s) ts -> exists n, forall s', iterate meq k ts n s <> Running s'.
  Proof.
    revert s. enough (Q : forall a s, measure s = a -> Inv (ls_state s) -> incl (ls_todo s) ts -> exists n, forall s', iterate meq k ts n s <> Running s') by eauto.
    intros a. induction a as [a IH] using (well_founded_induction lex_wf). intros s <- IV IT. destruct (step meq k ts s) as [s1| |] eqn:E.
    - destruct (step_dec s s1 IV IT E) as (IV' & I & L). destruct (IH _ L s1 eq_refl IV' I) as (n & N). exists (S n). cbn. now rewrite E.
    - exists 1. cbn. rewrite E. discriminate.
    - exists 1. cbn. rewrite E. discriminate.
  Qed.
  Theorem terminate_weighted st0 : Inv st0 -> terminates meq k ts st0.
  Proof. intros H. apply ends; auto. apply incl_refl. Qed.
End Term.

Theorem terminate_finite_names meq k ts st0 (N : list string) :
  (forall t i m r n, In t ts -> t_repl t i m = Ok r -> In n (layer_names r) -> In n (layer_names m) \/ In n N) -> terminates meq k ts st0.
Proof.
  intros H. pose (U := (names st0 ++ N)%list). pose (P := nodup pdec (list_prod (map t_name ts) U)).
  pose (Inv := fun st => incl (names st) U).
  assert (SUB : forall st matched t m r st', Inv st -> In t ts -> find_pattern k st (t_pattern t) (matched_names t matched) = Ok (Some m) ->
    t_repl t (List.length matched) m = Ok r -> replace k st m r = Ok st' -> Inv st').
  { intros st matched t m r st' IV TI F TR R n I. apply (replace_names _ _ _ _ _ R) in I as [[I _]|I]; auto. destruct (H t _ m r n TI TR I) as [J|J]; [|apply in_app_iff; auto].
    apply find_pattern_tree in F as [M _]. apply in_layer_names in J as (x & X & <-). destruct (mtree_good _ _ _ _ _ M X) as (h & G & _). apply IV. exact (in_map lc_name _ _ G). }
  apply (terminate_weighted meq k ts (fun _ matched => List.length (filter (fun p => if in_dec pdec p matched then false else true) P)) Inv); auto.
  - intros st matched t m r st' IV TI F TR D. left. apply find_pattern_tree in F as [M NM].
    assert (HN : In (n_name m) (names st)) by (inversion M as [? ? (X & _)]; subst; exact (in_map lc_name _ _ X)).
    assert (IP : In (t_name t, n_name m) P) by (apply nodup_In, in_prod_iff; split; [now apply in_map|now apply IV]).
    assert (NIP : ~ In (t_name t, n_name m) matched).
    { intros J. apply NM. unfold matched_names. apply in_map_iff. exists (t_name t, n_name m). split; auto. apply filter_In. split; auto. cbn. apply String.eqb_refl. }
    apply (NoDup_incl_length (l := (t_name t, n_name m) :: filter (fun p => if in_dec pdec p ((t_name t, n_name m) :: matched) then false else true) P)).
    + constructor; [|apply NoDup_filter, NoDup_nodup]. rewrite filter_In. destruct (in_dec pdec _ _) as [I|I]; [now intros []|]. exfalso; apply I; now left.
    + intros p [<-|I]; apply filter_In.
      * split; auto. destruct (in_dec pdec _ matched); auto.
      * apply filter_In in I as [I J]. split; auto. destruct (in_dec pdec p matched) as [K|K]; auto. destruct (in_dec pdec p _) as [K'|K']; auto. exfalso; apply K'; now right.
  - unfold Inv, U. intros n I. apply in_app_iff; auto.
Qed.
