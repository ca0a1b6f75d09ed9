From Verif Require Import Base M_PruneModel S_PruneModel.
From Coq Require Import Permutation.
Open Scope nat_scope.

Lemma mem_In x l : mem x l = true <-> In x l.
Proof.
  unfold mem. rewrite existsb_exists. split.
  - intros (y & H & E). apply Nat.eqb_eq in E. subst. auto.
  - intros H. exists x. split; auto. apply Nat.eqb_refl.
Qed.
Lemma mem_nIn x l : mem x l = false <-> ~ In x l.
Proof. rewrite <- mem_In. destruct (mem x l); split; congruence. Qed.

Lemma remove_nth_spec {A} (d : A) l i : i < length l ->
  Permutation l (nth i l d :: remove_nth i l).
Proof.
  revert i. induction l as [|a l IH]; intros i H; cbn in H; [lia|]. destruct i; cbn; auto.
  rewrite (IH i) at 1 by lia. apply perm_swap.
Qed.

Lemma add_new_spec ns : forall tv used tv2 used2, add_new ns tv used = (tv2, used2) ->
  NoDup used -> (forall x, In x tv -> In x used) -> NoDup tv ->
  NoDup used2 /\ NoDup tv2 /\ (forall x, In x tv2 -> In x used2) /\
  (forall x, In x used2 <-> In x used \/ In x ns) /\
  (forall x, In x tv2 <-> In x tv \/ (In x ns /\ ~ In x used)) /\
  length used2 + length tv = length used + length tv2.
Proof.
  induction ns as [|n ns IH]; intros tv used tv2 used2 H ND SU NT; cbn [add_new] in H.
  - injection H as <- <-. repeat split; auto; cbn; try tauto; try (intros [|]; tauto).
  - destruct (mem n used) eqn:E.
    + apply mem_In in E. destruct (IH _ _ _ _ H ND SU NT) as (A & B & C & D & F & G).
      repeat split; auto; cbn.
      * intros K. apply D in K. tauto.
      * intros [K|[K|K]]; apply D; subst; auto.
      * intros K. apply F in K. tauto.
      * intros [K|[[K|K] L]]; apply F; subst; tauto.
    + apply mem_nIn in E. destruct (IH _ _ _ _ H) as (A & B & C & D & F & G).
      * constructor; auto.
      * intros x [K|K]; [left; auto|right; auto].
      * constructor; auto.
      * repeat split; auto; cbn.
        -- intros K. apply D in K. cbn in K. tauto.
        -- intros K. apply D. cbn. tauto.
        -- intros K. apply F in K. cbn in K. destruct K as [[K|K]|[K L]]; [subst; tauto|tauto|tauto].
        -- intros K. apply F. cbn. destruct K as [K|[[K|K] L]]; [tauto|subst; tauto|].
           destruct (Nat.eq_dec n x); [subst; tauto|]. tauto.
        -- cbn in G. lia.
Qed.

Section L.
  Variable pick : list nat -> nat.
  Variable stop : nat -> res bool.
  Variable next : nat -> list nat.
  Variable sources : list nat.
  Variable n : nat.
  Hypothesis FG : finite_graph n next sources.
  Definition sb (u : nat) : bool := match stop u with Ok b => b | Err _ => true end.

  Definition inv (tv used found : list nat) : Prop :=
    NoDup tv /\ NoDup used /\ (forall x, In x tv -> In x used) /\ (forall x, In x used -> x < n) /\
    (forall x, In x used -> reached sb next sources x) /\
    (forall x, In x sources -> In x used) /\
    NoDup found /\ (forall x, In x found -> stop x = Ok true /\ In x used /\ ~ In x tv) /\
    (forall x, In x used -> ~ In x tv ->
       (stop x = Ok true /\ In x found) \/
       (stop x = Ok false /\ next x <> [] /\ forall y, In y (next x) -> In y used)).

  Definition outcome (r : res (list nat)) : Prop :=
    match r with
    | Err e => exists u, reached sb next sources u /\ stop u = Err e
    | Ok l => (l = [] /\ dead_end sb next sources) \/
        (~ dead_end sb next sources /\ NoDup l /\ (forall u, reached sb next sources u -> is_ok (stop u) = true) /\
         forall u, In u l <-> reached sb next sources u /\ stop u = Ok true)
    end.

  Lemma loop_spec fuel : forall tv used found, inv tv used found -> n + length tv <= fuel + length used ->
    exists r, lookup_loop pick stop next fuel tv used found = Some r /\ outcome r.
  Proof.
    induction fuel as [|k IH]; intros tv used found I F.
    - destruct I as (NT & NU & SU & BU & RU & SR & NF & FF & PR).
      assert (length used <= n).
      { rewrite <- (seq_length n 0). apply NoDup_incl_length; auto. intros x Hx. apply in_seq. split; [lia|]. apply BU; auto. }
      destruct tv; [|cbn in F; lia]. cbn [lookup_loop]. exists (Ok found). split; auto. cbn.
      assert (ALL : forall u, reached sb next sources u -> In u used).
      { intros u R. induction R as [u Hu|u v R IHR S V]; auto.
        destruct (PR u IHR) as [(A & _)|(A & _ & B)]; auto. unfold sb in S. rewrite A in S. discriminate. }
      right. repeat split; auto.
      + intros (u & R & S & E). destruct (PR u (ALL u R)) as [(A & _)|(A & B & _)]; auto. unfold sb in S. rewrite A in S. discriminate.
      + intros u R. destruct (PR u (ALL u R)) as [(A & _)|(A & _ & B)]; auto; rewrite A; auto.
      + apply RU. apply FF; auto.
      + apply FF; auto.
      + intros (R & S). destruct (PR u (ALL u R)) as [(A & B)|(A & _)]; auto. congruence.
    - destruct tv as [|t0 tv0].
      + (* same as above *)
        destruct I as (NT & NU & SU & BU & RU & SR & NF & FF & PR). cbn [lookup_loop]. exists (Ok found). split; auto. cbn.
        assert (ALL : forall u, reached sb next sources u -> In u used).
        { intros u R. induction R as [u Hu|u v R IHR S V]; auto.
          destruct (PR u IHR) as [(A & _)|(A & _ & B)]; auto. unfold sb in S. rewrite A in S. discriminate. }
        right. repeat split; auto.
        * intros (u & R & S & E). destruct (PR u (ALL u R)) as [(A & _)|(A & B & _)]; auto. unfold sb in S. rewrite A in S. discriminate.
        * intros u R. destruct (PR u (ALL u R)) as [(A & _)|(A & _ & B)]; auto; rewrite A; auto.
        * apply RU. apply FF; auto.
        * apply FF; auto.
        * intros (R & S). destruct (PR u (ALL u R)) as [(A & B)|(A & _)]; auto. congruence.
      + cbn [lookup_loop]. set (tv := t0 :: tv0) in *. set (i := pick tv mod length tv).
        assert (Hi : i < length tv) by (apply Nat.mod_upper_bound; discriminate).
        pose proof (remove_nth_spec 0 tv i Hi) as PM. set (x := nth i tv 0) in *. set (tv' := remove_nth i tv) in *.
        destruct I as (NT & NU & SU & BU & RU & SR & NF & FF & PR).
        assert (Hx : In x tv) by (apply nth_In; auto).
        assert (NT' : NoDup (x :: tv')) by (eapply Permutation_NoDup; eauto). inversion NT' as [|? ? Nx NT2]; subst.
        assert (IT : forall y, In y tv <-> y = x \/ In y tv').
        { intros y. split; intros K.
          - apply (Permutation_in _ PM) in K. destruct K; auto.
          - apply (Permutation_in _ (Permutation_sym PM)). destruct K; [left|right]; auto. }
        assert (LT : length tv = S (length tv')) by (apply Permutation_length in PM; auto).
        destruct (stop x) as [[|]|e] eqn:E.
        * apply IH; [|lia]. repeat split; auto.
          -- intros y Hy. apply SU. apply IT. auto.
          -- constructor; auto. intros K. apply FF in K as (_ & _ & K). auto.
          -- destruct H as [<-|H]; auto. apply FF; auto.
          -- destruct H as [<-|H]; [apply SU; auto|]. apply FF; auto.
          -- destruct H as [<-|H]; [auto|]. apply FF in H as (_ & _ & H). intros K. apply H. apply IT. auto.
          -- intros y Hy Ny. destruct (Nat.eq_dec y x) as [->|D]; [left; split; auto; left; auto|].
             destruct (PR y Hy) as [(A & B)|P]; auto; [intros K; apply IT in K as [|]; auto|left; split; auto; right; auto].
        * destruct (next x) as [|y0 ys] eqn:NX.
          -- eexists. split; eauto. cbn. left. split; auto. exists x. split; [apply RU; auto|]. split; auto.
             unfold sb. rewrite E. auto.
          -- rewrite <- NX. destruct (add_new (next x) tv' used) as [tv2 used2] eqn:AN.
             assert (SU' : forall y, In y tv' -> In y used) by (intros y Hy; apply SU, IT; auto).
             destruct (add_new_spec _ _ _ _ _ AN NU SU' NT2) as (A & B & C & D & G & H).
             apply IH; [|lia]. repeat split; auto.
             ++ intros y Hy. apply D in Hy as [|Hy]; auto. apply FG in Hy. auto.
             ++ intros y Hy. apply D in Hy as [|Hy]; auto. eapply r_step with x; auto. unfold sb. rewrite E. auto.
             ++ intros y Hy. apply D. left. auto.
             ++ apply FF; auto.
             ++ apply D. left. apply FF; auto.
             ++ intros K. apply G in K. apply FF in H0 as (_ & K1 & K2). destruct K as [K|[_ K]]; auto. apply K2, IT. auto.
             ++ intros y Hy Ny. destruct (Nat.eq_dec y x) as [->|DX].
                ** right. split; auto. split; [congruence|]. intros z Hz. apply D. auto.
                ** assert (In y used). { apply D in Hy as [|Hy]; auto. destruct (in_dec Nat.eq_dec y used); auto. exfalso. apply Ny, G. auto. }
                   destruct (PR y H0) as [P|(P1 & P2 & P3)]; auto.
                   { intros K. apply IT in K as [|K]; auto. apply Ny, G. auto. }
                   right. repeat split; auto. intros z Hz. apply D. left. auto.
        * eexists. split; eauto. cbn. eauto.
  Qed.

  Lemma lookup_spec fuel : n <= fuel -> exists r, lookup_layers pick stop next fuel sources = Some r /\ outcome r.
  Proof.
    intros F. unfold lookup_layers. apply loop_spec; [|lia].
    pose proof (NoDup_nodup Nat.eq_dec sources) as ND.
    assert (IN : forall x, In x (nodup Nat.eq_dec sources) <-> In x sources) by (intros; apply nodup_In).
    unfold inv. repeat split; auto; try (intros; tauto).
    - intros x Hx. apply FG. apply IN. auto.
    - intros x Hx. apply r_src. apply IN. auto.
    - intros x Hx. apply IN; auto.
    - constructor.
  Qed.
End L.

Lemma reached_ext s1 s2 next src : (forall u, s1 u = s2 u) -> forall u, reached s1 next src u -> reached s2 next src u.
Proof. intros E u R. induction R; [apply r_src; auto|eapply r_step; eauto; rewrite <- E; auto]. Qed.

(** total stop criterion *)
Lemma lookup_total pick stop next sources n fuel : finite_graph n next sources -> n <= fuel ->
  exists l, lookup_layers pick (fun u => Ok (stop u)) next fuel sources = Some (Ok l) /\
    ((dead_end stop next sources /\ l = []) \/
     (~ dead_end stop next sources /\ NoDup l /\ forall u, In u l <-> reached stop next sources u /\ stop u = true)).
Proof.
  intros FG F. destruct (lookup_spec pick (fun u => Ok (stop u)) next sources n FG fuel F) as (r & E & O).
  assert (SB : forall u, sb (fun u => Ok (stop u)) u = stop u) by reflexivity.
  destruct r as [l|e]; cbn in O.
  - exists l. split; auto. destruct O as [[-> D]|(D & ND & _ & H)]; [left|right]; auto.
    split; auto. split; auto. intros u. rewrite H. split; intros [A B]; split; auto; congruence.
  - destruct O as (u & _ & K). discriminate.
Qed.

Lemma acyclic_found stop next sources : acyclic next -> sources <> [] ->
  ~ dead_end stop next sources -> (forall u, reached stop next sources u -> stop u = false) ->
  forall n, finite_graph n next sources -> False.
Proof.
  intros [d AC] NE ND NS n [FS FN].
  assert (ML : exists M, forall u, u < n -> d u <= M).
  { clear. induction n as [|n [M H]]; [exists 0; lia|]. exists (max M (d n)). intros u Hu.
    destruct (Nat.eq_dec u n); [subst; lia|]. specialize (H u). lia. }
  destruct ML as [M HM].
  assert (K : forall k u, reached stop next sources u -> u < n -> M - d u < k -> False).
  { induction k as [|k IH]; intros u R Hu Hk; [lia|].
    pose proof (NS u R) as S. destruct (next u) as [|v r] eqn:N; [apply ND; exists u; auto|].
    assert (In v (next u)) as V by (rewrite N; left; auto).
    apply (IH v). eapply r_step; eauto. eapply FN; eauto.
    pose proof (AC u v V). pose proof (HM v (FN _ _ V)). lia. }
  destruct sources as [|s r]; [congruence|]. apply (K (S (M - d s)) s); auto. apply r_src. now left.
  apply FS. now left.
Qed.

Lemma lookup_empty_iff pick stop next sources n fuel : finite_graph n next sources -> n <= fuel ->
  acyclic next -> sources <> [] ->
  (lookup_layers pick (fun u => Ok (stop u)) next fuel sources = Some (Ok []) <-> dead_end stop next sources).
Proof.
  intros FG F AC NE. destruct (lookup_total pick stop next sources n fuel FG F) as (l & E & O). rewrite E.
  destruct O as [[D ->]|(D & _ & H)]; [tauto|]. split; [|tauto]. intros K. injection K as ->. exfalso.
  eapply (acyclic_found stop next sources); eauto. intros u R. destruct (stop u) eqn:S; auto.
  exfalso. apply (H u). auto.
Qed.

(** ** the whole check *)
Lemma ensure_ok_inv pick fuel is_start is_end supported consumers producers inputs outputs n :
  finite_graph n consumers inputs -> finite_graph n producers outputs -> n <= fuel ->
  ensure_supports pick fuel is_start is_end supported consumers producers inputs outputs = Some (Ok tt) ->
  exists starts ends,
    starts <> [] /\ ends <> [] /\
    ~ dead_end is_start consumers inputs /\ ~ dead_end is_end producers outputs /\
    (forall u, In u starts <-> reached is_start consumers inputs u /\ is_start u = true) /\
    (forall u, In u ends <-> reached is_end producers outputs u /\ is_end u = true) /\
    (dead_end (fun u => mem u ends || negb (supported u)) consumers (flat_map consumers starts) \/
     forall u, reached (fun u => mem u ends) consumers (flat_map consumers starts) u -> ~ In u ends -> supported u = true).
Proof.
  intros FC FP F H. unfold ensure_supports in H.
  destruct (lookup_total pick is_start consumers inputs n fuel FC F) as (starts & E1 & O1). rewrite E1 in H.
  destruct starts as [|s0 ss]; [discriminate|]. set (starts := s0 :: ss) in *.
  destruct (lookup_total pick is_end producers outputs n fuel FP F) as (ends & E2 & O2). rewrite E2 in H.
  destruct ends as [|e0 es]; [discriminate|]. set (ends := e0 :: es) in *.
  destruct O1 as [[_ K]|(D1 & _ & H1)]; [discriminate|]. destruct O2 as [[_ K]|(D2 & _ & H2)]; [discriminate|].
  exists starts, ends. repeat (split; [try discriminate; auto|]). 
  set (visit := fun n => if negb (mem n ends) && negb (supported n) then Err ValueError else Ok (mem n ends)) in *.
  assert (FG3 : finite_graph n consumers (flat_map consumers starts)).
  { split; [|apply FC]. intros v Hv. apply in_flat_map in Hv as (u & _ & Hv). eapply FC; eauto. }
  destruct (lookup_spec pick visit consumers (flat_map consumers starts) n FG3 fuel F) as (r & E3 & O3).
  rewrite E3 in H. destruct r as [l|e]; [|discriminate]. cbn in O3.
  assert (SB : forall u, sb visit u = (mem u ends || negb (supported u))%bool).
  { intros u. unfold sb, visit. destruct (mem u ends); cbn; auto. destruct (supported u); auto. }
  destruct O3 as [[_ (u & R & S & N)]|(_ & _ & K & _)].
  - left. exists u. split; [eapply reached_ext; [|exact R]; auto|]. rewrite SB in S. auto.
  - right. intros u R NE.
    assert (reached (sb visit) consumers (flat_map consumers starts) u) as R'.
    { clear NE. induction R as [u Hu|u v R IHR S V]; [apply r_src; auto|]. eapply r_step; eauto. rewrite SB, S. cbn.
      specialize (K u IHR). unfold visit in K. rewrite S in K. cbn in K. destruct (supported u); auto. }
    specialize (K u R'). unfold visit in K. apply mem_nIn in NE. rewrite NE in K. cbn in K. destruct (supported u); auto.
Qed.

(** Rejections: always a ValueError, and always with a cause. *)
Lemma ensure_err pick fuel is_start is_end supported consumers producers inputs outputs n :
  finite_graph n consumers inputs -> finite_graph n producers outputs -> n <= fuel ->
  ensure_supports pick fuel is_start is_end supported consumers producers inputs outputs <> None /\
  forall e, ensure_supports pick fuel is_start is_end supported consumers producers inputs outputs = Some (Err e) ->
  e = ValueError /\
  ((dead_end is_start consumers inputs \/ forall u, reached is_start consumers inputs u -> is_start u = false) \/
   (dead_end is_end producers outputs \/ forall u, reached is_end producers outputs u -> is_end u = false) \/
   exists starts ends u,
     (forall v, In v starts <-> reached is_start consumers inputs v /\ is_start v = true) /\
     (forall v, In v ends <-> reached is_end producers outputs v /\ is_end v = true) /\
     reached (fun v => mem v ends) consumers (flat_map consumers starts) u /\ ~ In u ends /\ supported u = false).
Proof.
  intros FC FP F. unfold ensure_supports.
  destruct (lookup_total pick is_start consumers inputs n fuel FC F) as (starts & E1 & O1). rewrite E1.
  destruct starts as [|s0 ss].
  { split; [discriminate|]. intros e [= <-]. split; [reflexivity|]. left. destruct O1 as [[D _]|(_ & _ & H)]; [now left|right].
    intros u R. destruct (is_start u) eqn:E; [|reflexivity]. now destruct (proj2 (H u) (conj R E)). }
  set (starts := s0 :: ss) in *.
  destruct (lookup_total pick is_end producers outputs n fuel FP F) as (ends & E2 & O2). rewrite E2.
  destruct ends as [|e0 es].
  { split; [discriminate|]. intros e [= <-]. split; [reflexivity|]. right. left. destruct O2 as [[D _]|(_ & _ & H)]; [now left|right].
    intros u R. destruct (is_end u) eqn:E; [|reflexivity]. now destruct (proj2 (H u) (conj R E)). }
  set (ends := e0 :: es) in *.
  destruct O1 as [[_ K]|(D1 & _ & H1)]; [discriminate|]. destruct O2 as [[_ K]|(D2 & _ & H2)]; [discriminate|].
  set (visit := fun n => if negb (mem n ends) && negb (supported n) then Err ValueError else Ok (mem n ends)) in *.
  assert (FG3 : finite_graph n consumers (flat_map consumers starts)).
  { split; [|apply FC]. intros v Hv. apply in_flat_map in Hv as (u & _ & Hv). eapply FC; eauto. }
  destruct (lookup_spec pick visit consumers (flat_map consumers starts) n FG3 fuel F) as (r & E3 & O3).
  rewrite E3. destruct r as [l|e]; (split; [discriminate|]); [discriminate|]. intros e' [= <-].
  destruct O3 as (u & R & V).
  assert (SB : forall u, sb visit u = (mem u ends || negb (supported u))%bool).
  { intros v. unfold sb, visit. destruct (mem v ends); cbn; auto. destruct (supported v); auto. }
  unfold visit in V. destruct (mem u ends) eqn:ME; cbn [negb andb] in V; [discriminate|]. destruct (supported u) eqn:SU; cbn [negb] in V; [discriminate|].
  injection V as <-. split; [reflexivity|]. right. right. exists starts, ends, u. repeat (split; [assumption|]).
  split; [|split; [now apply mem_nIn|exact SU]].
  clear ME SU. induction R as [u Hu|u v R IHR S V]; [now apply r_src|]. eapply r_step; [exact IHR| |exact V]. rewrite SB in S. now apply orb_false_iff in S as [S _].
Qed.
