(** Lemmas about composers. *)
From Verif Require Import Base M_Encoder S_Encoder L_Encoder M_Composer S_Composer.
From Coq Require Import Lia Permutation.

Lemma nth_error_set_nth {S} i (n : cnode S) h j : nth_error (set_nth i n h) j = if Nat.eqb i j then (if nth_error h i then Some n else None) else nth_error h j.
Proof.
  revert i j; induction h as [|x r IH]; intros [|i] [|j]; cbn; try reflexivity. - destruct (Nat.eqb i j); reflexivity. - apply IH.
Qed.
Lemma set_nth_length {S} i (n : cnode S) h : List.length (set_nth i n h) = List.length h.
Proof. revert i; induction h as [|x r IH]; intros [|i]; cbn; auto. Qed.
Lemma existsb_in k l : existsb (String.eqb k) l = true <-> In k l.
Proof.
  rewrite existsb_exists. split; [intros (x & Hx & E); apply String.eqb_eq in E; congruence|]. intros H. exists k. split; [auto|apply String.eqb_refl].
Qed.
Lemma dget_dset {A} k k' (v : A) d : dget k' (dset k v d) = if String.eqb k' k then Some v else dget k' d.
Proof.
  destruct (String.eqb_spec k' k) as [->|N]; [apply dget_dset_same|]. apply dget_dset_other. congruence.
Qed.
Lemma dset_new {A} k (v : A) d : dget k d = None -> dset k v d = d ++ [(k, v)].
Proof. induction d as [|[k' w] r IH]; cbn; [reflexivity|]. destruct (String.eqb k k'); [discriminate|]. intros H. now rewrite IH. Qed.

Section Inv.
Context {S : Type} (compressible : S -> list string).
Definition node_ok (h : heap S) (rank : nat -> Z) (i : nat) (n : cnode S) : Prop :=
  NoDup (dkeys (snd n)) /\ (forall k, In k (dkeys (snd n)) -> In k (compressible (fst n))) /\
  forall k c, In (k, c) (snd n) -> (c < List.length h)%nat /\ (rank c < rank i)%Z.
Definition heap_inv (h : heap S) : Prop := exists rank : nat -> Z, forall i n, nth_error h i = Some n -> node_ok h rank i n.

Lemma app_nth (h : heap S) x i n : nth_error (h ++ [x]) i = Some n -> (nth_error h i = Some n /\ (i < List.length h)%nat) \/ (i = List.length h /\ n = x).
Proof.
  intros H. destruct (Nat.lt_ge_cases i (List.length h)) as [L|G].
  - rewrite nth_error_app1 in H by auto. auto.
  - rewrite nth_error_app2 in H by auto. right. destruct (i - List.length h)%nat as [|m] eqn:E; [|destruct m; discriminate]. cbn in H. split; [lia|congruence].
Qed.
(** Ranks are unbounded below and above on a finite heap. *)
Lemma rank_low (h : heap S) (rank : nat -> Z) : exists m, forall i, (i < List.length h)%nat -> (m < rank i)%Z.
Proof.
  induction (List.length h) as [|n [m IH]]; [exists 0%Z; lia|]. exists (Z.min m (rank n - 1))%Z. intros i L.
  destruct (Nat.eq_dec i n) as [->|]; [lia|]. specialize (IH i ltac:(lia)). lia.
Qed.
Lemma rank_high (h : heap S) (rank : nat -> Z) : exists m, forall i, (i < List.length h)%nat -> (rank i < m)%Z.
Proof.
  induction (List.length h) as [|n [m IH]]; [exists 0%Z; lia|]. exists (Z.max m (rank n + 1))%Z. intros i L.
  destruct (Nat.eq_dec i n) as [->|]; [lia|]. specialize (IH i ltac:(lia)). lia.
Qed.
Definition upd_rank (rank : nat -> Z) (n : nat) (m : Z) (i : nat) : Z := if Nat.eqb i n then m else rank i.
Lemma step_inv h o : heap_inv h -> heap_inv (cstep compressible h o).
Proof.
  intros [rank H]. destruct o as [s|i s k|i s k]; cbn [cstep].
  - cbn. exists rank. intros i n E. apply app_nth in E. destruct E as [[E L]|[-> ->]].
    + destruct (H i n E) as (A & B & C). split; [auto|split; [auto|]]. intros k c I. rewrite app_length. cbn. destruct (C k c I). split; [lia|auto].
    + split; [constructor|split; [intros ? []|intros ? ? []]].
  - unfold add_child. destruct (nth_error h i) as [[s0 kids]|] eqn:E; [|now exists rank].
    destruct (existsb (String.eqb k) (compressible s0)) eqn:K; cbn [negb]; [|now exists rank].
    destruct (dget k kids) eqn:G; [now exists rank|]. cbn [new_composer].
    assert (i < List.length h)%nat as Li by (apply nth_error_Some; congruence).
    destruct (rank_low h rank) as [m Hm]. exists (upd_rank rank (List.length h) m). intros j n E'.
    assert (List.length (set_nth i (s0, dset k (List.length h) kids) (h ++ [(s, [])])) = Datatypes.S (List.length h)) as Len.
    { rewrite set_nth_length, app_length. cbn. lia. }
    rewrite nth_error_set_nth in E'. rewrite nth_error_app1, E in E' by auto.
    destruct (Nat.eqb_spec i j) as [<-|Nij].
    + injection E' as <-. destruct (H i _ E) as (A & B & C). cbn [fst snd] in *. split; cbn [fst snd]; rewrite ?dset_new by auto.
      * unfold dkeys. rewrite map_app. cbn. apply dget_none in G.
        apply (Permutation_NoDup (l := k :: map fst kids)); [apply Permutation_cons_append|]. constructor; auto.
      * split.
        -- intros k'. unfold dkeys. rewrite map_app, in_app_iff. cbn. intros [I|[<-|[]]]; [auto|]. now apply existsb_in.
        -- intros k' c. rewrite in_app_iff, set_nth_length, app_length. unfold upd_rank. cbn. intros [I|[[= <- <-]|[]]].
           ++ destruct (C k' c I). destruct (Nat.eqb_spec c (List.length h)); [lia|]. destruct (Nat.eqb_spec i (List.length h)); [lia|]. split; [lia|auto].
           ++ rewrite Nat.eqb_refl. destruct (Nat.eqb_spec i (List.length h)); [lia|]. split; [lia|auto].
    + apply app_nth in E'. destruct E' as [[E' L]|[-> ->]].
      * destruct (H j n E') as (A & B & C). split; [auto|split; [auto|]]. intros k' c I. rewrite Len. destruct (C k' c I) as [C1 C2]. unfold upd_rank.
        destruct (Nat.eqb_spec c (List.length h)); [lia|]. destruct (Nat.eqb_spec j (List.length h)); [lia|]. split; [lia|auto].
      * split; [constructor|split; [intros ? []|intros ? ? []]].
  - unfold add_parent. destruct (nth_error h i) as [n0|] eqn:E; [|now exists rank].
    destruct (existsb (String.eqb k) (compressible s)) eqn:K; cbn [negb]; [|now exists rank].
    assert (i < List.length h)%nat as Li by (apply nth_error_Some; congruence).
    destruct (rank_high h rank) as [m Hm]. exists (upd_rank rank (List.length h) m). intros j n E'.
    apply app_nth in E'. destruct E' as [[E' L]|[-> ->]].
    + destruct (H j n E') as (A & B & C). split; [auto|split; [auto|]]. intros k' c I. rewrite app_length. cbn. destruct (C k' c I) as [C1 C2]. unfold upd_rank.
      destruct (Nat.eqb_spec c (List.length h)); [lia|]. destruct (Nat.eqb_spec j (List.length h)); [lia|]. split; [lia|auto].
    + split; [cbn; repeat constructor; intros []|split].
      * cbn. intros k' [<-|[]]. now apply existsb_in.
      * cbn. intros k' c [[= <- <-]|[]]. rewrite app_length. cbn. unfold upd_rank. rewrite Nat.eqb_refl.
        destruct (Nat.eqb_spec i (List.length h)); [lia|]. split; [lia|auto].
Qed.
Lemma run_inv ops : heap_inv (crun compressible ops).
Proof.
  unfold crun. assert (heap_inv ([] : heap S)) as H0 by (exists (fun _ => 0%Z); intros [|?] nn; discriminate).
  revert H0. generalize ([] : heap S). induction ops as [|o r IH]; intros h H; cbn; [auto|]. apply IH. now apply step_inv.
Qed.
Lemma add_errors (h : heap S) i s0 kids s k : nth_error h i = Some (s0, kids) ->
  (add_child compressible h i s k = Err KeyError <-> ~ In k (compressible s0) \/ In k (dkeys kids)) /\
  (add_parent compressible h i s k = Err KeyError <-> ~ In k (compressible s)).
Proof.
  intros E. unfold add_child, add_parent. rewrite E. split.
  - destruct (existsb (String.eqb k) (compressible s0)) eqn:K; cbn [negb].
    + apply existsb_in in K. destruct (dget k kids) eqn:G; cbn.
      * split; [|reflexivity]. intros _. right. apply dget_in in G. apply in_map_iff. exists (k, n). auto.
      * apply dget_none in G. split; [discriminate|]. tauto.
    + split; [|reflexivity]. intros _. left. intros H. apply existsb_in in H. congruence.
  - destruct (existsb (String.eqb k) (compressible s)) eqn:K; cbn [negb].
    + apply existsb_in in K. split; [discriminate|tauto].
    + split; [|reflexivity]. intros _ H. apply existsb_in in H. congruence.
Qed.
End Inv.

Section Make.
Context {T P Sh St : Type} (compressible : @stage T P Sh St -> list string).
Notation heap := (heap (@stage T P Sh St)).
(** Nodes reachable below i along a path are distinct, so the recursion depth is at most the number of nodes. *)
Lemma make_depth (h : heap) rank : (forall i n, nth_error h i = Some n -> node_ok compressible h rank i n) ->
  forall todo fuel i, (i < List.length h)%nat -> NoDup todo -> (forall j, (j < List.length h)%nat -> (rank j <= rank i)%Z -> In j todo) ->
  (List.length todo <= fuel)%nat -> exists e, make fuel h i = Ok e /\ respects compressible e.
Proof.
  intros H todo. remember (List.length todo) as m eqn:Em. revert todo Em. induction m as [|m IH]; intros todo Em fuel i Li Nd Ht Lf.
  - destruct todo; [|discriminate]. exfalso. apply (Ht i Li). lia.
  - destruct fuel as [|f]; [lia|]. cbn [make]. destruct (nth_error h i) as [[s kids]|] eqn:E; [|apply nth_error_None in E; lia].
    destruct (H i _ E) as (A & B & C). cbn [fst snd] in *.
    assert (exists cs, mapM (fun kc => do c <- make f h (snd kc) ;; Ok (fst kc, c)) kids = Ok cs /\ dkeys cs = dkeys kids /\
       forall k c, In (k, c) cs -> respects compressible c) as (cs & Ecs & Kcs & Rcs).
    { assert (forall k c, In (k, c) kids -> exists e, make f h c = Ok e /\ respects compressible e) as X.
      { intros k c I. destruct (C k c I) as [Lc Rc].
        apply (IH (filter (fun j => negb (Nat.eqb j i)) todo)) with (fuel := f); try lia.
        - assert (In i todo) as Hi by (apply Ht; [auto|lia]). clear - Em Nd Hi.
          assert (List.length (filter (fun j => negb (Nat.eqb j i)) todo) = pred (List.length todo)) as ->; [|lia].
          clear Em. induction todo as [|a l IHl]; [destruct Hi|]. inversion Nd; subst. cbn. destruct (Nat.eqb_spec a i) as [->|Na]; cbn.
          + f_equal. clear - H1. induction l as [|b l IHl]; [reflexivity|]. cbn. destruct (Nat.eqb_spec b i) as [->|]; [exfalso; apply H1; now left|].
            cbn. f_equal. apply IHl. intros Hl; apply H1; now right.
          + destruct Hi as [->|Hi]; [congruence|]. rewrite (IHl H2 Hi). destruct l; [destruct Hi|reflexivity].
        - now apply NoDup_filter.
        - intros j Lj Rj. apply filter_In. split; [apply Ht; [auto|lia]|]. destruct (Nat.eqb_spec j i) as [->|]; [lia|reflexivity]. }
      clear - X. induction kids as [|[k c] r IHr]; [exists []; cbn; repeat split; intros ? ? []|].
      destruct IHr as (cs & E1 & E2 & E3); [intros; eapply X; right; eauto|]. destruct (X k c (or_introl eq_refl)) as (e & E4 & R).
      exists ((k, e) :: cs). cbn [mapM fst snd]. rewrite E4. cbn [bind]. rewrite E1. cbn [bind]. split; [reflexivity|]. split; [unfold dkeys in *; cbn; now rewrite E2|].
      intros k' c' [[= <- <-]|I]; eauto. }
    rewrite Ecs. cbn. exists (Enc s cs). split; [reflexivity|]. constructor; rewrite ?Kcs; auto.
Qed.
Theorem make_total ops i : (i < List.length (crun compressible ops))%nat ->
  exists e, make (List.length (crun compressible ops)) (crun compressible ops) i = Ok e /\ respects compressible e.
Proof.
  intros L. destruct (run_inv compressible ops) as [rank H]. apply (make_depth _ rank H (seq 0 (List.length (crun compressible ops)))); auto.
  - apply seq_NoDup. - intros j Lj _. apply in_seq. lia. - now rewrite seq_length.
Qed.

Lemma fits_initial init (e : @encoder T P Sh St) : respects compressible e -> fits (initial_state init e) e.
Proof.
  intros R. induction R as [s cs N I K IH]. cbn. constructor. intros k c Hc.
  assert (forall cs', dget k ((fix go cs := match cs with [] => [] | (k, c) :: r => (k, initial_state init c) :: go r end) cs') = option_map (initial_state init) (dget k cs')) as G.
  { induction cs' as [|[k' c'] r IHr]; cbn; [reflexivity|]. destruct (String.eqb k k'); [reflexivity|exact IHr]. }
  rewrite G. rewrite (dget_nodup k cs c N Hc). cbn. eauto.
Qed.
Lemma fits_update {U} (upd : @stage T P Sh St -> St -> U -> St) (e : @encoder T P Sh St) : respects compressible e ->
  forall st u, fits st e -> fits u e -> exists st', update_state upd e st u = Ok st' /\ fits st' e.
Proof.
  intros R. induction R as [s cs N I K IH]. intros st u F G. inversion F as [a ts ? ? Fk]; subst. inversion G as [b us ? ? Gk]; subst. cbn [update_state tkids troot].
  assert (exists kids, (fix go cs := match cs with
                | [] => Ok []
                | (k, c) :: r =>
                    do sk <- dindex k ts ;; do uk <- dindex k us ;;
                    do n <- update_state upd c sk uk ;;
                    do rest <- go r ;; Ok ((k, n) :: rest)
                end) cs = Ok kids /\ dkeys kids = dkeys cs /\ forall k c, In (k, c) cs -> exists t, In (k, t) kids /\ fits t c) as (kids & E & Ek & Fkids).
  { clear N I K F G. induction cs as [|[k c] r IHr]; [exists []; cbn; repeat split; intros ? ? []|].
    destruct IHr as (kids & E & Ek & Fk'); [intros; eapply IH; [right|..]; eauto|intros; eapply Fk; right; eauto|intros; eapply Gk; right; eauto|].
    destruct (Fk k c (or_introl eq_refl)) as (t & Et & Ft). destruct (Gk k c (or_introl eq_refl)) as (w & Ew & Gw).
    destruct (IH k c (or_introl eq_refl) t w Ft Gw) as (n & En & Fn).
    exists ((k, n) :: kids). unfold dindex. rewrite Et, Ew. cbn [bind]. rewrite En. cbn [bind]. unfold dindex in E. rewrite E. cbn [bind]. split; [reflexivity|]. split; [unfold dkeys in *; cbn; now rewrite Ek|].
    intros k' c' [[= <- <-]|I']; [exists n; split; [now left|auto]|]. destruct (Fk' k' c' I') as (t' & I1 & F1). exists t'. split; [now right|auto]. }
  unfold dindex in *. rewrite E. cbn. eexists; split; [reflexivity|]. constructor. intros k c Hc. destruct (Fkids k c Hc) as (t & It & Ft). exists t. split; [|auto].
  apply dget_nodup; [now rewrite Ek|auto].
Qed.
Lemma params_total (e : @encoder T P Sh St) : respects compressible e -> forall st, fits st e -> exists ep dp, get_params e st = Ok (ep, dp) /\ fits ep e /\ fits dp e.
Proof.
  intros R. induction R as [s cs N I K IH]. intros st F. inversion F as [a ts ? ? Fk]; subst. cbn [get_params tkids troot].
  destruct (s_params s a) as [ep0 dp0].
  assert (exists kids, (fix go cs := match cs with
                | [] => Ok []
                | (k, c) :: r =>
                    do stk <- dindex k ts ;;
                    do pq <- get_params c stk ;;
                    do rest <- go r ;; Ok ((k, pq) :: rest)
                end) cs = Ok kids /\ dkeys kids = dkeys cs /\ forall k c, In (k, c) cs -> exists p, In (k, p) kids /\ fits (fst p) c /\ fits (snd p) c) as (kids & E & Ek & Fkids).
  { clear N I K F. induction cs as [|[k c] r IHr]; [exists []; cbn; repeat split; intros ? ? []|].
    destruct IHr as (kids & E & Ek & Fk'); [intros; eapply IH; [right|..]; eauto|intros; eapply Fk; right; eauto|].
    destruct (Fk k c (or_introl eq_refl)) as (t & Et & Ft). destruct (IH k c (or_introl eq_refl) t Ft) as (ep & dp & En & F1 & F2).
    exists ((k, (ep, dp)) :: kids). unfold dindex. rewrite Et. cbn [bind]. rewrite En. cbn [bind]. unfold dindex in E. rewrite E. cbn [bind]. split; [reflexivity|]. split; [unfold dkeys in *; cbn; now rewrite Ek|].
    intros k' c' [[= <- <-]|I']; [exists (ep, dp); split; [now left|auto]|]. destruct (Fk' k' c' I') as (t' & I1 & X). exists t'. split; [now right|auto]. }
  unfold dindex in *. rewrite E. cbn [bind]. do 2 eexists. split; [reflexivity|].
  split; constructor; intros k c Hc; destruct (Fkids k c Hc) as (p & Ip & F1 & F2).
  - exists (fst p). split; [|auto]. rewrite (dget_map (fun x => fst x)). rewrite (dget_nodup k kids p); [reflexivity|now rewrite Ek|auto].
  - exists (snd p). split; [|auto]. rewrite (dget_map (fun x => snd x)). rewrite (dget_nodup k kids p); [reflexivity|now rewrite Ek|auto].
Qed.
Theorem encode_total (tshape : T -> Sh) (e : @encoder T P Sh St) : respects compressible e -> every_stage (provides compressible) e ->
  forall x p, fits p e -> exists ev sh, encode tshape e x p = Ok (ev, sh).
Proof.
  intros R. induction R as [s cs N I K IH]. intros Q x p F. apply every_stage_inv in Q. destruct Q as (Qs & _ & Qc). cbn [encode].
  inversion F as [a ts ? ? Fk]; subst. cbn [tkids troot]. destruct (Qs x a) as (d & Ed & Kd). rewrite Ed. cbn [bind].
  set (d0 := map (fun kt => (fst kt, ET (snd kt))) d).
  assert (forall k, In k (dkeys cs) -> exists t, dget k d0 = Some (ET t)) as G.
  { intros k Hk. specialize (Kd k (I k Hk)). unfold d0. rewrite (dget_map (fun t => ET t)). destruct (dget k d) as [t|] eqn:Ek; [cbn; eauto|]. apply dget_none in Ek. contradiction. }
  clearbody d0. clear Ed Kd.
  match goal with |- exists ev sh, (do (enc, shapes) <- ?g cs d0 ;; _) = _ => assert (exists r, g cs d0 = Ok r) as [[ev sh] E] end; [|rewrite E; cbn; eauto].
  revert d0 G. clear I F. induction cs as [|[k c] r IHr]; intros d0 G; [eauto|]. inversion N as [|? ? N1 N2]; subst.
  destruct (G k (or_introl eq_refl)) as [t Et]. destruct (Fk k c (or_introl eq_refl)) as (pk & Epk & Fpk).
  unfold dindex at 1 2. rewrite Et, Epk. cbn [bind].
  destruct (IH k c (or_introl eq_refl)) with (x := t) (p := pk) as (ek & sk & Eek); [apply (Qc k); cbn; now rewrite String.eqb_refl|auto|].
  rewrite Eek. cbn [bind].
  destruct IHr with (d0 := dset k (ED ek) d0) as [[d' sr] E']; auto.
  - intros; eapply K; right; eauto. - intros; eapply IH; [right|..]; eauto.
  - intros k' c' Gc. apply (Qc k'). cbn. destruct (String.eqb_spec k' k) as [->|]; [|auto]. apply dget_in in Gc. exfalso; apply N1. apply in_map_iff. exists (k, c'). auto.
  - intros; eapply Fk; right; eauto.
  - intros k' Hk'. rewrite dget_dset. destruct (String.eqb_spec k' k) as [->|]; [contradiction|]. apply G. now right.
  - rewrite E'. cbn. eauto.
Qed.
End Make.
