From Coq Require Import String Ascii DecimalString DecimalNat DecimalFacts Decimal FinFun.
From Verif Require Import Base M_Compat S_Compat.
Open Scope string_scope.
Open Scope list_scope.
Open Scope nat_scope.

Lemma py_str_inj a b : py_str a = py_str b -> a = b.
Proof.
  unfold py_str. intros H. apply (f_equal NilEmpty.uint_of_string) in H. rewrite !NilEmpty.usu in H.
  injection H as H. now apply Unsigned.to_uint_inj.
Qed.

Definition us : ascii := "_"%char.
Fixpoint has (c : ascii) (s : string) : Prop := match s with EmptyString => False | String d r => d = c \/ has c r end.
Lemma has_app c a b : has c (a ++ b)%string <-> has c a \/ has c b.
Proof. induction a; cbn; intuition. Qed.
Lemma py_str_no_us n : ~ has us (py_str n).
Proof.
  unfold py_str. generalize (Nat.to_uint n). intros d. induction d; cbn; unfold us; intros H;
    try (destruct H as [H|H]; [discriminate|]); tauto.
Qed.
Lemma split_us n1 n2 d1 d2 : ~ has us d1 -> ~ has us d2 ->
  (n1 ++ "_" ++ d1 = n2 ++ "_" ++ d2)%string -> n1 = n2 /\ d1 = d2.
Proof.
  intros H1 H2. revert n2. induction n1 as [|c n1 IH]; intros [|c2 n2] E; cbn in E.
  - injection E as E. auto.
  - injection E as E1 E2. exfalso. apply H1. rewrite E2. apply has_app. right. cbn. auto.
  - injection E as E1 E2. exfalso. apply H2. rewrite <- E2. apply has_app. right. cbn. auto.
  - injection E as <- E. destruct (IH _ E) as (-> & ->). auto.
Qed.
Lemma name_inj n1 n2 a b : (n1 ++ "_" ++ py_str a = n2 ++ "_" ++ py_str b)%string -> n1 = n2 /\ a = b.
Proof.
  intros H. apply split_us in H; try apply py_str_no_us. destruct H as (-> & H). split; auto. now apply py_str_inj.
Qed.
Lemma app_self a b : (a ++ b)%string = a -> b = "".
Proof. induction a; cbn; auto. intros [= H]. auto. Qed.
Lemma name_grows n a : (n ++ "_" ++ py_str a)%string <> n.
Proof. intros H. apply app_self in H. discriminate. Qed.

Lemma inb_In x l : inb x l = true <-> In x l.
Proof.
  induction l; cbn. intuition discriminate. rewrite orb_true_iff, IHl, String.eqb_eq. intuition.
Qed.
Lemma map_id_eqb_eq a b : map_id_eqb a b = true <-> a = b.
Proof. destruct a, b; cbn; rewrite ?Nat.eqb_eq; split; try congruence; intros [=]; auto. Qed.
Lemma put_same w i m : put w i m i = m.
Proof. unfold put. destruct (map_id_eqb i i) eqn:E; auto. rewrite (proj2 (map_id_eqb_eq i i) eq_refl) in E. discriminate. Qed.
Lemma put_other w i m j : j <> i -> put w i m j = w j.
Proof. unfold put. intros H. destruct (map_id_eqb j i) eqn:E; auto. apply map_id_eqb_eq in E. congruence. Qed.

(** The name proposed when the counter is [c]. *)
Definition nth_name (zero : bool) (name : string) (c : nat) : string :=
  if zero then (if c =? 0 then name else (name ++ "_" ++ py_str c)%string) else (name ++ "_" ++ py_str (S c))%string.
Lemma bump_same m ns n : bump m ns n ns n = S (m ns n).
Proof. unfold bump. now rewrite !String.eqb_refl. Qed.
Lemma bump_other m ns n ns' n' : (ns', n') <> (ns, n) -> bump m ns n ns' n' = m ns' n'.
Proof.
  unfold bump. destruct (String.eqb_spec ns' ns), (String.eqb_spec n' n); cbn; auto. congruence.
Qed.
Lemma propose_eq zero ns name m : propose zero ns name m = (nth_name zero name (m ns name), bump m ns name).
Proof. unfold propose, nth_name. destruct zero; auto. now rewrite bump_same. Qed.
Lemma nth_name_inj zero name a b : nth_name zero name a = nth_name zero name b -> a = b.
Proof.
  unfold nth_name. destruct zero.
  - destruct (Nat.eqb_spec a 0), (Nat.eqb_spec b 0); subst; auto; intros H.
    + symmetry in H. now apply name_grows in H.
    + now apply name_grows in H.
    + now apply name_inj in H.
  - intros H. apply name_inj in H. lia.
Qed.

(** A loop that stops used the counter it left behind minus one, and skipped avoided names only. *)
Lemma loop_spec zero ns name avoid : forall fuel m s m', name_loop fuel zero ns name avoid m = Some (s, m') ->
  exists k, s = nth_name zero name (m ns name + k) /\ ~ In s avoid /\ m' ns name = m ns name + S k /\
    (forall i, i < k -> In (nth_name zero name (m ns name + i)) avoid) /\
    (forall ns' n', (ns', n') <> (ns, name) -> m' ns' n' = m ns' n').
Proof.
  induction fuel as [|f IH]; cbn [name_loop]; intros m s m' H; [discriminate|]. rewrite propose_eq in H.
  destruct (inb _ avoid) eqn:E.
  - apply IH in H as (k & -> & Hn & Hm & Hs & Ho). rewrite bump_same in *. exists (S k).
    replace (S (m ns name) + k) with (m ns name + S k) in * by lia. repeat split; auto.
    + lia.
    + intros [|i] Hi. rewrite Nat.add_0_r. now apply inb_In. replace (m ns name + S i) with (S (m ns name) + i) by lia. apply Hs. lia.
    + intros ns' n' D. rewrite Ho by auto. now apply bump_other.
  - injection H as <- <-. exists 0. rewrite Nat.add_0_r. repeat split.
    + intros I. apply inb_In in I. congruence.
    + rewrite bump_same. lia.
    + lia.
    + intros. now apply bump_other.
Qed.
Lemma loop_total zero ns name avoid : forall fuel m,
  (exists i, i < fuel /\ ~ In (nth_name zero name (m ns name + i)) avoid) ->
  exists s m', name_loop fuel zero ns name avoid m = Some (s, m').
Proof.
  induction fuel as [|f IH]; intros m (i & Hi & Hn); [lia|]. cbn [name_loop]. rewrite propose_eq.
  destruct (inb _ avoid) eqn:E; [|eauto]. apply IH. apply inb_In in E. rewrite bump_same. destruct i as [|i].
  - rewrite Nat.add_0_r in Hn. contradiction.
  - exists i. split; [lia|]. now replace (S (m ns name) + i) with (m ns name + S i) by lia.
Qed.
Lemma loop_mono zero ns name avoid : forall fuel m r, name_loop fuel zero ns name avoid m = Some r ->
  forall f', fuel <= f' -> name_loop f' zero ns name avoid m = Some r.
Proof.
  induction fuel as [|f IH]; cbn [name_loop]; intros m r H f' Hf; [discriminate|]. destruct f' as [|f']; [lia|].
  cbn [name_loop]. destruct (propose zero ns name m) as (p, m'). destruct (inb p avoid); auto. apply IH; auto. lia.
Qed.
Lemma fresh_index zero name avoid c : exists i, i < S (List.length avoid) /\ ~ In (nth_name zero name (c + i)) avoid.
Proof.
  destruct (existsb (fun i => negb (inb (nth_name zero name (c + i)) avoid)) (seq 0 (S (List.length avoid)))) eqn:E.
  - apply existsb_exists in E as (i & Hi & E). apply in_seq in Hi. exists i. split; [lia|]. intros I. apply inb_In in I.
    rewrite I in E. discriminate.
  - exfalso. set (l := map (fun i => nth_name zero name (c + i)) (seq 0 (S (List.length avoid)))).
    assert (N : NoDup l).
    { unfold l. apply FinFun.Injective_map_NoDup; [|apply seq_NoDup]. intros a b H. apply nth_name_inj in H. lia. }
    assert (I : incl l avoid).
    { unfold l. intros x Hx. apply in_map_iff in Hx as (i & <- & Hi). destruct (inb (nth_name zero name (c + i)) avoid) eqn:X.
      - now apply inb_In. - exfalso. assert (F : existsb (fun i => negb (inb (nth_name zero name (c + i)) avoid)) (seq 0 (S (List.length avoid))) = true).
        apply existsb_exists. exists i. split; auto. now rewrite X. congruence. }
    pose proof (NoDup_incl_length N I) as L. unfold l in L. rewrite map_length, seq_length in L. lia.
Qed.

Lemma asked r : asked_map r = rq_map_id r.
Proof. unfold asked_map, rq_map_id. now destruct (rq_map r). Qed.
Lemma call_total w r : (rq_avoid r <> None \/ rq_observed r = false) -> exists s w', returns w r s w'.
Proof.
  intros H. unfold returns, unique_object_name, rq_avoided.
  assert (X : exists av, match rq_avoid r with None => if rq_observed r then Err NameError else Ok [] | Some l => Ok l end = Ok av).
  { destruct (rq_avoid r); eauto. destruct H as [H|H]; [congruence|]. rewrite H. eauto. }
  destruct X as (av & ->). destruct (loop_total (rq_zero r) (rq_ns r) (rq_name r) av (S (List.length av)) (w (rq_map_id r)))
    as (s & m & E). { apply fresh_index. } exists s. eexists. exists (S (List.length av)). rewrite E. reflexivity.
Qed.
Lemma call_spec w r s w' : returns w r s w' ->
  exists av k, rq_avoided r = Ok av /\ let c := w (rq_map_id r) (rq_ns r) (rq_name r) in
    s = nth_name (rq_zero r) (rq_name r) (c + k) /\ ~ In s av /\
    (forall i, i < k -> In (nth_name (rq_zero r) (rq_name r) (c + i)) av) /\
    w' (rq_map_id r) (rq_ns r) (rq_name r) = c + S k /\
    (forall i ns n, (i, ns, n) <> (rq_map_id r, rq_ns r, rq_name r) -> w' i ns n = w i ns n).
Proof.
  intros (fuel & H). unfold unique_object_name in H. destruct (rq_avoided r) as [av|] eqn:A; [|discriminate].
  destruct (name_loop _ _ _ _ _ _) as [[s1 m]|] eqn:L; [|discriminate]. injection H as -> <-.
  apply loop_spec in L as (k & E & N & M & Sk & O). exists av, k. split; auto. cbn zeta. repeat split; auto.
  - now rewrite put_same.
  - intros i ns n D. destruct (map_id_eqb i (rq_map_id r)) eqn:X.
    + apply map_id_eqb_eq in X. subst i. rewrite put_same. apply O. congruence.
    + rewrite put_other; auto. intros Y. apply map_id_eqb_eq in Y. congruence.
Qed.
Lemma returns_det w r s w' s2 w2 : returns w r s w' -> returns w r s2 w2 -> s = s2 /\ w' = w2.
Proof.
  intros (f & H) (f2 & H2). unfold unique_object_name in *. destruct (rq_avoided r) as [av|]; [|discriminate].
  destruct (name_loop f _ _ _ _ _) as [[s1 m]|] eqn:L; [|discriminate].
  destruct (name_loop f2 _ _ _ _ _) as [[s3 m3]|] eqn:L2; [|discriminate].
  apply loop_mono with (f' := f + f2) in L; [|lia]. apply loop_mono with (f' := f + f2) in L2; [|lia].
  rewrite L in L2. injection L2 as <- <-. injection H as <- <-. injection H2 as <- <-. auto.
Qed.

(** Counters never decrease along a program. *)
Lemma call_grows w r s w' : returns w r s w' -> forall i ns n, w i ns n <= w' i ns n.
Proof.
  intros H i ns n. apply call_spec in H as (av & k & _ & X). cbn zeta in X. destruct X as (_ & _ & _ & E & O).
  destruct (map_id_eqb i (rq_map_id r)) eqn:A; [apply map_id_eqb_eq in A; subst i|].
  - destruct (String.eqb_spec ns (rq_ns r)); [subst|rewrite O; [lia|congruence]].
    destruct (String.eqb_spec n (rq_name r)); [subst|rewrite O; [lia|congruence]]. lia.
  - rewrite O; [lia|]. intros Y. assert (map_id_eqb i (rq_map_id r) = true) by (apply map_id_eqb_eq; congruence). congruence.
Qed.
(** Every name a program gets comes from the counter, which the rest of the program keeps above it. *)
Lemma program_from w l w' : program w l w' -> forall r s, In (r, s) l ->
  exists c, s = nth_name (rq_zero r) (rq_name r) c /\ w (rq_map_id r) (rq_ns r) (rq_name r) <= c.
Proof.
  induction 1 as [|w r1 s1 w1 l w2 Hc Hp IH]; cbn; intros r s H; [contradiction|]. destruct H as [H|H].
  - injection H as <- <-. apply call_spec in Hc as (av & k & _ & -> & _). eexists. split; [reflexivity|]. lia.
  - destruct (IH r s H) as (c & -> & L). exists c. split; auto. pose proof (call_grows _ _ _ _ Hc (rq_map_id r) (rq_ns r) (rq_name r)). lia.
Qed.
Lemma program_app w l1 l2 w' : program w (l1 ++ l2) w' -> exists w1, program w l1 w1 /\ program w1 l2 w'.
Proof.
  revert w. induction l1 as [|[r s] l1 IH]; cbn; intros w H. exists w. split; [constructor|auto].
  inversion H as [|? ? ? w1 ? ? Hc Hp]; subst. destruct (IH _ Hp) as (w2 & A & B). exists w2. split; auto. econstructor; eauto.
Qed.
(** The heart of C68: two competing requests of a program, the earlier at counter value below the later. *)
Lemma competing w l1 r1 s1 l2 r2 s2 l3 w' : program w (l1 ++ (r1, s1) :: l2 ++ (r2, s2) :: l3) w' -> compete r1 r2 ->
  exists c1 c2, s1 = nth_name (rq_zero r1) (rq_name r1) c1 /\ s2 = nth_name (rq_zero r2) (rq_name r2) c2 /\
    (rq_name r1 = rq_name r2 -> c1 < c2).
Proof.
  intros H (Hm & Hn). rewrite (asked r1), (asked r2) in Hm. apply program_app in H as (w1 & _ & H). inversion H as [|? ? ? w2 ? ? Hc Hp]; subst.
  destruct (program_from _ _ _ Hp r2 s2) as (c2 & E2 & L). { apply in_app_iff. right. now left. }
  apply call_spec in Hc as (av & k & _ & E1 & _ & _ & C & _). do 2 eexists. split; [exact E1|]. split; [exact E2|].
  intros N. rewrite <- Hm, <- Hn, <- N in L. rewrite C in L. lia.
Qed.
Lemma one_based_distinct w l1 r1 s1 l2 r2 s2 l3 w' : program w (l1 ++ (r1, s1) :: l2 ++ (r2, s2) :: l3) w' -> compete r1 r2 ->
  rq_zero r1 = false -> rq_zero r2 = false -> s1 <> s2.
Proof.
  intros H C Z1 Z2 E. destruct (competing _ _ _ _ _ _ _ _ _ H C) as (c1 & c2 & E1 & E2 & L). rewrite Z1, Z2 in *.
  rewrite E1, E2 in E. unfold nth_name in E. apply name_inj in E as (N & X). specialize (L N). lia.
Qed.
Lemma zero_based_same_name w l1 r1 s1 l2 r2 s2 l3 w' : program w (l1 ++ (r1, s1) :: l2 ++ (r2, s2) :: l3) w' -> compete r1 r2 ->
  rq_zero r1 = rq_zero r2 -> s1 = s2 ->
  rq_zero r1 = true /\ (exists k, k <> 0 /\ (rq_name r1 = rq_name r2 ++ "_" ++ py_str k \/ rq_name r2 = rq_name r1 ++ "_" ++ py_str k)%string).
Proof.
  intros H C Z E. destruct (rq_zero r1) eqn:Z1; [|exfalso; eapply one_based_distinct; eauto]. split; auto.
  destruct (competing _ _ _ _ _ _ _ _ _ H C) as (c1 & c2 & E1 & E2 & L). rewrite <- Z in *. rewrite E1 in E. rewrite E2 in E. clear E1 E2. rename E into E2.
  rewrite Z1 in E2. unfold nth_name in E2. destruct (Nat.eqb_spec c1 0), (Nat.eqb_spec c2 0).
  - specialize (L E2). lia.
  - exists c2. auto.
  - exists c1. auto.
  - apply name_inj in E2 as (N & X). specialize (L N). lia.
Qed.
(** A fresh map hands out consecutive numbers. *)
Lemma consecutive i ns name zero : forall l w w', program w l w' ->
  (forall r s, In (r, s) l -> asked_map r = i /\ rq_ns r = ns /\ rq_name r = name /\ rq_zero r = zero /\ rq_avoided r = Ok []) ->
  forall k r s, nth_error l k = Some (r, s) -> s = nth_name zero name (w i ns name + k).
Proof.
  induction 1 as [|w r1 s1 w1 l w2 Hc Hp IH]; intros Hall k r s Hk. { destruct k; discriminate. }
  destruct (Hall r1 s1 (or_introl eq_refl)) as (E1 & E2 & E3 & E4 & E5).
  rewrite asked in E1. apply call_spec in Hc as (av & j & A & E & _ & Sk & C & _). rewrite E5 in A. injection A as <-.
  assert (j = 0) as ->. { destruct j; auto. destruct (Sk 0). lia. }
  rewrite E1, E2, E3, E4 in *. destruct k as [|k]; cbn in Hk.
  - injection Hk as <- <-. exact E.
  - rewrite (IH (fun r s H => Hall r s (or_intror H)) k r s Hk), C. f_equal. lia.
Qed.
(** Requests on other maps, other namespaces and other names do not matter. *)
Lemma frame w l w' : program w l w' -> forall i ns n,
  (forall r s, In (r, s) l -> (asked_map r, rq_ns r, rq_name r) <> (i, ns, n)) -> w' i ns n = w i ns n.
Proof.
  induction 1 as [|w r1 s1 w1 l w2 Hc Hp IH]; intros i ns n Hall; auto. rewrite IH.
  - apply call_spec in Hc as (av & j & _ & _ & _ & _ & _ & O). apply O. intros X. apply (Hall r1 s1); [now left|rewrite asked; congruence].
  - intros r s H. apply (Hall r s). now right.
Qed.
