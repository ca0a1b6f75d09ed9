(** Property C68: generated object names.  Statements only. *)
From Coq Require Import String Ascii.
From Verif Require Import Base M_Compat S_Compat L_Compat.
Open Scope string_scope.
Open Scope list_scope.
Open Scope nat_scope.

(** A call always returns (the loop ends), and its outcome is unique, unless [avoid_observed_names] is used. *)
Theorem C68_returns : forall w r, (rq_avoid r <> None \/ rq_observed r = false) ->
  exists s w', returns w r s w' /\ (forall s2 w2, returns w r s2 w2 -> s2 = s /\ w2 = w').
Proof.
  intros w r H. destruct (call_total w r H) as (s & w' & E). exists s, w'. split; auto. intros s2 w2 E2.
  eapply returns_det; eauto.
Qed.
Print Assumptions C68_returns.
(** [avoid_observed_names=True] without [avoid_names] always raises NameError: OBSERVED_NAMES does not exist. *)
Theorem C68_observed_refuted : forall fuel w r, rq_avoid r = None -> rq_observed r = true ->
  unique_object_name fuel w r = Some (Err NameError).
Proof. intros fuel w r A O. unfold unique_object_name, rq_avoided. now rewrite A, O. Qed.
Print Assumptions C68_observed_refuted.
(** The name is not in [avoid_names] ... *)
Theorem C68_avoids : forall w r s w' avoid, returns w r s w' -> rq_avoid r = Some avoid -> ~ In s avoid.
Proof.
  intros w r s w' avoid H A. apply call_spec in H as (av & k & E & _ & N & _). unfold rq_avoided in E. rewrite A in E.
  injection E as <-. exact N.
Qed.
Print Assumptions C68_avoids.
(** ... and in one-based mode never one a request of the program got before in the same (map, namespace), whatever
    the names, the avoided names and the other requests in between. *)
Theorem C68_unique : forall w before r1 s1 between r2 s2 after w',
  program w (before ++ (r1, s1) :: between ++ (r2, s2) :: after) w' -> compete r1 r2 ->
  rq_zero r1 = false -> rq_zero r2 = false -> s1 <> s2.
Proof. exact one_based_distinct. Qed.
Print Assumptions C68_unique.
(** Zero-based requests collide only if one requested name is another one followed by underscore and a number. *)
Theorem C68_zero_based_partial : forall w before r1 s1 between r2 s2 after w',
  program w (before ++ (r1, s1) :: between ++ (r2, s2) :: after) w' -> compete r1 r2 -> rq_zero r1 = rq_zero r2 -> s1 = s2 ->
  rq_zero r1 = true /\ exists k, k <> 0 /\
    (rq_name r1 = rq_name r2 ++ "_" ++ py_str k \/ rq_name r2 = rq_name r1 ++ "_" ++ py_str k)%string.
Proof. exact zero_based_same_name. Qed.
Print Assumptions C68_zero_based_partial.
(** They do collide then; and so do a one-based and a zero-based request for one name. *)
Definition plain (zero : bool) (name : string) : request := mkReq 0 name None None "" zero false.
Theorem C68_zero_based_refuted :
  (exists w, program empty_world [(plain true "dense", "dense"); (plain true "dense", "dense_1"); (plain true "dense_1", "dense_1")] w) /\
  (exists w, program empty_world [(plain false "dense", "dense_1"); (plain true "dense", "dense_1")] w).
Proof.
  split; eexists; repeat (eapply p_call; [exists 1; reflexivity|]); constructor.
Qed.
Print Assumptions C68_zero_based_refuted.
(** Consecutive numbers from a fresh map: dense_1, dense_2, ... or dense, dense_1, ... *)
Theorem C68_sequence : forall w l w' i ns name zero, program w l w' -> w i ns name = 0 ->
  (forall r s, In (r, s) l -> asked_map r = i /\ rq_ns r = ns /\ rq_name r = name /\ rq_zero r = zero /\
                              (rq_avoid r = Some [] \/ rq_avoid r = None /\ rq_observed r = false)) ->
  forall k r s, nth_error l k = Some (r, s) ->
    s = if zero then match k with 0 => name | S _ => (name ++ "_" ++ py_str k)%string end else (name ++ "_" ++ py_str (S k))%string.
Proof.
  intros w l w' i ns name zero Hp Hw Hall k r s Hk.
  rewrite (consecutive i ns name zero l w w' Hp) with (k := k) (r := r) (s := s); auto.
  - rewrite Hw. unfold nth_name. destruct zero, k; reflexivity.
  - intros r1 s1 H. destruct (Hall r1 s1 H) as (A & B & C & D & E). repeat split; auto. unfold rq_avoided.
    destruct E as [-> | (-> & ->)]; reflexivity.
Qed.
Print Assumptions C68_sequence.
(** Requests on other graphs, maps, namespaces or names do not change the number a name gets next. *)
Theorem C68_independent : forall w l w' r s w1, program w l w' ->
  (forall r' s', In (r', s') l -> (asked_map r', rq_ns r', rq_name r') <> (asked_map r, rq_ns r, rq_name r)) ->
  returns w r s w1 -> exists w2, returns w' r s w2.
Proof.
  intros w l w' r s w1 Hp Hn Hr.
  assert (Hok : rq_avoid r <> None \/ rq_observed r = false).
  { destruct Hr as (f & Hr). unfold unique_object_name, rq_avoided in Hr. destruct (rq_avoid r); [left; discriminate|].
    destruct (rq_observed r); [discriminate|auto]. }
  destruct (call_total w' r Hok) as (s2 & w2 & H2). exists w2.
  rewrite ?asked in *. pose proof (frame _ _ _ Hp (rq_map_id r) (rq_ns r) (rq_name r) (fun r' s' => Hn r' s')) as F.
  apply call_spec in Hr as (av & k & A & E & N & Sk & _). 
  pose proof H2 as H3. apply call_spec in H3 as (av2 & k2 & A2 & E2 & N2 & Sk2 & _). rewrite A in A2. injection A2 as <-.
  rewrite F in *. assert (k = k2) as ->.
  { destruct (Nat.lt_trichotomy k k2) as [L|[L|L]]; auto; exfalso.
    - apply N. rewrite E. now apply Sk2. - apply N2. rewrite E2. now apply Sk. }
  rewrite E, <- E2. exact H2.
Qed.
Print Assumptions C68_independent.
Example C68_ex : (exists w, program empty_world
   [(plain false "dense", "dense_1"); (mkReq 0 "dense" None (Some ["dense_2"; "dense_3"]) "" false false, "dense_4");
    (mkReq 1 "dense" None None "" false false, "dense_1"); (mkReq 0 "dense" (Some 7) None "" false false, "dense_1"); (mkReq 0 "dense" None None "net" false false, "dense_1");
    (plain false "dense_1", "dense_1_1")] w) /\ compete (plain false "dense") (plain false "dense_1").
Proof. split; [eexists; repeat (eapply p_call; [exists 5; reflexivity|]); constructor|split; reflexivity]. Qed.
