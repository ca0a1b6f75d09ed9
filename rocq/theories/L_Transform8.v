From Coq Require Import String.
From Verif Require Import Base M_Tensor M_Transform S_Transform L_Transform L_Transform2 L_Transform3 L_Transform4 L_Transform5 L_Transform6.
Open Scope nat_scope.

(** When the transformer stops, everything the patterns still match has been dealt with. *)
Lemma find_none_mono k st p a b ls : (forall x, In x a -> In x b) -> find_pattern_in k st p a ls = Ok None -> find_pattern_in k st p b ls = Ok None.
Proof.
  intros S. induction ls as [|l r IH]; auto. cbn [find_pattern_in]. destruct (inb (lc_name l) a) eqn:A.
  - apply inb_In in A. apply S in A. apply inb_In in A. now rewrite A.
  - destruct (match_with_inputs k st l p true) as [[m|]|e]; cbn [bind]; try discriminate. intros H. destruct (inb (lc_name l) b); auto.
Qed.
Lemma find_none_all k st p a ls l m : find_pattern_in k st p a ls = Ok None -> In l ls -> match_with_inputs k st l p true = Ok (Some m) -> In (lc_name l) a.
Proof.
  induction ls as [|x r IH]; [easy|]. cbn [find_pattern_in]. destruct (inb (lc_name x) a) eqn:A.
  - intros H [<-|I] M; auto. now apply inb_In.
  - destruct (match_with_inputs k st x p true) as [[m'|]|e] eqn:E; cbn [bind]; try discriminate. intros H [<-|I] M; auto. congruence.
Qed.
Lemma find_some_self k st p a m : find_pattern k st p a = Ok (Some m) -> In (n_name m) a -> False.
Proof. intros F. apply find_pattern_tree in F as [_ F]. auto. Qed.
Section Complete.
  Variables (meq : meta -> meta -> bool) (k : mkind) (ts : list transform) (st0 : state).
  Definition CI (s : loop_state) : Prop :=
    (forall p, In p (ls_matched s) -> matched_in_run meq k ts st0 (fst p) (snd p)) /\
    exists pre, ts = (pre ++ ls_todo s)%list /\ (ls_found s = false -> forall t, In t pre -> find_pattern k (ls_state s) (t_pattern t) (matched_names t (ls_matched s)) = Ok None).
  Lemma matched_names_mono t p l x : In x (matched_names t l) -> In x (matched_names t (p :: l)).
  Proof. unfold matched_names. cbn. destruct (String.eqb (fst p) (t_name t)); cbn; auto. Qed.
  Lemma complete_inv n : match iterate meq k ts n (start ts st0) with
    | Running s => CI s
    | Done st => exists s, ls_state s = st /\ CI s /\ ls_todo s = [] /\ ls_found s = false
    | Failed _ => True end.
  Proof.
    induction n as [|n IH].
    - cbn. split; [intros p []|]. exists []. split; auto. intros _ t [].
    - rewrite iterate_S. destruct (iterate meq k ts n (start ts st0)) as [s|st|e] eqn:E; auto. destruct IH as (A & pre & TP & B). unfold step. destruct (ls_todo s) as [|t rest] eqn:T.
      + destruct (ls_found s) eqn:FD; [|exists s; repeat split; auto; exists pre; rewrite T; split; auto]. split; auto. exists []. split; auto. intros _ t [].
      + destruct (find_pattern k (ls_state s) (t_pattern t) (matched_names t (ls_matched s))) as [[m|]|e] eqn:F; auto.
        * destruct (t_repl t (List.length (ls_matched s)) m) as [r|e] eqn:TR; auto.
          assert (A' : forall p, In p ((t_name t, n_name m) :: ls_matched s) -> matched_in_run meq k ts st0 (fst p) (snd p)).
          { intros p [<-|P]; auto. exists n, s, t, m. cbn. repeat split; auto. rewrite TP, in_app_iff. right; now left. }
          destruct (node_eqb meq m r).
          -- split; auto. exists pre. split; auto. cbn [ls_found ls_state ls_matched]. intros FD u U. unfold find_pattern in *. eapply find_none_mono; [|exact (B FD u U)]. intros x. apply matched_names_mono.
          -- destruct (replace k (ls_state s) m r) as [st'|e]; auto. split; auto. exists pre. split; auto. discriminate.
        * split; auto. exists (pre ++ [t])%list. cbn. split; [now rewrite <- app_assoc|]. intros FD u U. apply in_app_iff in U as [U|[<-|[]]]; [exact (B FD u U)|exact F].
  Qed.
  Theorem complete n st : iterate meq k ts n (start ts st0) = Done st -> forall t l m, In t ts -> In l (s_layers st) -> match_with_inputs k st l (t_pattern t) true = Ok (Some m) ->
    matched_in_run meq k ts st0 (t_name t) (lc_name l).
  Proof.
    intros E t l m T L M. pose proof (complete_inv n) as C. rewrite E in C. destruct C as (s & <- & (A & pre & TP & B) & TD & FD). rewrite TD, app_nil_r in TP. subst pre.
    specialize (B FD t T). unfold find_pattern in B. pose proof (find_none_all _ _ _ _ _ _ _ B L M) as I. unfold matched_names in I. apply in_map_iff in I as (p & <- & I). apply filter_In in I as [I EQ].
    apply String.eqb_eq in EQ. rewrite <- EQ. auto.
  Qed.
End Complete.
