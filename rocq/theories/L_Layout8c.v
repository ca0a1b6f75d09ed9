From Coq Require Import String Permutation.
From Verif Require Import Base M_Tensor M_Transform M_Layout8 S_Transform S_Layout8 L_Transform L_Transform2 L_Transform3 L_Transform4 L_Transform5 L_Transform6 L_Layout8 L_Layout8b.
Open Scope string_scope.
Open Scope nat_scope.

Lemma run_inv2 meq k ts st0 (P : state -> nat -> Prop) : P st0 0 -> (forall st c, P st c -> P st (S c)) ->
    (forall s t m r st', P (ls_state s) (List.length (ls_matched s)) -> about_to_replace meq k ts st0 s t m r -> replace k (ls_state s) m r = Ok st' -> P st' (S (List.length (ls_matched s)))) ->
    forall n, match iterate meq k ts n (start ts st0) with Running s => P (ls_state s) (List.length (ls_matched s)) | Done st => exists c, P st c | Failed _ => True end.
Proof.
  intros P0 PM PS. induction n as [|n IH]; [exact P0|]. rewrite iterate_S. destruct (iterate meq k ts n (start ts st0)) as [s|st|e] eqn:E; auto.
  destruct (todo_sub meq k ts st0 n s E) as (pre & T0). unfold step. destruct (ls_todo s) as [|t rest] eqn:T.
  - destruct (ls_found s); cbn; eauto.
  - destruct (find_pattern k (ls_state s) (t_pattern t) (matched_names t (ls_matched s))) as [[m|]|] eqn:F; [| exact IH | exact I].
    destruct (t_repl t (List.length (ls_matched s)) m) as [r|] eqn:TR; [|exact I].
    destruct (node_eqb meq m r); [cbn; auto|].
    destruct (replace k (ls_state s) m r) as [st'|] eqn:R; [|exact I]. cbn. eapply PS; eauto. repeat split; eauto. rewrite T0, in_app_iff. right; now left.
Qed.

(** ** Sequential models: a match is a chain *)
Lemma NoDup_filter_names st ns : NoDup (names st) -> NoDup (map lc_name (get_layers st ns)).
Proof.
  unfold names, get_layers. induction (s_layers st) as [|u r IHr]; cbn; [constructor|]. intros ND. inversion ND; subst. destruct (inb _ _); auto. cbn. constructor; auto.
  intros H. apply H1. apply in_map_iff in H as (y & <- & H). apply filter_In in H as [H _]. now apply in_map.
Qed.
Fixpoint pos (n : string) (ls : list layerc) : nat := match ls with [] => 0 | a :: r => if String.eqb (lc_name a) n then 0 else S (pos n r) end.
Lemma previous_pos l ls p : NoDup (map lc_name ls) -> In p (previous l ls) -> pos p ls < pos (lc_name l) ls /\ previous l ls = [p].
Proof.
  induction ls as [|a r IH]; [easy|]. intros ND. destruct r as [|b r']; [easy|]. cbn [previous]. cbn [map] in ND. inversion ND as [|? ? N1 N2]; subst. destruct (String.eqb_spec (lc_name b) (lc_name l)) as [E|E].
  - intros [<-|[]]. split; auto. cbn [pos]. rewrite String.eqb_refl. destruct (String.eqb_spec (lc_name a) (lc_name l)); [exfalso; apply N1; left; congruence|lia].
  - intros H. change (In p (previous l (b :: r'))) in H. change (previous l (b :: r') = [p]) with (previous l (b :: r') = [p]). destruct (IH N2 H) as [IH1 IH2]. split; auto.
    change (pos p (a :: b :: r')) with (if String.eqb (lc_name a) p then 0 else S (pos p (b :: r'))).
    change (pos (lc_name l) (a :: b :: r')) with (if String.eqb (lc_name a) (lc_name l) then 0 else S (pos (lc_name l) (b :: r'))).
    assert (PIN : forall q ls0, In q (previous l ls0) -> In q (map lc_name ls0)).
    { clear. intros q ls0. induction ls0 as [|x t IH]; [easy|]. destruct t as [|y t']; [easy|]. cbn [previous]. destruct (String.eqb _ _); [intros [<-|[]]; now left|]. intros J; right; auto. }
    assert (QIN : forall q ls0, In q (previous l ls0) -> In (lc_name l) (map lc_name ls0)).
    { clear. intros q ls0. induction ls0 as [|x t IH]; [easy|]. destruct t as [|y t']; [easy|]. cbn [previous]. destruct (String.eqb_spec (lc_name y) (lc_name l)) as [E|E]; [intros _; right; left; auto|]. intros J; right; auto. }
    destruct (String.eqb_spec (lc_name a) p) as [Ea|Ea]; [exfalso; apply N1; rewrite Ea; exact (PIN _ (b :: r') H)|].
    destruct (String.eqb_spec (lc_name a) (lc_name l)) as [E2|E2]; [exfalso; apply N1; rewrite E2; exact (QIN _ (b :: r') H)|]. lia.
Qed.
Lemma seq_input st x hd : NoDup (names st) -> mtree Sequential st hd x -> n_inputs x = [] \/ exists a, n_inputs x = [a] /\ pos (n_name a) (s_layers st) < pos (n_name x) (s_layers st) /\ mtree Sequential st false a.
Proof.
  intros ND M. inversion M as [? ? G E F]; subst. destruct E as [E|(inames & E1 & E2)]; auto. cbn in E1. injection E1 as E1.
  destruct (n_inputs x) as [|a t] eqn:EI; auto. right. exists a. rewrite Forall_forall in F.
  assert (IA : In (n_layer a) (get_layers st inames)) by (rewrite <- E2; now left). apply filter_In in IA as [_ IA]. apply inb_In in IA.
  assert (PP : inames = previous (n_layer x) (s_layers st)).
  { subst inames. destruct (s_layers st) as [|b bs]; [easy|]. destruct (String.eqb (lc_name b) (lc_name (n_layer x))); auto. easy. }
  rewrite PP in IA. unfold names in ND. destruct (previous_pos _ _ _ ND IA) as [P1 P2]. rewrite PP, P2 in E2.
  pose proof (NoDup_filter_names st [lc_name (n_layer a)] ND) as NN. rewrite <- E2 in NN. cbn [map] in NN. inversion NN as [|? ? N1 N2]; subst.
  destruct t as [|b t]; [split; [reflexivity|split; [exact P1|apply F; now left]]|]. exfalso. apply N1.
  assert (IB : In (n_layer b) (get_layers st [lc_name (n_layer a)])) by (rewrite <- E2; right; now left). apply filter_In in IB as [_ IB]. apply inb_In in IB. destruct IB as [IB|[]]. left. auto.
Qed.
Lemma seq_pos st m : forall hd x, NoDup (names st) -> mtree Sequential st hd m -> node_in x m -> x = m \/ pos (n_name x) (s_layers st) < pos (n_name m) (s_layers st).
Proof.
  induction m as [l w nw md ins IH] using node_ind'; intros hd x ND M X. apply node_in_cons in X as [->|(a & A & B)]; auto. right.
  destruct (seq_input st _ hd ND M) as [E|(b & E & P & Mb)]; cbn in E; subst ins; [easy|]. destruct A as [<-|[]]. rewrite Forall_forall in IH.
  destruct (IH b (or_introl eq_refl) false x ND Mb B) as [->|?]; auto. lia.
Qed.
Lemma seq_nodup st m : forall hd, NoDup (names st) -> mtree Sequential st hd m -> NoDup (layer_names m).
Proof.
  induction m as [l w nw md ins IH] using node_ind'; intros hd ND M. cbn [layer_names].
  destruct (seq_input st _ hd ND M) as [E|(b & E & P & Mb)]; cbn in E; subst ins; [repeat constructor; easy|]. cbn [flat_map]. rewrite app_nil_r.
  rewrite Forall_forall in IH. constructor; [|eapply IH; eauto; now left]. intros H. apply in_layer_names in H as (x & X & EX).
  destruct (seq_pos st b false x ND Mb X) as [->|Q]; unfold n_name in *; cbn in *; rewrite EX in *; lia.
Qed.
Lemma match_nodup k st m hd : wf_model k st -> mtree k st hd m -> NoDup (layer_names m).
Proof. destruct k; cbn; intros W M; [eapply nodup_match; eauto|eapply seq_nodup; eauto]. Qed.
Lemma wf_model_names k st : wf_model k st -> NoDup (names st).
Proof. destruct k; cbn; auto. apply wf_names. Qed.
Lemma NoDup_app_intro {A} (a b : list A) : NoDup a -> NoDup b -> (forall x, In x a -> ~ In x b) -> NoDup (a ++ b).
Proof.
  induction a as [|x t IH]; cbn; auto. intros N1 N2 D. inversion N1; subst. constructor; [rewrite in_app_iff; intros [?|?]; [auto|eapply D; [left; reflexivity|auto]]|apply IH; auto].
Qed.
Lemma wf_model_replace k st m r st' : wf_model k st -> mtree k st true m -> names_ok st m r -> replace k st m r = Ok st' -> wf_model k st'.
Proof.
  destruct k; cbn [wf_model]; intros W M NO R; [eapply replace_wf; eauto|]. pose proof (replace_sequential_layers _ _ _ _ R) as (E & _). cbv zeta in E. unfold names in *. rewrite E.
  set (keep := filter _ _). set (i := index_first _ _). destruct NO as [N1 N2].
  eapply (Permutation_NoDup (l := map lc_name (keep ++ map n_layer (postorder r)))).
  - apply Permutation_map. eapply Permutation_trans; [|apply Permutation_app_head, Permutation_app_comm]. rewrite app_assoc, firstn_skipn. reflexivity.
  - rewrite map_app. apply NoDup_app_intro.
    + unfold keep. clear -W. induction (s_layers st) as [|u t IH]; cbn; [constructor|]. inversion W; subst. destruct (negb _); auto. cbn. constructor; auto.
      intros H. apply H1. apply in_map_iff in H as (y & <- & H). apply filter_In in H as [H _]. now apply in_map.
    + rewrite map_map. apply (new_nodes_nodup Sequential m r N1).
    + intros x X Y. rewrite map_map in Y. apply (new_nodes_names Sequential m r) in Y. apply in_map_iff in X as (l & <- & X). unfold keep in X. apply filter_In in X as [X1 X2].
      apply negb_true_iff, inb_false in X2. destruct (N2 _ Y) as [?|Q]; auto. apply Q. now apply in_map.
Qed.
Lemma append_cancel s : forall a b, (a ++ s = b ++ s)%string -> a = b.
Proof.
  assert (L : forall a b : string, String.length (a ++ b) = String.length a + String.length b) by (induction a; cbn; auto).
  induction a as [|c a IH]; intros [|d b]; cbn; auto.
  - intros E. apply (f_equal String.length) in E. cbn in E. rewrite L in E. lia.
  - intros E. apply (f_equal String.length) in E. cbn in E. rewrite L in E. lia.
  - intros [= -> E]. f_equal; auto.
Qed.
