From Coq Require Import String Permutation.
From Verif Require Import Base M_Tensor M_Transform S_Transform L_Transform L_Transform2 L_Transform3 L_Transform4.
Open Scope nat_scope.

Section Run.
  Variables (meq : meta -> meta -> bool) (k : mkind) (ts : list transform) (st0 : state).
  Lemma iterate_S n : forall s, iterate meq k ts (S n) s = match iterate meq k ts n s with Running s' => step meq k ts s' | o => o end.
  Proof.
    induction n as [|n IH]; intros s; [cbn; destruct (step meq k ts s); auto|].
    change (iterate meq k ts (S (S n)) s) with (match step meq k ts s with Running s' => iterate meq k ts (S n) s' | o => o end).
    change (iterate meq k ts (S n) s) with (match step meq k ts s with Running s' => iterate meq k ts n s' | o => o end).
    destruct (step meq k ts s); auto.
  Qed.
  Lemma todo_sub n : forall s, iterate meq k ts n (start ts st0) = Running s -> exists pre, ts = (pre ++ ls_todo s)%list.
  Proof.
    induction n as [|n IH]; intros s; [cbn; intros [= <-]; exists []; auto|]. rewrite iterate_S. destruct (iterate meq k ts n (start ts st0)) as [s0| |]; try discriminate.
    destruct (IH s0 eq_refl) as (pre & E). unfold step. destruct (ls_todo s0) as [|t rest] eqn:T.
    - destruct (ls_found s0); try discriminate. intros [= <-]. exists []; auto.
    - destruct (find_pattern _ _ _ _) as [[m|]|]; try discriminate.
      + destruct (t_repl _ _ _) as [r|]; try discriminate. destruct (node_eqb _ _ _); [intros [= <-]; exists pre; auto|].
        destruct (replace _ _ _ _); try discriminate. intros [= <-]; exists pre; auto.
      + intros [= <-]. exists (pre ++ [t])%list. cbn. now rewrite <- app_assoc.
  Qed.
  Lemma step_cases n s o : iterate meq k ts n (start ts st0) = Running s -> step meq k ts s = o ->
    (exists e, o = Failed e) \/ (o = Done (ls_state s)) \/
    (exists s', o = Running s' /\ ls_state s' = ls_state s /\ (forall p, In p (ls_matched s) -> In p (ls_matched s'))) \/
    (exists s' t m r, o = Running s' /\ about_to_replace meq k ts st0 s t m r /\ replace k (ls_state s) m r = Ok (ls_state s')).
  Proof.
    intros I. destruct (todo_sub n s I) as (pre & E). unfold step. destruct (ls_todo s) as [|t rest] eqn:T.
    - destruct (ls_found s); intros <-; [right; right; left; eexists; split; [reflexivity|auto]|auto].
    - destruct (find_pattern _ _ _ _) as [[m|]|] eqn:F; [| intros <-; right; right; left; eexists; split; [reflexivity|auto] | intros <-; eauto].
      destruct (t_repl t (List.length (ls_matched s)) m) as [r|] eqn:TR; [|intros <-; eauto].
      destruct (node_eqb meq m r).
      + intros <-. right; right; left. eexists; split; [reflexivity|]. split; auto. cbn; auto.
      + destruct (replace k (ls_state s) m r) as [st'|] eqn:R; intros <-; [|eauto]. right; right; right. do 4 eexists. split; [reflexivity|]. split; [|exact R].
        repeat split; eauto. rewrite E, in_app_iff. right; now left.
  Qed.
  (** Invariants of the model state. *)
  Lemma run_inv (P : state -> Prop) : P st0 ->
    (forall s t m r st', P (ls_state s) -> about_to_replace meq k ts st0 s t m r -> replace k (ls_state s) m r = Ok st' -> P st') ->
    forall n, match iterate meq k ts n (start ts st0) with Running s => P (ls_state s) | Done st => P st | Failed _ => True end.
  Proof.
    intros P0 PS. induction n as [|n IH]; [exact P0|]. rewrite iterate_S. destruct (iterate meq k ts n (start ts st0)) as [s|st|e] eqn:E; auto.
    destruct (step_cases n s _ E eq_refl) as [(e & ->)|[->|[(s' & -> & A & B)|(s' & t & m & r & -> & A & B)]]]; auto; [now rewrite A|eauto].
  Qed.
  Lemma run_done (P : state -> Prop) n st : P st0 ->
    (forall s t m r st', P (ls_state s) -> about_to_replace meq k ts st0 s t m r -> replace k (ls_state s) m r = Ok st' -> P st') ->
    iterate meq k ts n (start ts st0) = Done st -> P st.
  Proof. intros A B E. pose proof (run_inv P A B n) as H. now rewrite E in H. Qed.
End Run.

Theorem run_wf meq ts st0 n st : wf_graph st0 -> run_names_ok meq Functional ts st0 -> iterate meq Functional ts n (start ts st0) = Done st -> wf_graph st.
Proof.
  intros W RO. apply run_done; auto. intros s t m r st' Ws A R. eapply replace_wf; eauto. destruct A as (_ & _ & _ & F & _). now apply find_pattern_tree in F as [F _].
Qed.

(** ** Layers that are not candidates *)
Section Untouched.
  Variables (meq : meta -> meta -> bool) (k : mkind) (ts : list transform) (st0 : state) (F : string -> Prop).
  Hypothesis C0 : s_cand st0 <> [].
  Hypothesis TS : forall t i m r n, In t ts -> t_repl t i m = Ok r -> In n (layer_names r) -> In n (layer_names m) \/ F n.
  Hypothesis FR : forall n, F n -> ~ In n (names st0).
  Definition keep (l : layerc) : bool := (inb (lc_name l) (names st0) && negb (inb (lc_name l) (s_cand st0)))%bool.
  Definition Inv (st : state) : Prop :=
    s_cand st <> [] /\ (forall n, In n (s_cand st) -> In n (s_cand st0) \/ F n) /\
    exists f, (forall n, In n (names st0) -> ~ In n (s_cand st0) -> f n = n) /\
      Forall2 (kept f) (filter keep (s_layers st0)) (filter keep (s_layers st)) /\
      map c_name (s_outputs st) = map f (map c_name (s_outputs st0)) /\
      (forall n, In n (names st0) -> ~ In n (s_cand st0) ->
        assoc n (s_w st) = assoc n (s_w st0) /\ assoc n (s_nw st) = assoc n (s_nw st0) /\ assoc n (s_meta st) = assoc n (s_meta st0)).
  Lemma filter_map_rename o nw l : filter keep (map (rename_layer o nw) l) = map (rename_layer o nw) (filter keep l).
  Proof.
    induction l as [|a r IH]; auto. cbn. assert (E : keep (rename_layer o nw a) = keep a) by (unfold keep; now destruct (rename_same o nw a) as (_ & -> & _)).
    rewrite E. destruct (keep a); cbn; now rewrite IH.
  Qed.
  Lemma filter_keep_m m l : (forall n, In n (layer_names m) -> In n (s_cand st0) \/ F n) -> filter keep (filter (fun l => negb (inb (lc_name l) (layer_names m))) l) = filter keep l.
  Proof.
    intros H. induction l as [|a r IH]; auto. cbn. destruct (inb (lc_name a) (layer_names m)) eqn:E; cbn; rewrite IH; auto.
    apply inb_In in E. apply H in E. replace (keep a) with false; auto. unfold keep. symmetry. apply andb_false_iff.
    destruct E as [E|E]; [right; apply negb_false_iff, inb_In; auto|left; apply inb_false; auto].
  Qed.
  Lemma filter_none l : (forall x, In x l -> keep x = false) -> filter keep l = [].
  Proof. induction l as [|a r IH]; auto. cbn. intros H. rewrite (H a (or_introl eq_refl)). apply IH. intros; apply H; now right. Qed.
  Lemma inv_step' s t m r st' : Inv (ls_state s) -> about_to_replace meq k ts st0 s t m r -> (forall n, In n (layer_names r) -> In n (layer_names m) \/ F n) ->
    replace k (ls_state s) m r = Ok st' -> Inv st'.
  Proof.
    intros (I1 & I2 & f & If & I3 & I4 & I5) (_ & Tin & _ & FP & TR) TSL R. apply find_pattern_tree in FP as [M _].
    assert (MC : forall n, In n (layer_names m) -> In n (s_cand st0) \/ F n).
    { intros n N. apply in_layer_names in N as (x & X & <-). destruct (mtree_good _ _ _ _ x M X) as (h & _ & G & _). apply I2. unfold candidate in G. destruct (s_cand (ls_state s)); [easy|]. now apply inb_In. }
    assert (RC : forall n, In n (layer_names r) -> In n (s_cand st0) \/ F n) by (intros n N; destruct (TSL n N); auto).
    assert (HM : forall n, In n (names st0) -> ~ In n (s_cand st0) -> ~ In n (layer_names m) /\ ~ In n (layer_names r)).
    { intros n A B. split; intros C; [destruct (MC n C)|destruct (RC n C)]; auto; eapply FR; eauto. }
    destruct (replace_cand _ _ _ _ _ R) as [_ CR]. destruct (CR I1) as [C1 C2]. split; auto. split.
    { intros n N. apply C2 in N as [N|N]; auto. }
    assert (NEW : filter keep (map n_layer (new_nodes k m r)) = []).
    { apply filter_none. intros x X. apply in_map_iff in X as (y & <- & Y). assert (Z : In (n_name y) (layer_names r)) by (apply (new_nodes_names k m r); now apply in_map).
      apply andb_false_iff. destruct (RC _ Z) as [Q|Q]; [right; apply negb_false_iff, inb_In; auto|left; apply inb_false; auto]. }
    assert (OUT : forall n, In n (names st0) -> ~ In n (s_cand st0) ->
        assoc n (s_w st') = assoc n (s_w st0) /\ assoc n (s_nw st') = assoc n (s_nw st0) /\ assoc n (s_meta st') = assoc n (s_meta st0)).
    { intros n A B. destruct (HM n A B) as [H1 H2]. destruct (replace_outside _ _ _ _ _ n R H1 H2) as (-> & -> & ->). auto. }
    assert (NM : In (n_name m) (layer_names m)) by (destruct m; cbn; auto).
    destruct k.
    - pose (g := fun n => if String.eqb n (n_name m) then n_name r else n). exists (fun n => g (f n)). split; [|split; [|split; auto]].
      + intros n A B. rewrite If by auto. unfold g. destruct (String.eqb_spec n (n_name m)); auto. subst. destruct (HM _ A B). tauto.
      + apply replace_functional_layers in R as (-> & _). rewrite filter_app. cbn [new_nodes] in NEW. rewrite NEW, app_nil_r, filter_map_rename, filter_keep_m by auto.
        clear -I3. induction I3 as [|a b x y H F2 IH]; cbn; constructor; auto. destruct H as ((A1 & A2 & A3) & B & C & D).
        destruct (rename_same (n_name m) (n_name r) b) as (E1 & E2 & E3). destruct (rename_redirected (n_name m) (n_name r) b) as (G1 & G2 & G3).
        unfold kept, same_layer. rewrite E1, E2, E3, G1, G2, G3, A1, A2, A3, B, C, D. repeat split. rewrite map_map. apply map_ext. intros u. rewrite map_map. apply map_ext. intros v. now rewrite map_map.
      + rewrite (replace_outputs _ _ _ _ _ R). rewrite map_map. rewrite <- (map_map f g), <- I4, map_map. apply map_ext. intros c. unfold rename_output, g. now destruct (String.eqb (c_name c) (n_name m)).
    - exists f. split; auto. split; [|split; auto].
      + apply replace_sequential_layers in R as (-> & _). rewrite !filter_app. cbn [new_nodes] in NEW. rewrite NEW. cbn [app]. rewrite <- filter_app, firstn_skipn, filter_keep_m by auto. exact I3.
      + now rewrite (replace_outputs _ _ _ _ _ R).
  Qed.
  Lemma inv_step s t m r st' : Inv (ls_state s) -> about_to_replace meq k ts st0 s t m r -> replace k (ls_state s) m r = Ok st' -> Inv st'.
  Proof. intros I A R. eapply inv_step'; eauto. destruct A as (_ & Tin & _ & _ & TR). intros n N. eapply TS; eauto. Qed.
  Lemma inv_init : Inv st0.
  Proof.
    split; auto. split; auto. exists (fun n => n). split; auto. split; [|split; [now rewrite map_id|auto]].
    induction (filter keep (s_layers st0)); constructor; auto. repeat split. rewrite <- map_id at 1. apply map_ext. intros u. rewrite <- map_id at 1. apply map_ext. intros v. now rewrite map_id.
  Qed.
  Theorem run_untouched n st : iterate meq k ts n (start ts st0) = Done st -> Inv st.
  Proof. apply run_done; [apply inv_init|apply inv_step]. Qed.
End Untouched.

Lemma assoc_map_in {A B} (g : A -> B) (l : list (string * A)) n : assoc n (map (fun p => (fst p, g (snd p))) l) = match assoc n l with Some v => Some (g v) | None => None end.
Proof. induction l as [|[s a] r IH]; auto. cbn. destruct (String.eqb s n); auto. Qed.
Lemma nodupb_iff l : nodupb l = true <-> NoDup l.
Proof.
  induction l as [|a r IH]; cbn; [split; auto; constructor|]. rewrite andb_true_iff, negb_true_iff, inb_false, IH. split; [intros []; now constructor|intros H; inversion H; auto].
Qed.
Lemma final_original ls outs ws md cand st' n v fresh : assoc n ws = Some v ->
  assoc n (s_w st') = assoc n (s_w (init_state ls outs ws md cand)) -> assoc n (s_nw st') = assoc n (s_nw (init_state ls outs ws md cand)) ->
  map fst fresh = map fst v -> final_weights st' n fresh = Ok v.
Proof.
  intros A E1 E2 EF. assert (E1' : assoc n (s_w st') = Some (if nodupb (map fst v) then v else [])).
  { rewrite E1. cbn [init_state s_w]. etransitivity; [exact (assoc_map_in (fun w : wts => if nodupb (map fst w) then w else []) ws n)|]. now rewrite A. }
  assert (E2' : assoc n (s_nw st') = Some v) by (rewrite E2; exact A).
  unfold final_weights, get_weights, get_nw. rewrite E1', E2'. clear E1' E2'.
  assert (LEN : List.length v = List.length fresh) by (rewrite <- (map_length fst v), <- EF, map_length; auto).
  assert (POS : map (fun p : (string * tensor Q) * (string * tensor Q) => (fst (fst p), snd (snd p))) (combine fresh v) = v).
  { clear -EF. revert v EF. induction fresh as [|[s t] r IH]; intros [|[s' t'] v]; cbn; try discriminate; auto. intros [= -> E]. f_equal. auto. }
  assert (POSR : (if Nat.eqb (List.length v) (List.length fresh) then Ok (map (fun p : (string * tensor Q) * (string * tensor Q) => (fst (fst p), snd (snd p))) (combine fresh v)) else Err ValueError) = Ok v)
    by (rewrite LEN, Nat.eqb_refl, POS; auto).
  destruct (nodupb (map fst v)) eqn:ND; [|exact POSR]. apply nodupb_iff in ND. destruct v as [|p0 v0] eqn:EV; [exact POSR|]. rewrite <- EV in *. clear EV POSR. f_equal.
  assert (G : forall w : list (string * tensor Q), NoDup (map fst w) -> forall p, In p w -> assoc (fst p) w = Some (snd p)).
  { clear. induction w as [|[s t] r IH]; intros ND p []; [subst; cbn; now rewrite String.eqb_refl|]. cbn in *. inversion ND; subst.
    destruct (String.eqb_spec s (fst p)); auto. subst. exfalso; apply H2. now apply in_map. }
  assert (K : forall (w fr v' : list (string * tensor Q)), (forall p, In p v' -> assoc (fst p) w = Some (snd p)) -> map fst fr = map fst v' ->
     map (fun p : string * tensor Q => match assoc (fst p) w with Some v => (fst p, v) | None => p end) fr = v').
  { clear. intros w. induction fr as [|[s t] r IH]; intros [|[s' t'] v]; try discriminate; auto. cbn [map fst]. intros SUB [= -> E].
    pose proof (SUB (s', t') (or_introl eq_refl)) as Q. cbn [fst snd] in Q. rewrite Q. f_equal. apply IH; auto. intros; apply SUB; now right. }
  apply K; auto.
Qed.
