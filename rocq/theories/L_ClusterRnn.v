(** Names of RNN weights (C128). *)
From Coq Require Import String Ascii DecimalString DecimalNat Decimal.
From Verif Require Import Base M_Tensor M_Num M_Cluster M_ClusterWrapper M_Compat M_ClusterRnn S_Cluster S_ClusterWrapper S_ClusterRnn L_Compat.
Open Scope string_scope.
Open Scope list_scope.
Open Scope nat_scope.

Definition slash : ascii := "/"%char.
Lemma split_none s : ~ has slash s -> split_slash s = (s, []).
Proof.
  induction s as [|c s IH]; intros H; [reflexivity|]. cbn in *. rewrite IH by tauto. destruct (Ascii.eqb_spec c "/"%char) as [->|N]; [exfalso; apply H; now left|reflexivity].
Qed.
Lemma split_one a s : ~ has slash a -> ~ has slash s -> split_slash (a ++ "/" ++ s)%string = (a, [s]).
Proof.
  intros Ha Hs. induction a as [|c a IH].
  - cbn. now rewrite split_none.
  - cbn [append] in *. cbn [split_slash]. cbn in Ha. rewrite IH by tauto. destruct (Ascii.eqb_spec c "/"%char) as [->|N]; [exfalso; apply Ha; now left|reflexivity].
Qed.
Lemma py_str_chars n c : has c (py_str n) -> c <> slash /\ c <> "-"%char.
Proof.
  unfold py_str. generalize (Nat.to_uint n). intros d. induction d; cbn; unfold slash; intros H; try (destruct H as [<-|H]; [split; discriminate|]); tauto.
Qed.
Lemma py_str_nonempty n : py_str n <> EmptyString.
Proof.
  unfold py_str. intros H. destruct (Nat.to_uint n) eqn:E; cbn in H; try discriminate. pose proof (Unsigned.of_to n) as O. rewrite E in O. cbn in O. subst n. discriminate.
Qed.
Lemma py_int_str n : py_int (py_str n) = Ok (Z.of_nat n).
Proof.
  assert (D : forall t, t = py_str n -> match t with EmptyString => Err ValueError | _ => match NilEmpty.uint_of_string t with Some d => Ok (Z.of_nat (Nat.of_uint d)) | None => Err ValueError end end = Ok (Z.of_nat n)).
  { intros t ->. pose proof (py_str_nonempty n) as Ne. destruct (py_str n) as [|c s] eqn:E; [contradiction|]. rewrite <- E. unfold py_str. rewrite NilEmpty.usu, Unsigned.of_to. reflexivity. }
  unfold py_int. pose proof (py_str_nonempty n) as Ne. pose proof (py_str_chars n) as Ch. destruct (py_str n) as [|c s] eqn:E; [contradiction|].
  destruct (Ascii.eqb_spec c "-"%char) as [->|N]; [exfalso; apply (Ch "-"%char); [now left|reflexivity]|].
  rewrite (D (String c s)) by (now rewrite <- E).
  destruct c as [[|] [|] [|] [|] [|] [|] [|] [|]]; try reflexivity. exfalso. apply N. reflexivity.
Qed.
Lemma no_slash_str n : ~ has slash (py_str n).
Proof. intros H. apply py_str_chars in H. tauto. Qed.
Lemma no_slash_attr a : clusterable_attr a -> ~ has slash a.
Proof. intros [|]; cbn; unfold slash; intros H; repeat (destruct H as [H|H]; [discriminate|]); exact H. Qed.
Lemma name_indexed a i : clusterable_attr a -> name_without_index (indexed a i) = Ok (a, Z.of_nat i).
Proof.
  intros Ha. unfold name_without_index, indexed. rewrite split_one by (auto using no_slash_attr, no_slash_str). cbn. now rewrite py_int_str.
Qed.
Lemma indexed_inj a b i j : clusterable_attr a -> clusterable_attr b -> indexed a i = indexed b j -> a = b /\ i = j.
Proof.
  intros Ha Hb E. pose proof (name_indexed a i Ha) as H1. rewrite E, (name_indexed b j Hb) in H1. injection H1 as <- H1. apply Nat2Z.inj in H1. auto.
Qed.

(** ** Cells *)
Lemma index_of_nth x l : In x l -> nth_error l (index_of x l) = Some x.
Proof.
  induction l as [|y l IH]; intros H; [destruct H|]. cbn. destruct (Nat.eqb_spec y x) as [->|N]; [reflexivity|]. apply IH. destruct H; [contradiction|assumption].
Qed.
Lemma py_nth_nat l i c : nth_error l i = Some c -> py_nth l (Z.of_nat i) = Ok c.
Proof.
  intros H. unfold py_nth. destruct (Z.ltb_spec (Z.of_nat i) 0); [lia|]. destruct (Z.ltb_spec (Z.of_nat i) 0); [lia|]. now rewrite Nat2Z.id, H.
Qed.
Lemma has_cell_nth h l i c : (exists b d, l = RnnLayer b d) \/ (exists f b, l = Bidirectional f b) -> (has_cell h l i c <-> nth_error (get_rnn_cells h l) i = Some c).
Proof.
  intros [(b & d & ->)|(f & b & ->)]; cbn; split.
  - intros H. inversion H as [b' c' Hn|b' c' cs i' d' Hc Hn| |]; subst.
    + destruct (c_class (h c)) eqn:E; try reflexivity. exfalso. eapply Hn. reflexivity.
    + rewrite Hc. exact Hn.
  - intros H. destruct (c_class (h d)) eqn:E.
    3:{ destruct i as [|[|i]]; try discriminate. injection H as <-. constructor. rewrite E. discriminate. }
    1,2: destruct i as [|[|i]]; try discriminate; injection H as <-; constructor; rewrite E; discriminate.
    + econstructor; eassumption.
    + destruct i as [|[|i]]; try discriminate. injection H as <-. constructor. rewrite E. discriminate.
  - intros H. inversion H; subst; reflexivity.
  - intros H. destruct i as [|[|[|i]]]; try discriminate; injection H as <-; constructor.
Qed.
(** A weight name stands for the attribute of the cell with that index. *)
Lemma resolve_indexed h l a i c : clusterable_attr a -> has_cell h l i c -> resolve h l (indexed a i) = Ok (c, a).
Proof.
  intros Ha H. unfold resolve. rewrite name_indexed by assumption. cbn [bind]. inversion H as [b' c' Hn|b' c' cs i' d' Hc Hn| |]; subst.
  - destruct (c_class (h c)) eqn:E; try reflexivity. exfalso. eapply Hn. reflexivity.
  - rewrite Hc. now rewrite (py_nth_nat _ _ _ Hn).
  - reflexivity.
  - reflexivity.
Qed.
Lemma cell_weights_inv h c i ws : cell_weights h c i = Ok ws -> exists k r, get_attr (c_attrs (h c)) "kernel" = Ok k /\ get_attr (c_attrs (h c)) "recurrent_kernel" = Ok r /\
  ws = [(indexed "kernel" i, k); (indexed "recurrent_kernel" i, r)] /\ supported_cell (c_class (h c)) = true.
Proof.
  unfold cell_weights. destruct (supported_cell _) eqn:E; [|discriminate]. destruct (get_attr _ "kernel") as [k|]; [|discriminate]. cbn [bind]. destruct (get_attr _ "recurrent_kernel") as [r|]; [|discriminate]. cbn [bind]. intros [= <-]. exists k, r. auto.
Qed.
Lemma mapM_inv {A B} (f : A -> res B) : forall l m, mapM f l = Ok m -> Forall2 (fun a b => f a = Ok b) l m.
Proof.
  induction l as [|a l IH]; intros m H; cbn in H; [injection H as <-; constructor|]. destruct (f a) as [b|] eqn:E; [|discriminate]. cbn [bind] in H. destruct (mapM f l) as [bs|]; [|discriminate]. cbn [bind] in H. injection H as <-. constructor; auto.
Qed.
(** What a library layer lists: for every cell its two weights, under the index of the first occurrence of the cell. *)
Lemma listed_rnn h l ws : (exists b d, l = RnnLayer b d) \/ (exists f b, l = Bidirectional f b) -> get_clusterable_weights h l = Ok ws ->
  exists wss, ws = List.concat wss /\ Forall2 (fun c w => cell_weights h c (index_of c (get_rnn_cells h l)) = Ok w) (get_rnn_cells h l) wss.
Proof.
  intros L H. assert (H' : (let cells := get_rnn_cells h l in if 1 <? List.length cells then do ws <- mapM (fun c => cell_weights h c (index_of c cells)) cells ;; Ok (List.concat ws) else match cells with [] => Ok [] | c :: _ => cell_weights h c 0 end) = Ok ws) by (destruct L as [(b & d & ->)|(f & b & ->)]; exact H).
  clear H. cbv zeta in H'. generalize dependent (get_rnn_cells h l). intros cells H. destruct (Nat.ltb_spec 1 (List.length cells)) as [Lt|Le].
  - destruct (mapM _ cells) as [wss|] eqn:M; [|discriminate]. cbn [bind] in H. injection H as <-. exists wss. split; [reflexivity|]. now apply mapM_inv in M.
  - destruct cells as [|c [|d cells]]; [|
      |cbn in Le; lia].
    + injection H as <-. exists []. split; [reflexivity|constructor].
    + exists [ws]. split; [cbn; now rewrite app_nil_r|]. constructor; [|constructor]. cbn. now rewrite Nat.eqb_refl.
Qed.
Lemma Forall2_in_r {A B} (R : A -> B -> Prop) l m : Forall2 R l m -> forall b, In b m -> exists a, In a l /\ R a b.
Proof. induction 1; intros b0 Hb; [destruct Hb|]. destruct Hb as [-> | Hb]; [eexists; split; [now left|eassumption]|destruct (IHForall2 _ Hb) as (a & I1 & I2); exists a; split; [now right|exact I2]]. Qed.
Lemma Forall2_in_l {A B} (R : A -> B -> Prop) l m : Forall2 R l m -> forall a, In a l -> exists b, In b m /\ R a b.
Proof. induction 1; intros b0 Hb; [destruct Hb|]. destruct Hb as [-> | Hb]; [eexists; split; [now left|eassumption]|destruct (IHForall2 _ Hb) as (a & I1 & I2); exists a; split; [now right|exact I2]]. Qed.
Lemma library_cases l : library_layer l -> ((exists b d, l = RnnLayer b d) \/ (exists f b, l = Bidirectional f b)) \/ exists c, l = CellLayer c.
Proof. intros H. destruct l as [b c|f b|c ws|c]; [left; left; eauto|left; right; eauto|exfalso; eapply H; reflexivity|right; eauto]. Qed.
Lemma names_are h l ws n a : library_layer l -> get_clusterable_weights h l = Ok ws -> In (n, a) ws ->
  exists attr i c, clusterable_attr attr /\ n = indexed attr i /\ has_cell h l i c /\ get_attr (c_attrs (h c)) attr = Ok a.
Proof.
  intros Lib H Hin. destruct (library_cases l Lib) as [L|(c & ->)].
  2:{ cbn in H. destruct (existsb _ _); [discriminate|]. injection H as <-. destruct Hin. }
  destruct (listed_rnn h l ws L H) as (wss & -> & F). apply in_concat in Hin. destruct Hin as (w & Hw & Hin). destruct (Forall2_in_r _ _ _ F w Hw) as (c & Hc & E). apply cell_weights_inv in E. destruct E as (k & r & Ek & Er & -> & _).
  assert (HC : has_cell h l (index_of c (get_rnn_cells h l)) c) by (apply has_cell_nth; [exact L|now apply index_of_nth]).
  destruct Hin as [[= <- <-]|[[= <- <-]|[]]]; do 3 eexists; (split; [constructor|]); split; try reflexivity; split; eassumption.
Qed.
Lemma names_resolve h l ws n a : library_layer l -> get_clusterable_weights h l = Ok ws -> In (n, a) ws -> get_weight_from_layer h l n = Ok a.
Proof.
  intros Lib H Hin. destruct (names_are h l ws n a Lib H Hin) as (attr & i & c & Ha & -> & HC & G). unfold get_weight_from_layer. rewrite (resolve_indexed _ _ _ _ _ Ha HC). exact G.
Qed.
Lemma every_weight h l ws i c attr : get_clusterable_weights h l = Ok ws -> has_cell h l i c -> clusterable_attr attr ->
  exists a j, get_attr (c_attrs (h c)) attr = Ok a /\ has_cell h l j c /\ In (indexed attr j, a) ws.
Proof.
  intros H HC Ha. assert (L : (exists b d, l = RnnLayer b d) \/ (exists f b, l = Bidirectional f b)) by (inversion HC; subst; [left|left|right|right]; eauto).
  destruct (listed_rnn h l ws L H) as (wss & -> & F). assert (Hc : In c (get_rnn_cells h l)) by (apply has_cell_nth in HC; [eapply nth_error_In, HC|exact L]).
  destruct (Forall2_in_l _ _ _ F c Hc) as (w & Hw & E). apply cell_weights_inv in E. destruct E as (k & r & Ek & Er & -> & _).
  assert (HC' : has_cell h l (index_of c (get_rnn_cells h l)) c) by (apply has_cell_nth; [exact L|now apply index_of_nth]).
  inversion Ha; subst; do 2 eexists; (split; [eassumption|]); (split; [exact HC'|]); apply in_concat; eexists; (split; [exact Hw|]); cbn; auto.
Qed.
Lemma index_nodup : forall (l : list nat) i c, NoDup l -> nth_error l i = Some c -> index_of c l = i.
Proof.
  induction l as [|y l IH]; intros i c Nd H; [destruct i; discriminate|]. inversion Nd; subst. destruct i as [|i]; cbn in *.
  - injection H as ->. now rewrite Nat.eqb_refl.
  - destruct (Nat.eqb_spec y c) as [->|N]; [exfalso; apply H2; eapply nth_error_In; eassumption|]. now rewrite (IH i).
Qed.
Lemma cells_nodup h l : (exists b d, l = RnnLayer b d) \/ (exists f b, l = Bidirectional f b) -> distinct_cells h l -> NoDup (get_rnn_cells h l).
Proof.
  intros L D. apply NoDup_nth_error. intros i j Hi E. destruct (nth_error (get_rnn_cells h l) i) as [c|] eqn:Ec; [|apply nth_error_None in Ec; lia]. symmetry in E. apply (D i j c); apply has_cell_nth; auto.
Qed.
Lemma names_of_list h cells0 : forall cells wss, Forall2 (fun c w => cell_weights h c (index_of c cells0) = Ok w) cells wss -> incl cells cells0 -> NoDup cells -> NoDup (map fst (List.concat wss)).
Proof.
  induction 1 as [|c w cells wss E F IH]; intros Sub Nd; [constructor|]. inversion Nd; subst. apply cell_weights_inv in E. destruct E as (k & r & _ & _ & -> & _). cbn [List.concat app map fst].
  assert (Out : forall attr, clusterable_attr attr -> ~ In (indexed attr (index_of c cells0)) (map fst (List.concat wss))).
  { intros attr Ha Hin. apply in_map_iff in Hin. destruct Hin as ((n, a) & En & Hin). cbn in En. subst n. apply in_concat in Hin. destruct Hin as (w & Hw & Hin). destruct (Forall2_in_r _ _ _ F w Hw) as (d & Hd & E). apply cell_weights_inv in E. destruct E as (k' & r' & _ & _ & -> & _).
    assert (Ei : index_of c cells0 = index_of d cells0) by (destruct Hin as [[= Q _]|[[= Q _]|[]]]; symmetry in Q; apply indexed_inj in Q; try constructor; tauto).
    assert (In c cells0) by (apply Sub; now left). assert (In d cells0) by (apply Sub; now right). pose proof (index_of_nth c cells0 H) as N1. pose proof (index_of_nth d cells0 H0) as N2. rewrite Ei in N1. congruence. }
  constructor; [|constructor].
  - intros [Q|Q]; [apply indexed_inj in Q; try constructor; destruct Q; discriminate|]. revert Q. apply Out. constructor.
  - apply Out. constructor.
  - apply IH; [|assumption]. intros x Hx. apply Sub. now right.
Qed.
Lemma names_distinct h l ws : library_layer l -> distinct_cells h l -> get_clusterable_weights h l = Ok ws -> NoDup (map fst ws).
Proof.
  intros Lib D H. destruct (library_cases l Lib) as [L|(c & ->)].
  2:{ cbn in H. destruct (existsb _ _); [discriminate|]. injection H as <-. constructor. }
  destruct (listed_rnn h l ws L H) as (wss & -> & F). eapply names_of_list; [exact F|apply incl_refl|now apply cells_nodup].
Qed.
