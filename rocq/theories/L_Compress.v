From Coq Require Import String Ascii.
From Verif Require Import Base M_Tensor M_Num M_Cluster M_Compress S_Cluster S_Compress.
Open Scope string_scope.
Open Scope list_scope.
Open Scope nat_scope.

Lemma append_assoc (a b c : string) : ((a ++ b) ++ c = a ++ (b ++ c))%string.
Proof. induction a; cbn; congruence. Qed.
Lemma prefix_append a b : prefix a (a ++ b)%string = true.
Proof. induction a as [|c a IH]; cbn. now destruct b. destruct (ascii_dec c c); congruence. Qed.
Lemma drop_append a c b : drop_chars (String.length a + 1) (a ++ String c b)%string = b.
Proof. induction a; cbn; auto. Qed.
Lemma before_colon_append n : before_colon n = n -> before_colon (n ++ ":0")%string = n.
Proof.
  induction n as [|c n IH]; cbn. reflexivity.
  destruct (Ascii.eqb c ":"); [discriminate|]. intros [= H]. now rewrite IH.
Qed.
Lemma weight_name_proper l n : before_colon n = n -> weight_name l (l ++ "/" ++ n ++ ":0")%string = n.
Proof.
  intros H. unfold weight_name. rewrite prefix_append. cbn [String.append].
  rewrite drop_append. now apply before_colon_append.
Qed.

Lemma inb_In s l : inb s l = true <-> In s l.
Proof.
  unfold inb. rewrite existsb_exists. split.
  - intros (x & H & E). apply String.eqb_eq in E. now subst.
  - intros H. exists s. split; auto. apply String.eqb_refl.
Qed.

Lemma find_weight_In y w : NoDup (map lw_name (y_weights y)) -> In w (y_weights y) -> find_weight y (lw_name w) = Some w.
Proof.
  unfold find_weight. induction (y_weights y) as [|x r IH]; cbn; [tauto|].
  intros Hnd [-> | H].
  - now rewrite String.eqb_refl.
  - apply NoDup_cons_iff in Hnd as [Hx Hr]. destruct (String.eqb (lw_name x) (lw_name w)) eqn:E.
    + apply String.eqb_eq in E. exfalso. apply Hx. rewrite E. now apply in_map.
    + auto.
Qed.

Lemma mapM_map {A B C} (f : B -> res C) (g : A -> B) l : mapM f (map g l) = mapM (fun x => f (g x)) l.
Proof. induction l; cbn; auto. destruct (f (g a)); cbn; auto. now rewrite IHl. Qed.
Lemma mapM_ext_in {A B} (f g : A -> res B) l : (forall x, In x l -> f x = g x) -> mapM f l = mapM g l.
Proof.
  induction l; cbn; intros H; auto. rewrite (H a) by auto. destruct (g a); cbn; auto. rewrite IHl; auto.
Qed.
Lemma mapM_Ok {A B} (g : A -> B) l : mapM (fun x => Ok (g x)) l = Ok (map g l).
Proof. induction l; cbn; auto. now rewrite IHl. Qed.
Lemma mapM_total {A B} (f : A -> res B) (g : A -> B) l : (forall x, In x l -> f x = Ok (g x)) -> mapM f l = Ok (map g l).
Proof. intros H. rewrite <- mapM_Ok. now apply mapM_ext_in. Qed.

Lemma refill_app tr rest : forall vss,
  Forall2 (fun p vs => List.length (snd p) = List.length vs) tr vss ->
  refill tr (List.concat vss ++ rest) = (combine (map fst tr) vss, rest).
Proof.
  induction tr as [|[n old] r IH]; intros vss H; inversion H as [|? vs ? vss' E F]; subst; cbn. reflexivity.
  cbn in E. rewrite <- app_assoc. rewrite E.
  rewrite skipn_app, skipn_all, Nat.sub_diag. cbn [skipn app]. rewrite IH by auto.
  rewrite firstn_app, firstn_all, Nat.sub_diag. cbn [firstn]. now rewrite app_nil_r.
Qed.

Lemma same_shapes_eq l l' : map vshape l = map vshape l' -> same_shapes l l' = true.
Proof. intros H. unfold same_shapes. destruct (list_eq_dec _ _ _); congruence. Qed.
Lemma same_shapes_iff l l' : same_shapes l l' = true <-> map vshape l = map vshape l'.
Proof. unfold same_shapes. destruct (list_eq_dec _ _ _); split; congruence. Qed.

Lemma set_fresh y (initv : lweight -> list cv) (sel oth : list lweight) zs :
  Forall2 (fun z w => map vshape z = map vshape (initv w)) zs sel ->
  (forall w, In w oth -> vshape (lw_value w) = vshape (lw_init w)) ->
  tw_set_weights (mkTW y (combine (map lw_name sel) zs) (map (fun w => (lw_name w, lw_init w)) oth))
    (List.concat (map initv sel) ++ map lw_value oth) =
  Ok (mkTW y (map (fun w => (lw_name w, initv w)) sel) (map (fun w => (lw_name w, lw_value w)) oth)).
Proof.
  intros F Ho. unfold tw_set_weights, tw_get_weights. cbn [tw_training tw_rest tw_layer].
  rewrite same_shapes_eq.
  - rewrite refill_app.
    + do 2 f_equal.
      * clear - F. induction F; cbn; auto. f_equal; auto.
      * clear. induction oth; cbn; auto. f_equal; auto.
    + clear - F. induction F as [|z w zs sel H F IH]; cbn; constructor; auto. cbn.
      apply (f_equal (@List.length _)) in H. now rewrite !map_length in H.
  - rewrite !map_app. f_equal.
    + clear - F. induction F as [|z w zs sel H F IH]; cbn; auto. rewrite !map_app. congruence.
    + rewrite !map_map. apply map_ext_in. intros w Hw. cbn [snd]. now rewrite Ho.
Qed.

(** The selection of weights by a list of compressible attributes. *)
Definition selected (a : calg) (y : ylayer) (w : lweight) : bool :=
  existsb (fun o => match o with Some attr => String.eqb attr (lw_name w) | None => false end) (a_compressible a y).

Section Train.
Variables (a : calg) (y : ylayer).
Hypothesis Hp : proper y.
Hypothesis Hk : dense_or_conv2d y.
Let sel := filter (selected a y) (y_weights y).
Let oth := filter (fun w => negb (selected a y w)) (y_weights y).
Hypothesis Horder : a_compressible a y = map (fun w => Some (lw_name w)) sel.
Hypothesis Hne : a_compressible a y <> [].
Variable initv : lweight -> list cv.
Hypothesis Hinit : forall w, In w sel -> a_init a (lw_value w) = Ok (initv w).
Hypothesis Hst : shape_stable a.

Lemma names_sel : compressible_names a y = Ok (map lw_name sel).
Proof.
  unfold compressible_names. rewrite Horder, mapM_map. apply mapM_total. intros w Hw.
  assert (Hw' : In w (y_weights y)) by (unfold sel in Hw; apply filter_In in Hw; tauto).
  destruct Hp as (_ & Hnd & Hall). rewrite find_weight_In by auto.
  destruct (Hall w Hw') as (E & Hc & _ & _). rewrite E. now rewrite weight_name_proper.
Qed.

Lemma in_names_sel w : In w (y_weights y) -> inb (lw_name w) (map lw_name sel) = selected a y w.
Proof.
  intros Hw. destruct (selected a y w) eqn:E.
  - apply inb_In. apply in_map. unfold sel. apply filter_In. auto.
  - destruct (inb _ _) eqn:F; auto. exfalso. apply inb_In in F. apply in_map_iff in F as (w' & En & Hw').
    assert (In w' (y_weights y) /\ selected a y w' = true) as [H1 H2] by (unfold sel in Hw'; apply filter_In in Hw'; tauto).
    unfold selected in *. rewrite En in H2. congruence.
Qed.

Lemma rest_names : rest_of (map lw_name sel) y = map (fun w => (lw_name w, lw_init w)) oth.
Proof.
  unfold rest_of, oth. f_equal. apply filter_ext_in. intros w Hw. now rewrite in_names_sel.
Qed.

Lemma train_create :
  create_layer_for_training a y =
  Ok (mkTW y (map (fun w => (lw_name w, initv w)) sel) (map (fun w => (lw_name w, lw_value w)) oth)).
Proof.
  unfold create_layer_for_training. destruct Hp as (Hb & Hnd & Hall). rewrite Hb. cbn [negb].
  rewrite names_sel. cbn [bind]. unfold train_build. rewrite mapM_map.
  assert (Hz : forall l, incl l sel -> exists zs,
    mapM (fun x => match find_weight y (lw_name x) with
       | Some w => do vs <- a_init a (zeros (vshape (lw_init w)));; Ok (lw_name x, vs)
       | None => Err KeyError end) l = Ok (combine (map lw_name l) zs) /\
    Forall2 (fun z w => map vshape z = map vshape (initv w)) zs l).
  { induction l as [|w l IH]; intros Hi. { exists []. split; [reflexivity|constructor]. }
    destruct IH as (zs & E & F). { intros x Hx; apply Hi; now right. }
    assert (Hw : In w sel) by (apply Hi; now left).
    assert (Hw' : In w (y_weights y)) by (unfold sel in Hw; apply filter_In in Hw; tauto).
    destruct (Hall w Hw') as (_ & _ & Es & Wf). destruct (Hst _ _ Wf (Hinit w Hw)) as (z & Ez & Sz). rewrite Es in Ez.
    exists (z :: zs). cbn [mapM]. rewrite find_weight_In by auto. rewrite Ez. cbn [bind]. rewrite E. cbn [bind].
    split; [reflexivity|]. constructor; auto. }
  destruct (Hz sel (incl_refl _)) as (zs & E & F). rewrite E. cbn [bind].
  destruct (a_compressible a y) as [|c0 cs0] eqn:Ec; [congruence|].
  assert (Hm : map_to_training_weights a y = Ok (List.concat (map initv sel) ++ map lw_value oth)).
  { unfold map_to_training_weights. unfold dense_or_conv2d in Hk. destruct (y_kind y) eqn:Ek; [| |destruct Hk; discriminate|destruct Hk; discriminate].
    all: change (fun w => existsb _ (a_compressible a y)) with (selected a y).
    all: rewrite (mapM_total _ initv) by exact Hinit; reflexivity. }
  rewrite Hm. cbn [bind]. rewrite rest_names. apply set_fresh; auto.
  intros w Hw. unfold oth in Hw. apply filter_In in Hw as [Hw _]. destruct (Hall w Hw) as (_ & _ & Q & _). auto.
Qed.
End Train.

(** No compressible weight: the wrapper starts from fresh weights. *)
Lemma train_create_none a y : y_built y = true -> a_compressible a y = [] ->
  create_layer_for_training a y = Ok (mkTW y [] (fresh_weights y)).
Proof.
  intros Hb Hc. unfold create_layer_for_training. rewrite Hb. unfold compressible_names. rewrite Hc. cbn [negb mapM bind].
  unfold train_build. cbn [mapM bind]. unfold rest_of, fresh_weights. do 3 f_equal.
  induction (y_weights y); cbn; auto. f_equal; auto.
Qed.
