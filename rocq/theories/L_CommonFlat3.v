(** Trees of library stages are well-behaved, and their declared commutation with sums is true. *)
From Coq Require Import Reals.
From Verif Require Import Base M_Tensor L_Tensor M_Bitpack L_Bitpack M_Hadamard S_Hadamard L_Hadamard L_Kashin M_Encoder S_Encoder L_Encoder M_Composer M_CommonEncoders S_CommonEncoders L_CommonEncoders L_CommonEncoders4
  M_Dicts S_Dicts M_Gather S_Gather M_CoreTree S_CoreTree L_CoreTree L_CoreTree5 M_CommonFlat S_CommonFlat L_CommonFlat L_CommonFlat2.
From Coq Require Import Lra Psatz.
Open Scope R_scope.
Open Scope list_scope.
Local Notation lib k := (as_adaptive (lib_stage k) : astage fval string (nat -> R)).
Local Notation every P e := (S_CoreTree.every_stage P e).

Fixpoint lib_tree_ind' (P : ftree -> list nat -> Prop)
  (H : forall k kids sh, accepts k sh -> NoDup (dkeys kids) -> (forall key c, In (key, c) kids -> In key (compressible k) /\ lib_tree c (passes_on k sh) /\ P c (passes_on k sh)) -> P (AEnc (lib k) kids) sh)
  e sh (T : lib_tree e sh) : P e sh :=
  match T with LT k kids sh A N K => H k kids sh A N (fun key c i => match K key c i with conj a b => conj a (conj b (lib_tree_ind' P H _ _ b)) end) end.

Lemma frame_at k sh key : In key (compressible k) -> accepts k sh -> dget key (frame_enc k sh) = Some (fz (passes_on k sh)).
Proof. intros H A. destruct k as [| | |b mm st|b st]; cbn [compressible In] in H; try (destruct H as [<-|[]]; reflexivity). destruct H. Qed.
Lemma slashes k sh key k' ch r : In key (compressible k) -> In k' (dkeys (frame_enc k sh)) -> codes k' = codes key ++ ch :: r -> (47 < ch)%nat.
Proof.
  intros I1 H E. destruct k as [| | |b [[lo hi]|] st|b st]; cbn [compressible In] in I1; cbn [frame_enc dkeys map fst In] in H; try (destruct I1 as [<-|[]]; repeat (destruct H as [<-|H]; [vm_compute in E; discriminate E|]); destruct H). destruct I1.
Qed.
Lemma lib_tree_fixed e sh : lib_tree e sh -> fixed_tree fspec_of fis_none fshape_of e (SFloat sh (prod sh)).
Proof.
  intros T. induction T as [k kids sh A N K] using lib_tree_ind'. eapply FT with (at_key := fun _ => fz (passes_on k sh)); [exact (lib_fixed k sh A)|exact N| | |].
  - intros key c i. apply frame_at; [apply (K key c i)|exact A].
  - intros key c i. rewrite fz_spec. apply (K key c i).
  - intros key k' ch r i I2. apply in_map_iff in i as ((kk & c) & <- & i). apply (slashes k sh); [apply (K kk c i)|exact I2].
Qed.
Lemma lib_tree_every (P : _ -> Prop) e sh : (forall k, P (lib k)) -> lib_tree e sh -> every P e.
Proof. intros H T. induction T as [k kids sh A N K] using lib_tree_ind'. constructor; [apply H|exact N|]. intros key c i. apply (K key c i). Qed.
Lemma f_compat x y : fcompatible (fspec_of x) y = true <-> fspec_of x = fspec_of y.
Proof. unfold fcompatible. destruct (fspec_dec (fspec_of x) (fspec_of y)); split; congruence. Qed.
Lemma f_static : static_shapes fspec_of fis_none fshape_of.
Proof.
  split; [|now destruct x]. intros x y H. destruct x as [[t|l]|s|l|u|], y as [[t'|l']|s'|l'|u'|]; try discriminate H; try reflexivity; cbn in *; congruence.
Qed.
Theorem lib_behaved e sh zeros : lib_tree e sh -> float_of sh zeros -> well_behaved fspec_of fis_none fshape_of fcompatible FNone e zeros.
Proof.
  intros T Z. split; [exact f_compat|]. split; [exact f_static|]. split; [reflexivity|]. split; [exact (lib_tree_every _ e sh lib_by_key T)|]. apply spec_float in Z. rewrite Z. now apply lib_tree_fixed.
Qed.
Theorem lib_modes e sh : lib_tree e sh -> every modes_match e.
Proof.
  apply lib_tree_every. intros k. split; [constructor|]. intros w x p enc upd H q. cbn [as_adaptive a_encode a_modes] in *. apply bind_ok in H as (z & _ & H). injection H as _ <-. reflexivity.
Qed.

(** ** Sums *)
Lemma fadd_spec a b : fspec_of a = fspec_of b -> fspec_of (fadd a b) = fspec_of a.
Proof.
  destruct a as [[t|l]|s|l|u|], b as [[t'|l']|s'|l'|u'|]; cbn; intros H; try discriminate H; try reflexivity; injection H; intros; f_equal; rewrite map_length, combine_length; lia.
Qed.
Lemma fsum_spec t r : (forall x, In x r -> fspec_of x = fspec_of t) -> fspec_of (fsum (t :: r)) = fspec_of t.
Proof.
  cbn [fsum]. revert t. induction r as [|x r IH]; intros t H; [reflexivity|]. cbn [fold_left]. assert (E : fspec_of (fadd t x) = fspec_of t) by (apply fadd_spec; symmetry; apply H; now left). rewrite IH; [exact E|]. intros y Hy. rewrite E. apply H. now right.
Qed.
Theorem f_proper : proper_sum fspec_of fsum.
Proof.
  split; [reflexivity|]. intros [|t r] s NE H; [congruence|]. rewrite fsum_spec; [apply H; now left|]. intros x Hx. rewrite (H t), (H x); [reflexivity|now right|now left].
Qed.

Lemma sum_nth j (t : tensor R) (r : list (tensor R)) : wf t -> (forall x, In x r -> shape x = shape t /\ wf x) -> (j < prod (shape t))%nat ->
  exists y, fsum (map (fun x => FV (F x)) (t :: r)) = FV (F y) /\ shape y = shape t /\ wf y /\ nth j (data y) 0 = sumR (map (fun x => nth j (data x) 0) (t :: r)).
Proof.
  cbn [map fsum]. intros W H J. revert t W H J. induction r as [|x r IH]; intros t W H J.
  - exists t. cbn. repeat split; try assumption. lra.
  - cbn [map fold_left]. destruct (H x (or_introl eq_refl)) as [E Wx]. set (t2 := mkT (shape t) (map (fun p => fst p + snd p) (combine (data t) (data x)))).
    assert (W2 : wf t2) by (unfold wf, t2 in *; cbn [shape data]; rewrite map_length, combine_length; rewrite E in Wx; lia).
    destruct (IH t2 W2) as (y & Ey & Sy & Wy & Ny); [|exact J|].
    + intros z Hz. apply H. now right.
    + exists y. change (fadd (FV (F t)) (FV (F x))) with (FV (F t2)). split; [exact Ey|]. split; [exact Sy|]. split; [exact Wy|]. rewrite Ny. cbn [map sumR]. rewrite <- Rplus_assoc. f_equal. unfold t2. cbn [data].
      set (f := fun p : R * R => fst p + snd p). change 0 with (f (0, 0)) at 1 || idtac. replace 0 with (f (0, 0)) at 1 by (unfold f; cbn; lra). rewrite map_nth, combine_nth by (unfold wf in *; rewrite E in Wx; lia). reflexivity.
Qed.
Lemma sum_float t r : wf t -> (forall x, In x r -> shape x = shape t /\ wf x) ->
  exists y, fsum (map (fun x => FV (F x)) (t :: r)) = FV (F y) /\ float_sum (map F (t :: r)) (F y).
Proof.
  intros W H. assert (E : exists y, fsum (map (fun x => FV (F x)) (t :: r)) = FV (F y) /\ shape y = shape t /\ wf y).
  { cbn [map fsum]. revert t W H. induction r as [|x r IH]; intros t W H; [exists t; auto|]. cbn [map fold_left]. destruct (H x (or_introl eq_refl)) as [E Wx]. set (t2 := mkT (shape t) (map (fun p => fst p + snd p) (combine (data t) (data x)))).
    assert (W2 : wf t2) by (unfold wf, t2 in *; cbn [shape data]; rewrite map_length, combine_length; rewrite E in Wx; lia). destruct (IH t2 W2) as (y & Ey & Sy & Wy); [intros z Hz; apply H; now right|]. exists y. split; [exact Ey|]. split; [exact Sy|exact Wy]. }
  destruct E as (y & E & Sy & Wy). exists y. split; [exact E|]. exists (t :: r), y. split; [reflexivity|]. split; [reflexivity|]. split; [exact Wy|]. split.
  - constructor; [split; [congruence|exact W]|]. apply Forall_forall. intros x Hx. destruct (H x Hx). split; [congruence|assumption].
  - intros i Hi. rewrite Sy in Hi. destruct (sum_nth i t r W H Hi) as (y' & E' & _ & _ & N). rewrite E in E'. injection E' as <-. exact N.
Qed.
Lemma float_sum_fun ts t : ts <> [] -> float_sum ts t -> FV t = fsum (map FV ts).
Proof.
  intros NE (xs & y & -> & -> & W & Fx & S). destruct xs as [|x xs]; [now elim NE|]. inversion Fx as [|? ? [Ex Wx] Fr]. rewrite Forall_forall in Fr. destruct (sum_float x xs Wx) as (y' & E' & FS).
  { intros z Hz. destruct (Fr z Hz). split; [congruence|assumption]. }
  rewrite map_map. rewrite E'. destruct FS as (xs' & y'' & Exs & [= <-] & W' & F' & S'). assert (xs' = x :: xs) as -> by (revert Exs; generalize (x :: xs); clear; intros l; revert xs'; induction l as [|a l IH]; intros [|b m]; cbn; try discriminate; [reflexivity|]; intros [= -> E]; f_equal; now apply IH).
  assert (ES : shape y = shape y') by (pose proof (Forall_inv F') as [E2 _]; congruence). do 2 f_equal. destruct y as [sy dy], y' as [sy' dy']. cbn in ES. subst sy'. f_equal. apply (nth_ext _ _ 0 0); [unfold wf in *; cbn in *; congruence|]. intros i Hi. unfold wf in *. cbn [shape data] in *. rewrite S, S' by lia. reflexivity.
Qed.

(** The library's decoding with the parameters it draws. *)
Lemma drawn_prm k p : drawn (lib k) p -> exists w, lib_prm k no_draws p = Ok (snd (s_params (to_stage k) w)).
Proof.
  intros (w & st & ep & dp & H & ->). cbn [as_adaptive a_params lib_stage p_params] in H. injection H as _ <-. exists w. destruct k as [| | |b [[lo hi]|] st'|b st']; reflexivity.
Qed.
Lemma F2_in {A B} (R : A -> B -> Prop) l m x : Forall2 R l m -> In x l -> exists y, In y m /\ R x y.
Proof. induction 1 as [|a b l m Hab _ IH]; intros []; [subst; exists b; split; [now left|exact Hab]|]. destruct IH as (y & Hy & Ry); [assumption|]. exists y. split; [now right|exact Ry]. Qed.
Lemma F2_impl {A B} (P Q : A -> B -> Prop) l m : (forall a b, P a b -> Q a b) -> Forall2 P l m -> Forall2 Q l m.
Proof. induction 2; constructor; auto. Qed.
(** One key, float tensors. *)
Lemma one_key_commutes k q : s_commutes (to_stage k) = true -> reads k = [q] ->
  (forall ts pr n sh y, s_decode (to_stage k) ts pr n sh = Ok y -> exists x, dget q ts = Some (F x)) -> commutes_with_sum fspec_of fsum (lib k).
Proof.
  intros C RK FL _ ds ys D p sh NE Dr US (NDD & NDs & K) F2. cbn [as_adaptive a_decode lib_stage p_decode] in *. destruct (drawn_prm k p Dr) as (w & PR).
  unfold lib_decode in *. rewrite PR, RK in *. cbn [bind] in *.
  assert (EACH : Forall2 (fun d y => exists x t, dget q d = Some (FV (F x)) /\ wf x /\ y = FV t /\ exists s, shape_arg sh = Ok s /\ s_decode (to_stage k) [(q, F x)] (snd (s_params (to_stage k) w)) None s = Ok t) ds ys).
  { revert F2. apply F2_impl. intros d y H. apply bind_ok in H as (ts & Hp & H). apply bind_ok in H as (s & Hs & H). apply bind_ok in H as (t & Ht & H). injection H as <-. destruct (FL _ _ _ _ _ Ht) as (x & Ex). cbn [pick bind] in Hp. destruct (dget q d) as [v|]; [|injection Hp as <-; discriminate].
    destruct (tens v) as [tv|] eqn:Ev; [|discriminate]. cbn [bind] in Hp. injection Hp as <-. cbn [dget] in Ex. rewrite String.eqb_refl in Ex. injection Ex as ->. exists x, t. destruct v as [[t'|l]|? |? |? |]; cbn in Ev; try discriminate. destruct (Nat.eqb (List.length (data t')) (prod (shape t'))) eqn:EW; [|discriminate]. apply Nat.eqb_eq in EW. injection Ev as ->.
    split; [reflexivity|]. split; [exact EW|]. split; [reflexivity|]. exists s. split; [exact Hs|exact Ht]. }
  clear F2. assert (SH : exists s, shape_arg sh = Ok s) by (inversion EACH as [|d y ds' ys' (x & t & _ & _ & _ & s & Hs & _) _]; [congruence|exists s; exact Hs]). destruct SH as (s & Hs). rewrite Hs. cbn [bind].
  assert (IS : exists is : list (tensor R * ten), map (dget q) ds = map (fun i => Some (FV (F (fst i)))) is /\ ys = map (fun i => FV (snd i)) is /\ List.length is = List.length ds /\
     forall i, In i is -> wf (fst i) /\ (exists d, In d ds /\ dget q d = Some (FV (F (fst i)))) /\ s_decode (to_stage k) [(q, F (fst i))] (snd (s_params (to_stage k) w)) None s = Ok (snd i)).
  { clear - EACH Hs. induction EACH as [|d y ds ys (x & t & E1 & E2 & E3 & s' & E4 & E5) _ (is & A1 & A2 & A3 & A4)]; [exists []; repeat split; try reflexivity; destruct H|]. rewrite Hs in E4. injection E4 as <-. exists ((x, t) :: is). cbn [map fst snd List.length]. rewrite E1, A1, A2, A3, E3. repeat split.
    - destruct H as [<-|H]; [exact E2|apply (A4 i H)].
    - destruct H as [<-|H]; [exists d; split; [now left|exact E1]|]. destruct (A4 i H) as (_ & (d' & I1 & I2) & _). exists d'. split; [now right|exact I2].
    - destruct H as [<-|H]; [exact E5|apply (A4 i H)]. }
  destruct IS as (is & A1 & A2 & A3 & A4). assert (NI : is <> []) by (intros ->; destruct ds; [congruence|discriminate]).
  assert (SAME : forall i j, In i is -> In j is -> shape (fst i) = shape (fst j)).
  { intros i j Hi Hj. destruct (A4 i Hi) as (_ & (d & I1 & I2) & _). destruct (A4 j Hj) as (_ & (d' & J1 & J2) & _). destruct (items_get _ _ _ q _ (US d d' I1 J1) I2) as (v & Ev & Sv). rewrite J2 in Ev. injection Ev as <-. unfold same_spec in Sv. cbn in Sv. congruence. }
  specialize (K q). destruct (dget q D) as [td|] eqn:ED.
  2:{ exfalso. destruct ds as [|d ds]; [congruence|]. specialize (K d (or_introl eq_refl)). cbn in A1. rewrite K in A1. destruct is; [congruence|discriminate]. }
  destruct K as (tv & K1 & ->). rewrite A1 in K1. assert (tv = map (fun i => FV (F (fst i))) is) as ->. { clear - K1. revert tv K1. induction is as [|i is IH]; intros [|v tv]; cbn; try discriminate; [reflexivity|]. intros [= E K1]. rewrite E. f_equal. now apply IH. }
  destruct is as [|i0 is]; [congruence|]. destruct (sum_float (fst i0) (map fst is)) as (y & Ey & FS); [apply (A4 i0 (or_introl eq_refl))| |].
  { intros x Hx. apply in_map_iff in Hx as (i & <- & Hi). split; [apply SAME; [now right|now left]|]. apply (A4 i (or_intror Hi)). }
  cbn [map] in Ey. rewrite map_map in Ey. cbn [pick bind]. rewrite ED. cbn [map]. rewrite Ey.
  assert (Wy : wf y) by (destruct FS as (? & ? & _ & [= ->] & Wy & _); exact Wy). rewrite tens_float by exact Wy. cbn [bind].
  destruct (kinds_commute (i0 :: is) NI k C (fun i => [(q, F (fst i))]) [(q, F y)] w s (fun i => snd i)) as (z & Hz & FZ).
  - exists (fun i => F (fst i)), (fun _ => []). split; [reflexivity|]. split; [|cbn; reflexivity]. cbn [map]. cbn [map] in FS. rewrite map_map in FS. exact FS.
  - intros i Hi. apply (A4 i Hi).
  - cbn [List.length] in *. rewrite A3 in Hz. rewrite Hz. cbn [bind]. f_equal. apply float_sum_fun in FZ; [|cbn; discriminate]. rewrite FZ, A2. f_equal. now rewrite map_map.
Qed.
Lemma identity_commutes : commutes_with_sum fspec_of fsum (lib KIdentity).
Proof.
  intros _ ds ys D p sh NE Dr US (NDD & NDs & K) F2. cbn [as_adaptive a_decode lib_stage p_decode] in *.
  assert (EACH : Forall2 (fun d y => dget "identity_values" d = Some y /\ exists t, tens y = Ok t /\ y = FV t) ds ys /\ exists s, shape_arg sh = Ok s).
  { assert (ONE : forall d y, lib_decode KIdentity d p None sh = Ok y -> (dget "identity_values" d = Some y /\ exists t, tens y = Ok t /\ y = FV t) /\ exists s, shape_arg sh = Ok s).
    { intros d y H. unfold lib_decode in H. cbn [reads pick bind] in H. apply bind_ok in H as (ts & Hp & H). cbn [lib_prm bind] in H. apply bind_ok in H as (s & Hs & H). apply bind_ok in H as (t & Ht & H). injection H as <-. split; [|eauto]. destruct (dget "identity_values" d) as [v|]; [|injection Hp as <-; discriminate].
      destruct (tens v) as [tv|] eqn:Ev; [|discriminate]. cbn [bind] in Hp. injection Hp as <-. cbn in Ht. injection Ht as <-. assert (v = FV tv) as ->. { destruct v as [[t'|l]|? |? |? |]; cbn in Ev; try discriminate; [destruct (Nat.eqb _ _); [|discriminate]|]; congruence. } split; [reflexivity|]. exists tv. auto. }
    split; [revert F2; apply F2_impl; intros d y H; apply (ONE d y H)|]. inversion F2 as [|d y ds' ys' H _]; [congruence|]. apply (ONE d y H). }
  destruct EACH as (EACH & s & Hs). specialize (K "identity_values"%string). unfold lib_decode. cbn [reads pick bind lib_prm]. rewrite Hs.
  assert (MY : map (dget "identity_values") ds = map Some ys) by (clear -EACH; induction EACH as [|d y ds ys [E _] _ IH]; [reflexivity|]; cbn; now rewrite E, IH).
  destruct (dget "identity_values" D) as [td|].
  2:{ exfalso. destruct ds as [|d ds]; [congruence|]. cbn in MY. rewrite (K d (or_introl eq_refl)) in MY. destruct ys; discriminate. }
  destruct K as (tv & K1 & ->). rewrite MY in K1. assert (tv = ys) as -> by (clear -K1; revert tv K1; induction ys as [|y ys IH]; intros [|v tv]; cbn; try discriminate; [reflexivity|]; intros [= -> E]; f_equal; now apply IH).
  assert (TS : exists t, tens (fsum ys) = Ok t /\ fsum ys = FV t).
  { destruct ys as [|y ys]; [inversion EACH; congruence|]. assert (SP : forall x, In x ys -> fspec_of x = fspec_of y).
    { intros x Hx. inversion EACH as [|d y' ds' ys' [E0 _] EA EQ1 EQ2]. subst ds y' ys'. assert (EX : exists d', In d' ds' /\ dget "identity_values" d' = Some x) by (clear -EA Hx; induction EA as [|d0 y0 dl yl [E _] _ IH]; [destruct Hx|]; destruct Hx as [<-|Hx]; [exists d0; split; [now left|exact E]|destruct (IH Hx) as (d' & I1 & I2); exists d'; split; [now right|exact I2]]).
      destruct EX as (d' & I1 & I2). destruct (items_get _ _ _ "identity_values" _ (US d d' (or_introl eq_refl) (or_intror I1)) E0) as (v & Ev & Sv). rewrite I2 in Ev. injection Ev as <-. unfold same_spec in Sv. congruence. }
    pose proof (fsum_spec y ys SP) as FS. inversion EACH as [|d y' ds' ys' [_ (t & Ht & ->)] _]. destruct (fsum (FV t :: ys)) as [[t'|l]|? |? |? |]; destruct t as [t|l0]; cbn in FS; try discriminate FS.
    - cbn in Ht. destruct (Nat.eqb (List.length (data t)) (prod (shape t))) eqn:EW; [|discriminate]. apply Nat.eqb_eq in EW. exists (F t'). split; [|reflexivity]. apply tens_float. unfold wf. congruence.
    - exists (I l). split; reflexivity. }
  destruct TS as (t & Ht & Ef). rewrite Ht. cbn. f_equal. symmetry. exact Ef.
Qed.
Theorem lib_commutes k : commutes_with_sum fspec_of fsum (lib k).
Proof.
  destruct k as [| | |b [[lo hi]|] st|b st]; [exact identity_commutes| | | |intros C; discriminate C|intros C; discriminate C].
  - apply one_key_commutes with (q := "flattened_values"%string); [reflexivity|reflexivity|]. intros ts pr n sh y H. cbn [to_stage flatten_stage s_decode] in H. unfold dindex in H. destruct (dget "flattened_values" ts) as [[t|l]|]; try discriminate. eauto.
  - apply one_key_commutes with (q := "hadamard_values"%string); [reflexivity|reflexivity|]. intros ts pr n sh y H. cbn [to_stage hadamard_stage s_decode] in H. unfold dindex in H. destruct (dget "hadamard_values" ts) as [[t|l]|]; try discriminate. eauto.
  - apply one_key_commutes with (q := "quantized_values"%string); [reflexivity|reflexivity|]. intros ts pr n sh y H. cbn [to_stage uniform_stage s_decode] in H. unfold uq_decode, dindex in H. destruct (dget "quantized_values" ts) as [[t|l]|]; try discriminate. eauto.
Qed.
