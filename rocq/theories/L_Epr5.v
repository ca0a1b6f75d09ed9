From Coq Require Import String Ascii.
From Verif Require Import Base M_Tensor L_Tensor M_Num L_Num M_Compress S_Compress L_Compress L_Compress2 L_Compress6 M_Epr S_Epr L_Epr L_Epr2 L_Epr3 L_Epr4.
Open Scope string_scope.
Open Scope list_scope.
Open Scope nat_scope.

(** ** The attribute map *)
Definition quiet (name : option (option string)) (attrs : list (string * option (option nat))) : Prop :=
  match attrs with (_, None) :: _ => name = Some None | _ => True end.
Lemma by_tensor ph i : NoDup (map snd ph) -> (exists n, In (n, i) ph /\ name_by_tensor ph (Some i) = Some n) \/ (~ In i (map snd ph) /\ name_by_tensor ph (Some i) = None).
Proof.
  intros _. unfold name_by_tensor. destruct (find (fun p => Nat.eqb (snd p) i) ph) as [[n j]|] eqn:F.
  - left. apply find_some in F as [I E]. cbn in E. apply Nat.eqb_eq in E. subst j. exists n. auto.
  - right. split; auto. intros I. apply in_map_iff in I as ([n j] & E & I). cbn in E. subst j. pose proof (find_none _ _ F _ I) as X. cbn in X. now rewrite Nat.eqb_refl in X.
Qed.
Lemma unique_name (ph : list (string * nat)) n n' i : NoDup (map snd ph) -> In (n, i) ph -> In (n', i) ph -> n = n'.
Proof.
  induction ph as [|[m j] ph IH]; intros D H H'; [destruct H|]. inversion D as [|? ? X Y]; subst. cbn [snd] in X. destruct H as [E | H], H' as [E' | H'].
  - congruence.
  - exfalso. apply X. injection E as _ ->. exact (in_map snd _ _ H').
  - exfalso. apply X. injection E' as _ ->. exact (in_map snd _ _ H).
  - now apply IH.
Qed.
Lemma loop_ok ph : NoDup (map snd ph) -> (forall n i, In (n, i) ph -> n <> "") -> forall attrs name, readable_after ph attrs -> quiet name attrs ->
  exists m, attr_loop ph name attrs = Ok m /\ forall a n, In (a, n) m <-> holds ph attrs a n.
Proof.
  intros D Ne. induction attrs as [|[a v] r IH]; intros name R Q.
  - exists []. split; [reflexivity|]. intros x n. split; [intros []|]. intros (i & [] & _).
  - cbn [attr_loop]. assert (Rr : readable_after ph r). { destruct v as [[i|]|]; cbn [readable_after] in R; [|exact R|exact R]. destruct r as [|[b [w|]] r]; [exact Logic.I|exact R|exact (proj2 R)]. }
    assert (Skip : v = None \/ v = Some None \/ (exists i, v = Some (Some i) /\ ~ In i (map snd ph)) ->
       exists m, (match (match v with Some v => Some (name_by_tensor ph v) | None => name end) with None => Err NameError
                  | Some n => do m <- attr_loop ph (match v with Some v => Some (name_by_tensor ph v) | None => name end) r ;;
                              Ok (match n with Some n => if String.eqb n "" then m else (a, n) :: m | None => m end) end) = Ok m /\
         forall x n, In (x, n) m <-> holds ph ((a, v) :: r) x n).
    { intros Hv. assert (E : (match v with Some v => Some (name_by_tensor ph v) | None => name end) = Some None).
      { destruct Hv as [-> | [-> | (i & -> & N)]]; [exact Q|reflexivity|]. destruct (by_tensor ph i D) as [(n & I & _) | [_ ->]]; [|reflexivity]. exfalso. apply N. apply in_map_iff. exists (n, i). auto. }
      rewrite E. destruct (IH (Some None) Rr) as (m & Em & Hm). { destruct r as [|[? [?|]] ?]; cbn; auto. }
      rewrite Em. exists m. split; [reflexivity|]. intros x n. rewrite Hm. split; intros (i & I1 & I2); exists i; (split; [|exact I2]).
      - now right.
      - destruct I1 as [[= -> ->]|I1]; [|exact I1]. exfalso. destruct Hv as [Hv | [Hv | (j & [= <-] & N)]]; try discriminate Hv. apply N. apply in_map_iff. exists (n, i). auto. }
    destruct v as [[i|]|]; [|apply Skip; auto|apply Skip; auto].
    destruct (by_tensor ph i D) as [(n & I & E) | [N _]]; [|apply Skip; right; right; eauto]. clear Skip.
    rewrite E. assert (Qr : quiet (Some (Some n)) r).
    { destruct r as [|[b [w|]] r]; cbn; auto. exfalso. cbn [readable_after] in R. apply (proj1 R). apply in_map_iff. exists (n, i). auto. }
    destruct (IH _ Rr Qr) as (m & Em & Hm). rewrite Em. cbn [bind]. destruct (String.eqb_spec n ""); [exfalso; eapply Ne; eauto|].
    exists ((a, n) :: m). split; [reflexivity|]. intros x n'. cbn [In]. rewrite Hm. split.
    + intros [[= <- <-] | (j & I1 & I2)]; [exists i; split; [now left|exact I] | exists j; split; [now right|exact I2]].
    + intros (j & [[= <- <-] | I1] & I2); [left; f_equal; eapply unique_name; eauto | right; exists j; auto].
Qed.
Lemma attr_map_ok ph a v r : NoDup (map snd ph) -> (forall n i, In (n, i) ph -> n <> "") -> readable_after ph ((a, Some v) :: r) ->
  exists m, attr_name_map ph ((a, Some v) :: r) = Ok m /\ forall a' n, In (a', n) m <-> holds ph ((a, Some v) :: r) a' n.
Proof. intros D Ne R. apply loop_ok; auto. exact Logic.I. Qed.

(** ** Whole models *)
Lemma model_fails fast o layers y k reg : In y layers -> conv1d_layer y k -> forall m, get_training_model (algorithm fast o) layers reg <> Ok m.
Proof.
  intros I H m. unfold get_training_model, compress_model_train. destruct (mapM _ layers) as [ws|] eqn:E; [|discriminate]. exfalso.
  destruct (mapM_In_inv _ _ _ _ E I) as (w & Ew & _). exact (conv1d_raises fast o y k H w Ew).
Qed.

Lemma sumN_app l l' : sumN (l ++ l') = sumN l + sumN l'. Proof. unfold sumN. induction l as [|x l IH]; cbn; [reflexivity|]. rewrite IH. lia. Qed.
Lemma count_parameters layers : count_params layers = parameters layers.
Proof.
  unfold count_params, parameters. induction layers as [|y r IH]; [reflexivity|]. cbn [map flat_map]. rewrite map_app, sumN_app, <- IH. reflexivity.
Qed.
Lemma one_charged fast o weight tw : positive o -> reparameterized fast tw -> exists b, loss_of fast o tw = Ok b /\ charged fast o weight tw (weight * b)%Q.
Proof.
  intros P (w & ls & sc & W & H).
  assert (Sf : suffix ls (shape w)) by (destruct H as [[E _] | (ks & E & _)]; [now apply scalar_suffix|now apply conv_suffix]).
  exists (o_bits o (if fast then None else Some (tmap (o_exp o) sc)) (broadcast Qdiv w (tmap (o_exp o) ls))). split.
  - destruct H as [[_ ->] | (ks & _ & ->)]; destruct fast; reflexivity.
  - exists w, ls, sc, (broadcast Qdiv w (tmap (o_exp o) ls)). split; [destruct H as [[_ E] | (ks & _ & E)]; [now left|right; now exists ks]|]. split; [reflexivity|]. split; [|reflexivity].
    intros idx V. pose proof (step_pos o ls idx P) as Sp. rewrite tget_broadcast by exact V. rewrite rank_map. rewrite (tget_suffix (o_exp o) ls (shape w)) by assumption. fold (step_at o ls idx).
    field. intro E. rewrite E in Sp. discriminate Sp.
Qed.
Lemma losses_ok fast o weight ws : positive o -> Forall (fun tw => reparameterized fast (snd tw)) (flat_map tw_training ws) ->
  exists ls, losses (loss_of fast o) weight ws = Ok ls /\ Forall2 (fun tw l => charged fast o weight (snd tw) l) (flat_map tw_training ws) ls.
Proof.
  intros P. unfold losses. assert (E : List.concat (map (fun w => map snd (tw_training w)) ws) = map snd (flat_map tw_training ws)).
  { induction ws as [|w r IH]; [reflexivity|]. cbn [map List.concat flat_map]. rewrite IH, map_app. reflexivity. }
  rewrite E. clear E. induction 1 as [|[n tw] l H F IH]; [exists []; split; [reflexivity|constructor]|]. destruct (one_charged fast o weight tw P H) as (b & Eb & C). destruct IH as (ls & El & F2).
  exists ((weight * b)%Q :: ls). cbn [map mapM snd]. rewrite Eb. cbn [bind]. rewrite El. split; [reflexivity|]. constructor; assumption.
Qed.
