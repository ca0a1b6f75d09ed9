(** Lemmas about the commuting structure. *)
From Verif Require Import Base M_Encoder S_Encoder L_Encoder.
From Coq Require Import Lia.

Section C.
Context {T P Sh St : Type}.
Notation encoder := (@encoder T P Sh St).
Fixpoint encoder_ind3 (Q : encoder -> Prop) (H : forall s cs, (forall k c, In (k, c) cs -> Q c) -> Q (Enc s cs)) (e : encoder) : Q e.
Proof.
  destruct e as [s cs]. apply H. induction cs as [|[k c] r IH]; [intros ? ? []|].
  intros k' c' [E|G]; [|eapply IH; eauto]. injection E as _ <-. apply encoder_ind3. exact H.
Qed.
Lemma fully_iff (e : encoder) : every_stage (fun _ => True) e -> (fully_commutes e = true <-> every_stage (fun s => s_commutes s = true) e).
Proof.
  induction e as [s cs IH] using encoder_ind3. cbn. intros (_ & N & K).
  rewrite Bool.andb_true_iff.
  assert ((fix go cs := match cs with [] => true | (_, c) :: r => (fully_commutes c && go r)%bool end) cs = true <->
          (fix go cs := match cs with [] => True | (_, c) :: r => every_stage (fun s => s_commutes s = true) c /\ go r end) cs) as X.
  { clear N. induction cs as [|[k c] r IHr]; [tauto|]. destruct K as [K1 K2]. rewrite Bool.andb_true_iff, IHr; [|intros; eapply IH; [right|]; eauto|auto].
    rewrite (IH k c (or_introl eq_refl) K1). tauto. }
  tauto.
Qed.
Lemma count_false (e : encoder) : count_flags (commuting_structure_impl false e) = O.
Proof.
  induction e as [s cs IH] using encoder_ind3. cbn. induction cs as [|[k c] r IHr]; [reflexivity|]. cbn. rewrite (IH k c (or_introl eq_refl)). apply IHr.
  intros; eapply IH; right; eauto.
Qed.
Lemma count_le (e : encoder) : forall b, (count_flags (commuting_structure_impl b e) <= num_stages e)%nat.
Proof.
  induction e as [s cs IH] using encoder_ind3. intros b. cbn. set (cur := (b && s_commutes s)%bool). clearbody cur.
  assert ((fix go cs := match cs with [] => O | (_, c) :: r => count_flags c + go r end)
            ((fix go cs := match cs with [] => [] | (k, c) :: r => (k, commuting_structure_impl cur c) :: go r end) cs)
          <= (fix go cs := match cs with [] => O | (_, c) :: r => num_stages c + go r end) cs)%nat as X.
  { induction cs as [|[k c] r IHr]; [lia|]. specialize (IHr ltac:(intros; eapply IH; right; eauto)). pose proof (IH k c (or_introl eq_refl) cur). cbn. lia. }
  destruct cur; lia.
Qed.
Lemma gather_zero_iff (e : encoder) : gather_fully_commutes e <> O <-> root_commutes e = true.
Proof.
  destruct e as [s cs]. unfold gather_fully_commutes, commuting_structure. cbn [commuting_structure_impl root_commutes].
  destruct (s_commutes s) eqn:E; [cbn; split; [auto|lia]|]. split; [|discriminate]. intros H. exfalso. apply H. clear H.
  pose proof (count_false (Enc s cs)) as C. cbn [commuting_structure_impl] in C. exact C.
Qed.
Lemma gather_full_iff (e : encoder) : every_stage (fun _ => True) e -> (gather_fully_commutes e = num_stages e <-> every_stage (fun s => s_commutes s = true) e).
Proof.
  intros W. rewrite <- fully_iff by auto. clear W. unfold gather_fully_commutes, commuting_structure.
  induction e as [s cs IH] using encoder_ind3. cbn. destruct (s_commutes s) eqn:E; cbn.
  - rewrite Bool.andb_true_r.
    assert (forall cs : dict encoder, (forall k c, In (k, c) cs -> (count_flags (commuting_structure_impl true c) = num_stages c <-> fully_commutes c = true)) ->
      ((fix go cs := match cs with [] => O | (_, c) :: r => count_flags c + go r end)%nat
            ((fix go cs := match cs with [] => [] | (k, c) :: r => (k, commuting_structure_impl true c) :: go r end) cs)
          = (fix go cs := match cs with [] => O | (_, c) :: r => num_stages c + go r end)%nat cs <->
       (fix go cs := match cs with [] => true | (_, c) :: r => (fully_commutes c && go r)%bool end) cs = true)) as X.
    { clear. intros cs. induction cs as [|[k c] r IHr]; intros IH; [tauto|]. rewrite Bool.andb_true_iff, <- IHr by (intros; eapply IH; right; eauto).
      rewrite <- (IH k c) by now left. pose proof (count_le c true).
      assert ((fix go cs := match cs with [] => O | (_, c) :: r => count_flags c + go r end)%nat
            ((fix go cs := match cs with [] => [] | (k, c) :: r => (k, commuting_structure_impl true c) :: go r end) r)
          <= (fix go cs := match cs with [] => O | (_, c) :: r => num_stages c + go r end)%nat r)%nat.
      { clear. induction r as [|[k c] r IHr]; [lia|]. pose proof (count_le c true). cbn. lia. }
      cbn. lia. }
    specialize (X cs ltac:(intros; eapply IH; eauto)). rewrite <- X. lia.
  - rewrite Bool.andb_false_r. split; [|discriminate]. intros H. exfalso.
    pose proof (count_false (Enc s cs)) as C. cbn in C. rewrite C in H. lia.
Qed.
End C.
Lemma tdsum_get {T I} (is : list I) (Tsum : list T -> T -> Prop) (k : string) (d : dict T) : forall ds : I -> dict T, tdsum is Tsum ds d ->
  match dget k d with
  | Some t => exists ts : I -> T, (forall i, In i is -> dget k (ds i) = Some (ts i)) /\ Tsum (map ts is) t
  | None => forall i, In i is -> dget k (ds i) = None
  end.
Proof.
  induction d as [|[k' t] r IH]; intros ds H; cbn in *.
  - intros i Hi. now rewrite H.
  - destruct H as (ts & rs & A & B & C). specialize (IH rs C). destruct (String.eqb k k') eqn:E.
    + exists ts. split; [|exact B]. intros i Hi. rewrite A by auto. cbn. now rewrite E.
    + destruct (dget k r) as [u|].
      * destruct IH as (us & U1 & U2). exists us. split; [|exact U2]. intros i Hi. rewrite A by auto. cbn. rewrite E. auto.
      * intros i Hi. rewrite A by auto. cbn. rewrite E. auto.
Qed.
