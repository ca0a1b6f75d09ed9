From Coq Require Import String Ascii DecimalString DecimalZ DecimalFacts Qround.
From Verif Require Import Base M_Num L_Num M_Tensor M_Mask M_PruneWrapper M_Tools S_Tools L_Tools M_EvalPruning S_EvalPruning.
Open Scope string_scope.
Open Scope list_scope.
Open Scope Z_scope.

Lemma app_assoc_s a b c : (a ++ (b ++ c) = (a ++ b) ++ c)%string.
Proof. induction a; cbn; [reflexivity|now rewrite IHa]. Qed.
Lemma app_nil_s a : (a ++ "" = a)%string.
Proof. induction a; cbn; [reflexivity|now rewrite IHa]. Qed.
Lemma app_inj_l a b c : (a ++ b = a ++ c)%string -> b = c.
Proof. induction a; cbn; auto. intros [= H]. auto. Qed.

(** ** Characters *)
Lemma digit_ok c d : digit c = Some d <-> digit_of c d.
Proof.
  split.
  - destruct c as [[] [] [] [] [] [] [] []]; vm_compute; try discriminate; intros [= <-]; constructor.
  - destruct 1; reflexivity.
Qed.
Lemma blank_ok c : blank c = true <-> In c blanks.
Proof.
  split.
  - destruct c as [[] [] [] [] [] [] [] []]; vm_compute; try discriminate; intros _; tauto.
  - cbn. intros H. repeat (destruct H as [<-|H]; [reflexivity|]). contradiction.
Qed.
Lemma all_blank_ok s : all_blank s = true <-> blank_string s.
Proof.
  induction s as [|c s IH]; cbn; split; intros H.
  - constructor. - reflexivity.
  - apply andb_true_iff in H as (A & B). constructor. now apply blank_ok. now apply IH.
  - inversion H; subst. apply andb_true_iff. split. now apply blank_ok. now apply IH.
Qed.
Lemma digit_not_blank c d : digit_of c d -> blank c = false.
Proof. destruct 1; reflexivity. Qed.
Lemma digit_not_under c d : digit_of c d -> c <> "_"%char.
Proof. destruct 1; discriminate. Qed.

(** ** The digit automaton *)
(** What is left to read after a digit, resp. elsewhere. *)
Inductive tail_of : bool -> Z -> string -> Z -> Prop :=
| t_end : forall n b, blank_string b -> tail_of true n b n
| t_digit : forall a n c d s z, digit_of c d -> tail_of true (10 * n + d) s z -> tail_of a n (String c s) z
| t_under : forall n s z, tail_of false n s z -> tail_of true n (String "_" s) z.
Lemma int_digits_ok s : forall a n z, int_digits a n s = Ok z <-> tail_of a n s z.
Proof.
  induction s as [|c s IH]; intros a n z.
  - cbn. destruct a; split; intros H.
    + injection H as <-. constructor. constructor.
    + inversion H; subst. reflexivity.
    + discriminate.
    + inversion H.
  - cbn [int_digits]. destruct (digit c) as [d|] eqn:D.
    + rewrite IH. apply digit_ok in D. split; intros H.
      * econstructor; eauto.
      * inversion H as [n0 b B|a0 n0 c0 d0 s0 z0 D0 T|n0 s0 z0 T]; subst.
        -- inversion B as [|c0 s0 I0 B0]; subst. apply blank_ok in I0. rewrite (digit_not_blank _ _ D) in I0. discriminate.
        -- apply digit_ok in D, D0. rewrite D in D0. injection D0 as <-. exact T.
        -- inversion D.
    + assert (ND : forall d, ~ digit_of c d) by (intros d H; apply digit_ok in H; congruence).
      destruct a; cbn [negb].
      * destruct (Ascii.eqb_spec c "_"%char) as [->|N].
        -- rewrite IH. split; intros H. now constructor. inversion H as [n0 b B|a0 n0 c0 d0 s0 z0 D0 T|n0 s0 z0 T]; subst; auto.
           ++ inversion B as [|c0 s0 I0 B0]; subst. apply blank_ok in I0. discriminate.
           ++ inversion D0.
        -- destruct (all_blank (String c s)) eqn:AB.
           ++ split; intros H. injection H as <-. constructor. now apply all_blank_ok.
              inversion H as [n0 b B|a0 n0 c0 d0 s0 z0 D0 T|n0 s0 z0 T]; subst; auto. exfalso. eapply ND; eauto. congruence.
           ++ split; intros H. discriminate.
              inversion H as [n0 b B|a0 n0 c0 d0 s0 z0 D0 T|n0 s0 z0 T]; subst; auto.
              ** apply all_blank_ok in B. congruence. ** exfalso. eapply ND; eauto. ** congruence.
      * split; intros H. discriminate. inversion H; subst. exfalso. eapply ND; eauto.
Qed.
(** From the automaton to the grammar. *)
Lemma tail_grammar a n s z : tail_of a n s z -> forall p, digits_of p n ->
  exists body right, s = (body ++ right)%string /\ blank_string right /\
    digits_of (p ++ (if a then "" else "_") ++ body) z.
Proof.
  induction 1 as [n b B|a n c d s z D T IH|n s z T IH]; intros p P.
  - exists "", b. repeat split; auto. cbn. now rewrite app_nil_s.
  - destruct a.
    + destruct (IH (p ++ String c "")%string) as (body & right & -> & R & G). { now constructor. }
      exists (String c body), right. repeat split; auto. cbn in *. rewrite <- app_assoc_s in G. exact G.
    + destruct (IH (p ++ String "_" (String c ""))%string) as (body & right & -> & R & G). { now constructor. }
      exists (String c body), right. repeat split; auto. cbn in *. rewrite <- app_assoc_s in G. exact G.
  - destruct (IH p P) as (body & right & -> & R & G). exists (String "_" body), right. repeat split; auto.
Qed.
(** From the grammar to the automaton. *)
Lemma tail_app p n : digits_of p n -> forall r z, tail_of true n r z -> tail_of false 0 (p ++ r) z.
Proof.
  induction 1 as [c d D|s n c d G IH D|s n c d G IH D]; intros r z T.
  - cbn. econstructor; eauto.
  - rewrite <- app_assoc_s. apply IH. cbn. econstructor; eauto.
  - rewrite <- app_assoc_s. apply IH. cbn. constructor. econstructor; eauto.
Qed.
Lemma tail_nodigit n s z : tail_of false n s z -> exists c d r, s = String c r /\ digit_of c d /\ tail_of true (10 * n + d) r z.
Proof. inversion 1; subst. do 3 eexists. eauto. Qed.
Lemma unsigned_ok s z : int_digits false 0 s = Ok z <-> exists body right, s = (body ++ right)%string /\ blank_string right /\ digits_of body z.
Proof.
  rewrite int_digits_ok. split.
  - intros T. apply tail_nodigit in T as (c & d & r & -> & D & T). replace (10 * 0 + d) with d in T by lia.
    destruct (tail_grammar _ _ _ _ T (String c "")) as (body & right & -> & R & G). { now constructor. }
    exists (String c body), right. repeat split; auto.
  - intros (body & right & -> & R & G). eapply tail_app; eauto. now constructor.
Qed.
Lemma digits_head p n : digits_of p n -> exists c d r, p = String c r /\ digit_of c d.
Proof.
  induction 1 as [c d D|s n c d G (c' & d' & r & -> & D') D|s n c d G (c' & d' & r & -> & D') D]; do 3 eexists; split; eauto; reflexivity.
Qed.
Lemma signed_ok s z : int_signed s = Ok z <-> exists sign digits right n, s = (sign ++ digits ++ right)%string /\ blank_string right /\
    digits_of digits n /\ ((sign = "" /\ z = n) \/ (sign = "+" /\ z = n) \/ (sign = "-" /\ z = - n)).
Proof.
  assert (M : (exists r, s = String "-" r) \/ (exists r, s = String "+" r) \/
              (int_signed s = int_digits false 0 s /\ (forall r, s <> String "-" r) /\ (forall r, s <> String "+" r))).
  { destruct s as [|c r]. { right. right. repeat split; discriminate. }
    destruct (Ascii.eqb_spec c "-"%char) as [->|N1]; [eauto|]. destruct (Ascii.eqb_spec c "+"%char) as [->|N2]; [eauto|].
    right. right. split. { destruct c as [[] [] [] [] [] [] [] []]; try reflexivity; exfalso; auto. } split; congruence. }
  destruct M as [(r & ->)|[(r & ->)|(E & N1 & N2)]].
  - cbn [int_signed]. destruct (int_digits false 0 r) as [n|] eqn:D; cbn [bind].
    + split.
      * intros [= <-]. apply unsigned_ok in D as (b & rt & -> & R & G). exists "-", b, rt, n. repeat split; auto.
      * intros (sign & ds & rt & n' & Es & R & G & C). destruct C as [(-> & ->)|[(-> & ->)|(-> & ->)]].
        -- destruct (digits_head _ _ G) as (c & d & r0 & -> & D0). cbn in Es. injection Es as <- _. inversion D0.
        -- discriminate.
        -- cbn in Es. injection Es as ->. assert (Y : int_digits false 0 (ds ++ rt) = Ok n') by (apply unsigned_ok; eauto). congruence.
    + split. discriminate. intros (sign & ds & rt & n' & Es & R & G & C). destruct C as [(-> & ->)|[(-> & ->)|(-> & ->)]].
      * destruct (digits_head _ _ G) as (c & d & r0 & -> & D0). cbn in Es. injection Es as <- _. inversion D0.
      * discriminate.
      * cbn in Es. injection Es as ->. assert (Y : int_digits false 0 (ds ++ rt) = Ok n') by (apply unsigned_ok; eauto). congruence.
  - cbn [int_signed]. rewrite unsigned_ok. split.
    + intros (b & rt & -> & R & G). exists "+", b, rt, z. repeat split; auto.
    + intros (sign & ds & rt & n' & Es & R & G & C). destruct C as [(-> & ->)|[(-> & ->)|(-> & ->)]].
      * destruct (digits_head _ _ G) as (c & d & r0 & -> & D0). cbn in Es. injection Es as <- _. inversion D0.
      * cbn in Es. injection Es as ->. eauto.
      * discriminate.
  - rewrite E, unsigned_ok. split.
    + intros (b & rt & -> & R & G). exists "", b, rt, z. repeat split; auto.
    + intros (sign & ds & rt & n' & Es & R & G & C). destruct C as [(-> & ->)|[(-> & ->)|(-> & ->)]].
      * exists ds, rt. auto. * cbn in Es. exfalso. eapply N2; eauto. * cbn in Es. exfalso. eapply N1; eauto.
Qed.
Lemma py_int_ok s z : py_int s = Ok z <-> int_literal s z.
Proof.
  unfold int_literal. induction s as [|c r IH].
  - cbn [py_int]. rewrite signed_ok. split.
    + intros (sg & ds & rt & n & Es & X). exists "", sg, ds, rt, n. split; auto. split; [constructor|tauto].
    + intros (l & sg & ds & rt & n & Es & L & X). destruct l; [|discriminate]. exists sg, ds, rt, n. auto.
  - cbn [py_int]. destruct (blank c) eqn:Bc.
    + rewrite IH. split.
      * intros (l & sg & ds & rt & n & -> & L & X). exists (String c l), sg, ds, rt, n. split; [reflexivity|]. split; auto.
        constructor; auto. now apply blank_ok.
      * intros (l & sg & ds & rt & n & Es & L & R & G & C). destruct l as [|c0 l].
        -- exfalso. destruct (digits_head _ _ G) as (c1 & d & r0 & -> & D0). cbn in Es. destruct C as [(-> & _)|[(-> & _)|(-> & _)]]; cbn in Es.
           ++ injection Es as -> _. rewrite (digit_not_blank _ _ D0) in Bc. discriminate.
           ++ injection Es as -> _. discriminate.
           ++ injection Es as -> _. discriminate.
        -- cbn in Es. injection Es as -> ->. inversion L; subst. exists l, sg, ds, rt, n. tauto.
    + rewrite signed_ok. split.
      * intros (sg & ds & rt & n & Es & X). exists "", sg, ds, rt, n. split; auto. split; [constructor|tauto].
      * intros (l & sg & ds & rt & n & Es & L & X). destruct l as [|c0 l]. exists sg, ds, rt, n. auto.
        inversion L as [|c1 s1 I1 B1]; subst. cbn in Es. injection Es as -> _. apply blank_ok in I1. congruence.
Qed.

(** ** Commas *)
Fixpoint has (c : ascii) (s : string) : bool := match s with EmptyString => false | String a r => (Ascii.eqb a c || has c r)%bool end.
Lemma has_app c a b : has c (a ++ b) = (has c a || has c b)%bool.
Proof. induction a; cbn; [reflexivity|]. now rewrite IHa, orb_assoc. Qed.
Lemma cut c a r a' r' : has c a = false -> has c a' = false -> (a ++ String c r)%string = (a' ++ String c r')%string -> a = a' /\ r = r'.
Proof.
  revert a'. induction a as [|x a IH]; intros [|y a']; cbn; intros H H' E.
  - injection E as ->. auto.
  - injection E as -> _. rewrite Ascii.eqb_refl in H'. discriminate.
  - injection E as -> _. rewrite Ascii.eqb_refl in H. discriminate.
  - injection E as -> E. apply orb_false_iff in H as (_ & H), H' as (_ & H'). destruct (IH a' H H' E) as (-> & ->). auto.
Qed.
Lemma split_comma_one a : has ","%char a = false -> split_comma a = (a, []).
Proof.
  induction a as [|c a IH]; cbn; auto. intros H. apply orb_false_iff in H as (A & B). rewrite IH by auto. now rewrite A.
Qed.
Lemma split_comma_cons a r : has ","%char a = false -> split_comma (a ++ String "," r) = (a, fst (split_comma r) :: snd (split_comma r)).
Proof.
  induction a as [|c a IH]; cbn; intros H.
  - destruct (split_comma r). reflexivity.
  - apply orb_false_iff in H as (A & B). rewrite IH by auto. now rewrite A.
Qed.
Lemma split_comma_inv s : forall a l, split_comma s = (a, l) ->
  has ","%char a = false /\ match l with [] => s = a | b :: l' => exists r, s = (a ++ String "," r)%string /\ split_comma r = (b, l') end.
Proof.
  induction s as [|c s IH]; cbn; intros a l H.
  - injection H as <- <-. auto.
  - destruct (split_comma s) as [a0 l0] eqn:E. destruct (IH _ _ eq_refl) as (A & B). destruct (Ascii.eqb_spec c ","%char) as [->|N].
    + injection H as <- <-. split; [reflexivity|]. exists s. auto.
    + injection H as <- <-. split. { cbn. rewrite A. destruct (Ascii.eqb_spec c ","%char); [contradiction|reflexivity]. }
      destruct l0. now subst. destruct B as (r & -> & B). exists r. auto.
Qed.
Lemma blank_has s : blank_string s -> has ","%char s = false.
Proof.
  induction 1 as [|c s I0 B IH]; cbn; auto. rewrite IH, orb_false_r. cbn in I0. repeat (destruct I0 as [<-|I0]; [reflexivity|]). contradiction.
Qed.
Lemma digits_has c0 p n : (forall d, ~ digit_of c0 d) -> c0 <> "_"%char -> digits_of p n -> has c0 p = false.
Proof.
  intros N U. assert (U' : Ascii.eqb "_"%char c0 = false) by (apply Ascii.eqb_neq; congruence). assert (X : forall c d, digit_of c d -> Ascii.eqb c c0 = false). { intros c d D. apply Ascii.eqb_neq. intros ->. eapply N; eauto. }
  induction 1 as [c d D|s n c d G IH D|s n c d G IH D]; rewrite ?has_app; cbn [has]; try rewrite IH; rewrite ?U', ?(X _ _ D); auto.
Qed.
Lemma literal_comma s z : int_literal s z -> has ","%char s = false.
Proof.
  intros (l & sg & ds & rt & n & -> & L & R & G & C). rewrite !has_app, (blank_has _ L), (blank_has _ R).
  rewrite (digits_has ","%char _ _) with (3 := G); [|intros d H; inversion H|discriminate].
  destruct C as [(-> & _)|[(-> & _)|(-> & _)]]; reflexivity.
Qed.
Theorem parse_ok value h w : parse_block_size_flag value = Ok (h, w) <-> block_literal value h w.
Proof.
  unfold parse_block_size_flag, block_literal. split.
  - destruct (split_comma value) as [a l] eqn:E. destruct l as [|b [|]]; try discriminate.
    apply split_comma_inv in E as (A & r & -> & E). apply split_comma_inv in E as (Bh & ->).
    destruct (py_int a) as [h0|] eqn:Ea; cbn [bind]; [|discriminate]. destruct (py_int b) as [w0|] eqn:Eb; cbn [bind]; [|discriminate].
    intros [= <- <-]. exists a, b. split; [reflexivity|]. split; now apply py_int_ok.
  - intros (a & b & -> & A & B). change ("," ++ b)%string with (String "," b). rewrite split_comma_cons by (eapply literal_comma; eauto).
    rewrite (split_comma_one b) by (eapply literal_comma; eauto). cbn [fst snd]. apply py_int_ok in A, B. rewrite A, B. reflexivity.
Qed.
