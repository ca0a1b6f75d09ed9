From Coq Require Import String Ascii DecimalString DecimalZ DecimalFacts DecimalPos Qround.
From Verif Require Import Base M_Num L_Num M_Tensor M_Mask S_Mask L_Mask M_PruneWrapper M_Tools S_Tools L_Tools L_Tools2 M_EvalPruning S_EvalPruning L_EvalPruning.
Open Scope string_scope.
Open Scope list_scope.
Open Scope Z_scope.

(** ** Decimal notation *)
Lemma show_inj a b : show a = show b -> a = b.
Proof.
  unfold show. intros H. apply (f_equal NilEmpty.int_of_string) in H. rewrite !NilEmpty.isi in H. injection H as H.
  apply (f_equal Z.of_int) in H. now rewrite !DecimalZ.of_to in H.
Qed.
Lemma uint_has c d : (forall v, ~ digit_of c v) -> has c (NilEmpty.string_of_uint d) = false.
Proof.
  intros N. assert (X : forall a v, digit_of a v -> Ascii.eqb a c = false). { intros a v D. apply Ascii.eqb_neq. intros ->. eapply N; eauto. }
  induction d; cbn [NilEmpty.string_of_uint has]; [reflexivity|..]; rewrite IHd, orb_false_r; eapply X; constructor.
Qed.
Lemma show_has c z : (forall v, ~ digit_of c v) -> c <> "-"%char -> has c (show z) = false.
Proof.
  intros N M. unfold show. destruct (Z.to_int z) as [d|d]; cbn [NilEmpty.string_of_int].
  - now apply uint_has.
  - cbn [has]. rewrite uint_has by auto. destruct (Ascii.eqb_spec "-" c); [congruence|reflexivity].
Qed.
Lemma read_acc d : forall acc, int_digits true (Zpos acc) (NilEmpty.string_of_uint d) = Ok (Zpos (Pos.of_uint_acc d acc)).
Proof.
  induction d; intros acc; cbn [NilEmpty.string_of_uint Pos.of_uint_acc]; [reflexivity|..];
    cbn [int_digits]; match goal with |- context [digit ?c] => let v := eval vm_compute in (digit c) in change (digit c) with v end;
    cbv iota; rewrite <- IHd; f_equal; lia.
Qed.
Lemma read_uint a d : (a = true \/ d <> Decimal.Nil) -> int_digits a 0 (NilEmpty.string_of_uint d) = Ok (Z.of_N (Pos.of_uint d)).
Proof.
  revert a. induction d; intros a H; cbn [NilEmpty.string_of_uint Pos.of_uint].
  { destruct H as [->|H]; [reflexivity|contradiction]. }
  { cbn [int_digits]. change (digit "0") with (Some 0). cbv iota. change (10 * 0 + 0) with 0. apply IHd. now left. }
  all: cbn [int_digits]; match goal with |- context [digit ?c] => let v := eval vm_compute in (digit c) in change (digit c) with v end;
    cbv iota; cbn [Z.of_N]; rewrite <- read_acc; f_equal.
Qed.
Lemma to_int_nonnil z : Z.to_int z <> Decimal.Pos Decimal.Nil /\ Z.to_int z <> Decimal.Neg Decimal.Nil.
Proof.
  destruct z; cbn; split; try discriminate; intros [= H]; now apply (DecimalPos.Unsigned.to_uint_nonnil p).
Qed.
Lemma show_read z : py_int (show z) = Ok z.
Proof.
  pose proof (DecimalZ.of_to z) as E. pose proof (to_int_nonnil z) as (N1 & N2). unfold show.
  destruct (Z.to_int z) as [d|d]; cbn [NilEmpty.string_of_int Z.of_int] in *.
  - assert (D : d <> Decimal.Nil) by congruence. transitivity (int_digits false 0 (NilEmpty.string_of_uint d)).
    { destruct d; reflexivity. }
    rewrite read_uint by auto. now rewrite <- E.
  - assert (D : d <> Decimal.Nil) by congruence. 
    cbn [py_int]. change (blank "-") with false. cbv iota. cbn [int_signed]. rewrite read_uint by auto. cbn [bind]. now rewrite <- E.
Qed.
Lemma show_literal z : int_literal (show z) z.
Proof. apply py_int_ok, show_read. Qed.

(** ** File names *)
Lemma fixed2_inj s s' : show_fixed2 s = show_fixed2 s' -> hundredths s = hundredths s'.
Proof.
  unfold show_fixed2. set (n := hundredths s). set (n' := hundredths s'). cbn zeta. intros H.
  apply (cut "."%char) in H as (A & B); [|apply show_has; [intros v X; inversion X|discriminate]..].
  apply show_inj in A.
  assert (S1 : forall k, 0 <= k < 10 -> exists c, show k = String c "").
  { intros k K. assert (In k [0;1;2;3;4;5;6;7;8;9]) as I0 by (cbn; lia). cbn in I0.
    repeat (destruct I0 as [<-|I0]; [eexists; reflexivity|]). contradiction. }
  destruct (S1 (n mod 100 / 10)) as (c1 & E1). { pose proof (Z.mod_pos_bound n 100). split. apply Z.div_pos; lia. apply Z.div_lt_upper_bound; lia. }
  destruct (S1 (n' mod 100 / 10)) as (c1' & E1'). { pose proof (Z.mod_pos_bound n' 100). split. apply Z.div_pos; lia. apply Z.div_lt_upper_bound; lia. }
  destruct (S1 (n mod 10)) as (c2 & E2). { apply Z.mod_pos_bound. lia. }
  destruct (S1 (n' mod 10)) as (c2' & E2'). { apply Z.mod_pos_bound. lia. }
  rewrite E1, E1', E2, E2' in B. cbn in B. injection B as -> ->. rewrite <- E1' in E1. rewrite <- E2' in E2.
  apply show_inj in E1, E2. Z.div_mod_to_equations. lia.
Qed.
Lemma fixed2_has s : has "_"%char (show_fixed2 s) = false.
Proof.
  unfold show_fixed2. cbn zeta. rewrite !has_app. cbn [has].
  rewrite !show_has by (first [intros v X; inversion X|discriminate]). reflexivity.
Qed.
Theorem filename_inj s b s' b' : pruned_model_filename s b = pruned_model_filename s' b' <-> hundredths s = hundredths s' /\ b = b'.
Proof.
  split.
  - unfold pruned_model_filename. intros H. apply app_inj_l in H.
    change ("_block_" ++ ?x)%string with (String "_" ("block_" ++ x))%string in H.
    apply (cut "_"%char) in H as (A & B); [|apply fixed2_has..]. apply fixed2_inj in A. split; auto.
    apply app_inj_l in B. destruct b as [h w], b' as [h' w']. cbn [fst snd] in B.
    change ("x" ++ ?x)%string with (String "x" x) in B. apply (cut "x"%char) in B as (B & C); [|apply show_has; [intros v X; inversion X|discriminate]..].
    change ".tflite" with (String "." "tflite") in C. apply (cut "."%char) in C as (C & _); [|apply show_has; [intros v X; inversion X|discriminate]..].
    apply show_inj in B, C. congruence.
  - intros (H & <-). unfold pruned_model_filename, show_fixed2. now rewrite H.
Qed.
Lemma join_inj d a b : join d a = join d b -> a = b.
Proof.
  unfold join. destruct d; auto. destruct (String.eqb _ _); intros H; apply app_inj_l in H; auto. now injection H.
Qed.
Lemma hundredths_spec s : is_round_half_even (inject_Z 100 * s) (hundredths s).
Proof. apply round_is. Qed.

(** ** The tool *)
Section Tool.
Variable B : Type.
Variable empty : B.
Variable load_model : string -> res kmodel.
Variable convert : kmodel -> res B.
Variable gzipped_size : string -> B -> Z.
Notation run := (run B empty load_model convert gzipped_size).
Notation conv := (convert_to_tflite B empty convert).

Lemma write_same fs p b : write B fs p b p = Some b.
Proof. unfold write. now rewrite String.eqb_refl. Qed.
Lemma write_other fs p b q : q <> p -> write B fs p b q = fs q.
Proof. unfold write. intros N. destruct (String.eqb_spec q p); [contradiction|reflexivity]. Qed.
Lemma conv_other m p fs q : q <> p -> fst (conv m p fs) q = fs q.
Proof. unfold convert_to_tflite. intros N. destruct (convert m); cbn; rewrite ?write_other; auto. Qed.
Lemma names_differ dir s b : join dir (pruned_model_filename s b) <> join dir "unpruned_model.tflite".
Proof. intros H. apply join_inj in H. discriminate. Qed.

(** Every outcome: only the two files are touched, in order. *)
Theorem run_files model dir s b fs : let '(fs', r) := run model dir s b fs in
  let u := join dir "unpruned_model.tflite" in let p := join dir (pruned_model_filename s b) in
  same_but [u; p] fs fs' /\
  ((fs' = fs /\ exists e, load_model model = Err e /\ r = Err e) \/
   (exists m, load_model model = Ok m /\
     ((exists e, convert m = Err e /\ r = Err e /\ fs' u = Some empty /\ fs' p = fs p) \/
      (exists cu, convert m = Ok cu /\ fs' u = Some cu /\
        ((exists e, prune_and_strip m s b = Err e /\ r = Err e /\ fs' p = fs p) \/
         (exists m', prune_and_strip m s b = Ok m' /\
           ((exists e, convert m' = Err e /\ r = Err e /\ fs' p = Some empty) \/
            (exists cp, convert m' = Ok cp /\ fs' p = Some cp /\ exists su sp, su = gzipped_size u cu /\ sp = gzipped_size p cp /\
               r = Ok (mkSummary (inject_Z su / inject_Z (2 ^ 20)) (inject_Z sp / inject_Z (2 ^ 20)) (truncate (inject_Z (100 * (sp - su)) / inject_Z su))))))))))).
Proof.
  unfold M_EvalPruning.run. pose proof (names_differ dir s b) as N. set (u := join dir "unpruned_model.tflite") in *. set (p := join dir (pruned_model_filename s b)) in *. cbn zeta.
  destruct (load_model model) as [m|e] eqn:L.
  2:{ split. intros q _. reflexivity. left. eauto. }
  pose proof (fun q => conv_other m u fs q) as F1. unfold convert_to_tflite at 1. unfold convert_to_tflite in F1. cbn zeta in *.
  destruct (convert m) as [cu|e] eqn:C; cbn [fst] in F1.
  2:{ split. { intros q Q. apply F1. intros ->. apply Q. now left. } right. exists m. split; auto. left. exists e. repeat split; auto. apply write_same. }
  assert (F0 : write B (write B fs u empty) u cu u = Some cu) by apply write_same.
  set (fs1 := write B (write B fs u empty) u cu) in *. clearbody fs1.
  destruct (prune_and_strip m s b) as [m'|e] eqn:P.
  2:{ split. { intros q Q. apply F1. intros ->. apply Q. now left. } right. exists m. split; auto. right. exists cu. repeat split; auto. left. exists e. repeat split; auto. }
  pose proof (fun q => conv_other m' p fs1 q) as F2. unfold convert_to_tflite at 1. unfold convert_to_tflite in F2. cbn zeta in *.
  destruct (convert m') as [cp|e] eqn:C'; cbn [fst] in F2.
  2:{ split. { intros q Q. rewrite F2, F1; auto; intros ->; apply Q; cbn; auto. } right. exists m. split; auto. right. exists cu. split; auto.
      split. { rewrite F2; auto. } right. exists m'. split; auto. left. exists e. repeat split; auto. apply write_same. }
  assert (F3 : write B (write B fs1 p empty) p cp p = Some cp) by apply write_same.
  set (fs2 := write B (write B fs1 p empty) p cp) in *. clearbody fs2. rewrite F3, (F2 u), F0 by auto.
  split. { intros q Q. rewrite F2, F1; auto; intros ->; apply Q; cbn; auto. } right. exists m. split; auto. right. exists cu. split; auto.
  split. { rewrite F2; auto. } right. exists m'. split; auto. right. exists cp. repeat split; auto. do 2 eexists. repeat split; reflexivity.
Qed.
End Tool.

(** One-shot pruning succeeds when the block size fits (C97). *)
Lemma strip_all s h w m ls : Forall2 (fun ws l => Forall2 (fun t v => ((h = 1 /\ w = 1)%nat -> pruned_to s t v) /\ (~ (h = 1 /\ w = 1)%nat -> pruned_in_blocks s h w t v)) ws (pl_vars l)) m ls ->
  one_shot s h w m (map (fun l => map pv_w (pl_vars l)) ls).
Proof.
  unfold one_shot. induction 1 as [|ws l la lb A R IH]; cbn [map]; constructor; auto.
  clear - A. induction A as [|t v ws vs V A IH]; cbn [map]; constructor; auto. exists v. tauto.
Qed.
Lemma prune_strip_ok m s h w : (0 <= s)%Q -> (0 < h)%nat -> (0 < w)%nat -> block_size_fits h w m ->
  exists m', prune_and_strip m s (Z.of_nat h, Z.of_nat w) = Ok m' /\ one_shot s h w m m'.
Proof.
  intros H P1 P2 Fit. unfold prune_and_strip. replace ((Z.of_nat h <=? 0) || (Z.of_nat w <=? 0))%bool with false by lia. rewrite !Nat2Z.id.
  destruct (Nat.eq_dec h 1) as [E1|N1], (Nat.eq_dec w 1) as [E2|N2].
  { subst h w. destruct (bench_total s m H) as (ls & E). { intros ws t I0 I1. now apply (Fit ws t I0 I1). }
    rewrite E. cbn [bind]. eexists. split; [reflexivity|]. apply strip_all. apply bench_all in E. clear Fit. induction E as [|ws l la lb (A & _) R IH]; constructor; auto.
    clear - A. induction A as [|t v ws vs V A IH]; constructor; auto. split; [|tauto]. intros _. now apply bench_pruned. }
  all: assert (N : (h, w) <> (1, 1)%nat) by congruence; assert (N' : ~ (h = 1 /\ w = 1)%nat) by tauto.
  all: pose proof (bench_blocks_total s h w m N P1 P2 H) as X; destruct (prune_for_benchmark m s [h; w]) as [ls|e] eqn:E.
  all: try (exfalso; destruct X as (_ & ws & t & r & c & I0 & I1 & Es & D);
      [intros ws t I0 I1; destruct (Fit ws t I0 I1) as (_ & F); destruct (F N') as (W & r & c & Es & L1 & L2); split; auto; exists r, c; repeat split; auto; lia
      |destruct (Fit ws t I0 I1) as (_ & F); destruct (F N') as (W & r' & c' & Es' & L1 & L2); rewrite Es in Es'; injection Es' as <- <-; lia]).
  all: cbn [bind]; eexists; (split; [reflexivity|]); apply strip_all; apply bench_all in E; clear X.
  all: induction E as [|ws l la lb (A & _) R IH]; constructor; [|apply IH; intros ts t I0; apply Fit; now right].
  all: assert (Y := fun t I0 => Fit ws t (or_introl eq_refl) I0); clear - A Y N N' P1 P2.
  all: induction A as [|t v ws vs V A IH]; constructor; [|apply IH; intros t' I0; apply Y; now right].
  all: (split; [tauto|]); intros _; destruct (Y t (or_introl eq_refl)) as (_ & F); destruct (F N') as (W & r & c & Es & L1 & L2); eapply bench_blocks; eauto.
Qed.
Lemma round_unique x r r' : is_round_half_even x r -> is_round_half_even x r' -> r = r'.
Proof.
  assert (W : forall r r', is_round_half_even x r -> is_round_half_even x r' -> r < r' -> False).
  { clear. intros r r' (A1 & A2) (B1 & B2) L. pose proof A1 as A1'. pose proof B1 as B1'. apply Qabs_Qle_condition in A1', B1'.
    assert (inject_Z (r + 1) <= inject_Z r')%Q by (rewrite inj_le; lia). rewrite inject_Z_plus, inj_1 in H.
    assert (inject_Z r - x == -(1#2))%Q by lra. assert (inject_Z r' - x == 1#2)%Q by lra.
    rewrite H1 in B2. rewrite H0 in A2. specialize (A2 ltac:(reflexivity)). specialize (B2 ltac:(reflexivity)).
    assert (inject_Z r' == inject_Z (r + 1))%Q by (rewrite inject_Z_plus, inj_1; lra).
    rewrite inject_Z_injective in H2. subst r'. rewrite Z.add_1_r, Z.even_succ, <- Z.negb_even, A2 in B2. discriminate. }
  intros A B. destruct (Z_lt_le_dec r r') as [L|G]. { exfalso. eauto. } destruct (Z_lt_le_dec r' r) as [L|G']. { exfalso. eauto. } lia.
Qed.
Lemma truncate_ok x : ((0 <= x)%Q -> (inject_Z (truncate x) <= x < inject_Z (truncate x) + 1)%Q) /\
  ((x <= 0)%Q -> (inject_Z (truncate x) - 1 < x <= inject_Z (truncate x))%Q).
Proof.
  destruct x as [n d]. unfold truncate, Qle, Qlt, inject_Z, Qplus, Qminus, Qopp. cbn [Qnum Qden].
  rewrite ?Z.mul_1_r, ?Z.mul_0_l, ?Pos.mul_1_l. pose proof (Z.quot_rem' n (Zpos d)) as E. split; intros H.
  - pose proof (Z.rem_bound_pos n (Zpos d) ltac:(lia) ltac:(lia)) as R. set (q := Z.quot n (Zpos d)) in *. nia.
  - pose proof (Z.rem_bound_pos (- n) (Zpos d) ltac:(lia) ltac:(lia)) as R. rewrite Z.rem_opp_l in R by lia.
    set (q := Z.quot n (Zpos d)) in *. change (Qnum ((q # 1) + (- (1) # 1))) with (q * 1 + (-1) * 1). nia.
Qed.
