(** Property C142: the command-line tool that prunes a model for benchmarking.  Statements only. *)
From Coq Require Import String Ascii.
From Verif Require Import Base M_Num M_Tensor M_Mask S_Mask M_PruneWrapper M_Tools S_Tools M_EvalPruning S_EvalPruning L_EvalPruning L_EvalPruning2.
Open Scope string_scope.
Open Scope list_scope.
Open Scope Z_scope.

(** ** The flags *)
(** The block size flag takes exactly two comma-separated Python integers, and they are the block size used. *)
Theorem C142_flag : forall value,
  (forall h w, parse_block_size_flag value = Ok (h, w) <-> block_literal value h w) /\
  (check_block_size value = true <-> exists h w, block_literal value h w).
Proof.
  intros value. split. { intros h w. apply parse_ok. } unfold check_block_size. split.
  - destruct (parse_block_size_flag value) as [[h w]|] eqn:E; [|discriminate]. intros _. exists h, w. now apply parse_ok.
  - intros (h & w & L). apply parse_ok in L. now rewrite L.
Qed.
Print Assumptions C142_flag.
(** Every pair of integers can be given, in decimal notation; a text denotes at most one pair. *)
Theorem C142_flag_total : forall h w,
  block_literal (show h ++ "," ++ show w)%string h w /\
  (forall h' w', block_literal (show h ++ "," ++ show w)%string h' w' -> h' = h /\ w' = w).
Proof.
  intros h w. assert (A : block_literal (show h ++ "," ++ show w)%string h w). { exists (show h), (show w). split; [reflexivity|]. split; apply show_literal. }
  split; auto. intros h' w' L. apply parse_ok in A, L. rewrite A in L. injection L. auto.
Qed.
Print Assumptions C142_flag_total.
Example C142_flag_ex :
  parse_block_size_flag "4,1" = Ok (4, 1) /\ parse_block_size_flag " 1_6 ,+2" = Ok (16, 2) /\ check_block_size "4" = false /\
  check_block_size "4,1,1" = false /\ check_block_size "4,x" = false /\ check_block_size "4,1_" = false /\ check_block_size "," = false.
Proof. repeat split. Qed.

(** ** The file names *)
(** The pruned model's name tells the block sizes apart, and sparsities that differ by their hundredths; it is never the
    name of the unpruned model. *)
Theorem C142_names : forall dir s b s' b',
  (join dir (pruned_model_filename s b) = join dir (pruned_model_filename s' b') <->
     b = b' /\ exists n, is_round_half_even (inject_Z 100 * s) n /\ is_round_half_even (inject_Z 100 * s') n) /\
  join dir (pruned_model_filename s b) <> join dir "unpruned_model.tflite".
Proof.
  intros dir s b s' b'. split; [|apply names_differ]. split.
  - intros H. apply join_inj in H. apply filename_inj in H as (H & ->). split; auto. exists (hundredths s).
    split. apply hundredths_spec. rewrite H. apply hundredths_spec.
  - intros (<- & n & A & C). f_equal. apply filename_inj. split; auto.
    rewrite (round_unique _ _ _ (hundredths_spec s) A), (round_unique _ _ _ (hundredths_spec s') C). reflexivity.
Qed.
Print Assumptions C142_names.
Example C142_names_ex : pruned_model_filename (4 # 5) (4, 1) = "pruned_model_sparsity_0.80_block_4x1.tflite" /\
  pruned_model_filename 1 (1, 1) = "pruned_model_sparsity_1.00_block_1x1.tflite" /\ pruned_model_filename (7 # 100) (1, 16) = "pruned_model_sparsity_0.07_block_1x16.tflite".
Proof. repeat split. Qed.
(** So two runs with different parameters may write the same file: the second replaces the first. *)
Theorem C142_names_refuted : exists s s', ~ (s == s')%Q /\ check_sparsity s = true /\ check_sparsity s' = true /\
  forall dir b, join dir (pruned_model_filename s b) = join dir (pruned_model_filename s' b).
Proof.
  exists (800 # 1000)%Q, (801 # 1000)%Q. split. { discriminate. } split; [reflexivity|]. split; [reflexivity|].
  intros dir b. apply (f_equal (join dir)), filename_inj. split; reflexivity.
Qed.
Print Assumptions C142_names_refuted.

(** ** What a run leaves on disk *)
Section Run.
Variable B : Type.
Variable empty : B.
Variable load_model : string -> res kmodel.
Variable convert : kmodel -> res B.
Variable gzipped_size : string -> B -> Z.
Notation tool := (tool B empty load_model convert gzipped_size).

(** Flags that are refused: nothing is read or written. *)
Theorem C142_refused : forall model dir s block fs,
  (~ (0 <= s <= 1)%Q \/ forall h w, ~ block_literal block h w) ->
  exists e, tool model dir s block fs = (fs, Err e).
Proof.
  intros model dir s block fs H. unfold M_EvalPruning.tool, check_sparsity. exists ValueError.
  destruct (check_block_size block) eqn:C.
  - destruct H as [H|H].
    + destruct (Qle_bool 0 s) eqn:Q0; [|reflexivity]. destruct (Qle_bool s 1) eqn:Q1; [|reflexivity]. apply Qle_bool_iff in Q0, Q1. exfalso. auto.
    + destruct (C142_flag block) as (_ & F). apply F in C as (h & w & L). exfalso. eapply H; eauto.
  - rewrite andb_false_r. reflexivity.
Qed.
(** A positive block size that fits and a model that converts before and after: the two files are the converted model and
    the converted one-shot pruned model (C97), the printed sizes and difference are those of the two archives, and no other
    file changes. *)
Theorem C142_success : forall model dir s block h w fs m cu, (0 <= s <= 1)%Q -> block_literal block (Z.of_nat h) (Z.of_nat w) -> (0 < h)%nat -> (0 < w)%nat ->
  load_model model = Ok m -> block_size_fits h w m ->
  convert m = Ok cu -> (forall m', one_shot s h w m m' -> exists cp, convert m' = Ok cp) ->
  exists fs' m' cp sum, tool model dir s block fs = (fs', Ok sum) /\ one_shot s h w m m' /\ convert m' = Ok cp /\
    (let u := join dir "unpruned_model.tflite" in let p := join dir (pruned_model_filename s (Z.of_nat h, Z.of_nat w)) in
     fs' u = Some cu /\ fs' p = Some cp /\ same_but [u; p] fs fs' /\
     (s_unpruned sum * 1048576 == inject_Z (gzipped_size u cu))%Q /\ (s_pruned sum * 1048576 == inject_Z (gzipped_size p cp))%Q /\
     ((0 < gzipped_size u cu) -> exists x, (x * inject_Z (gzipped_size u cu) == 100 * (inject_Z (gzipped_size p cp) - inject_Z (gzipped_size u cu)))%Q /\
        ((0 <= x)%Q -> (inject_Z (s_diff sum) <= x < inject_Z (s_diff sum) + 1)%Q) /\
        ((x <= 0)%Q -> (inject_Z (s_diff sum) - 1 < x <= inject_Z (s_diff sum))%Q))).
Proof.
  intros model dir s block h w fs m cu Hs L Ph Pw Lm Hn C Cp. destruct (prune_strip_ok m s h w) as (m' & P & O); auto. { tauto. }
  destruct (Cp m' O) as (cp & C'). pose proof (run_files B empty load_model convert gzipped_size model dir s (Z.of_nat h, Z.of_nat w) fs) as R.
  unfold M_EvalPruning.tool, check_sparsity. apply parse_ok in L. unfold check_block_size. rewrite L. cbn [is_ok].
  destruct Hs as (H0 & H1). apply Qle_bool_iff in H0, H1. rewrite H0, H1. cbn [andb negb].
  destruct (run B empty load_model convert gzipped_size model dir s (Z.of_nat h, Z.of_nat w) fs) as [fs' r]. cbn zeta in R.
  destruct R as (R0 & [(_ & e & X & _)|(m0 & X & R)]); rewrite Lm in X; [discriminate|]. injection X as <-.
  destruct R as [(e & X & _)|(cu0 & X & R1 & R)]; rewrite C in X; [discriminate|]. injection X as <-.
  destruct R as [(e & X & _)|(m0 & X & R)]; rewrite P in X; [discriminate|]. injection X as <-.
  destruct R as [(e & X & _)|(cp0 & X & R2 & su & sp & Su & Sp & R)]; rewrite C' in X; [discriminate|]. injection X as <-. subst r.
  exists fs', m', cp. eexists. split; [reflexivity|]. split; auto. split; auto. cbn zeta. split; auto. split; auto. split; auto. cbn [s_unpruned s_pruned s_diff].
  rewrite <- Su, <- Sp. change (inject_Z (2 ^ 20)) with 1048576%Q. split. { field. } split. { field. }
  intros G. exists (inject_Z (100 * (sp - su)) / inject_Z su)%Q. split.
  { rewrite inject_Z_mult. unfold Z.sub. rewrite inject_Z_plus, inject_Z_opp. change (inject_Z 100) with 100%Q. field. intros Z0. unfold Qeq in Z0. cbn in Z0. lia. }
  apply truncate_ok.
Qed.
(** Whatever happens (a model that cannot be loaded, converted or pruned), only those two paths can change, and the pruned
    model's path only once the unpruned file holds the converted model. *)
Theorem C142_failures : forall model dir s block fs fs' r h w, block_literal block h w -> tool model dir s block fs = (fs', r) ->
  let u := join dir "unpruned_model.tflite" in let p := join dir (pruned_model_filename s (h, w)) in
  same_but [u; p] fs fs' /\ (fs' p <> fs p -> exists m cu, load_model model = Ok m /\ convert m = Ok cu /\ fs' u = Some cu) /\
  (forall sum, r = Ok sum -> exists m cu m' cp, load_model model = Ok m /\ convert m = Ok cu /\ convert m' = Ok cp /\ fs' u = Some cu /\ fs' p = Some cp).
Proof.
  intros model dir s block fs fs' r h w L. unfold M_EvalPruning.tool. apply parse_ok in L. rewrite L. destruct (negb _).
  { intros [= <- <-]. cbn zeta. split. intros q _. reflexivity. split. congruence. discriminate. }
  intros E. pose proof (run_files B empty load_model convert gzipped_size model dir s (h, w) fs) as R. rewrite E in R. cbn zeta in *.
  destruct R as (R0 & R). split; auto. destruct R as [(-> & e & X & ->)|(m & X & R)]. { split; [congruence|discriminate]. }
  destruct R as [(e & Y & -> & R1 & R2)|(cu & Y & R1 & R)]. { split; [congruence|discriminate]. }
  split. { intros _. exists m, cu. auto. }
  destruct R as [(e & Z0 & -> & R2)|(m' & Z0 & R)]. { discriminate. } destruct R as [(e & Z1 & -> & R2)|(cp & Z1 & R2 & _)]. { discriminate. }
  intros sum _. exists m, cu, m', cp. auto.
Qed.
(** A file that is already there is not safe: it is emptied before the conversion that may fail. *)
Theorem C142_overwrite_refuted : forall model dir s block fs m e old, (0 <= s <= 1)%Q -> (exists h w, block_literal block h w) ->
  load_model model = Ok m -> convert m = Err e -> fs (join dir "unpruned_model.tflite") = Some old ->
  exists fs', tool model dir s block fs = (fs', Err e) /\ fs' (join dir "unpruned_model.tflite") = Some empty.
Proof.
  intros model dir s block fs m e old (H0 & H1) (h & w & L) Lm C _. unfold M_EvalPruning.tool, check_sparsity. apply parse_ok in L. unfold check_block_size. rewrite L. cbn [is_ok].
  apply Qle_bool_iff in H0, H1. rewrite H0, H1. cbn [andb negb].
  pose proof (run_files B empty load_model convert gzipped_size model dir s (h, w) fs) as R.
  destruct (run B empty load_model convert gzipped_size model dir s (h, w) fs) as [fs' r]. cbn zeta in R.
  destruct R as (R0 & [(_ & e' & X & _)|(m0 & X & R)]); rewrite Lm in X; [discriminate|]. injection X as <-.
  destruct R as [(e' & X & -> & R1 & _)|(cu0 & X & _)]; rewrite C in X; [|discriminate]. injection X as <-. eauto.
Qed.
(** Zero and negative block sizes pass the flag check; the run then fails after the unpruned model was written. *)
Theorem C142_block_refuted : forall model dir s block fs m cu h w ws t, (0 <= s <= 1)%Q -> block_literal block h w -> (h <= 0 \/ w <= 0) ->
  load_model model = Ok m -> convert m = Ok cu -> In ws m -> In t ws ->
  check_block_size block = true /\
  exists fs' e, tool model dir s block fs = (fs', Err e) /\ fs' (join dir "unpruned_model.tflite") = Some cu /\
    same_but [join dir "unpruned_model.tflite"] fs fs'.
Proof.
  intros model dir s block fs m cu h w ws t (H0 & H1) L N Lm C Iw It. split. { apply C142_flag. eauto. }
  unfold M_EvalPruning.tool, check_sparsity. apply parse_ok in L. unfold check_block_size. rewrite L. cbn [is_ok].
  apply Qle_bool_iff in H0, H1. rewrite H0, H1. cbn [andb negb].
  assert (P : prune_and_strip m s (h, w) = Err InvalidArgument).
  { unfold prune_and_strip. replace ((h <=? 0) || (w <=? 0))%bool with true by lia.
    destruct (forallb _ m) eqn:F; [|reflexivity]. rewrite forallb_forall in F. specialize (F ws Iw). destruct ws; [contradiction|discriminate]. }
  pose proof (run_files B empty load_model convert gzipped_size model dir s (h, w) fs) as R.
  destruct (run B empty load_model convert gzipped_size model dir s (h, w) fs) as [fs' r]. cbn zeta in R.
  destruct R as (R0 & [(_ & e' & X & _)|(m0 & X & R)]); rewrite Lm in X; [discriminate|]. injection X as <-.
  destruct R as [(e & X & _)|(cu0 & X & R1 & R)]; rewrite C in X; [discriminate|]. injection X as <-.
  destruct R as [(e & X & -> & R2)|(m0 & X & R)]; rewrite P in X; [|discriminate]. exists fs', e. repeat split; auto.
  intros q Q. destruct (string_dec q (join dir (pruned_model_filename s (h, w)))) as [->|D]; auto.
  apply R0. intros [<-|[<-|[]]]; [apply Q; now left|contradiction].
Qed.
End Run.
Print Assumptions C142_refused.
Print Assumptions C142_success.
Print Assumptions C142_failures.
Print Assumptions C142_overwrite_refuted.
Print Assumptions C142_block_refuted.
(** The printed difference also counts the archive's copies of the file name: equal contents do not print 0%. *)
Theorem C142_diff_refuted : forall (fs : string -> option Z),
  (* a zip archive of one file: a fixed overhead, the name twice, the compressed contents *)
  let size p (b : Z) := 98 + 2 * Z.of_nat (String.length p) + b in
  exists fs' sum b, tool Z 0 (fun _ => Ok [[mkT [1]%nat [3 # 1]]]) (fun _ => Ok 4) size "m.h5" "out" (1 # 2) "1,1" fs = (fs', Ok sum) /\
    fs' "out/unpruned_model.tflite" = Some b /\ fs' "out/pruned_model_sparsity_0.50_block_1x1.tflite" = Some b /\ s_diff sum = 28.
Proof. intros fs size. do 3 eexists. split; [vm_compute; reflexivity|]. vm_compute. auto. Qed.
Print Assumptions C142_diff_refuted.

(** One run end to end. *)
Example C142_ex : let m := [[mkT [4]%nat [1; -(2); 3; -(4)]%Q]] in
  let r := tool (list (list (list Q))) [] (fun _ => Ok m) (fun m => Ok (map (map (fun t => map Qred (data t))) m)) (fun _ b => Z.of_nat (List.length (List.concat (List.concat b))) + 96)
    "m.h5" "/tmp/out/" (1 # 2) "1,1" (fun _ => None) in
  fst r "/tmp/out/unpruned_model.tflite" = Some [[[1; -(2); 3; -(4)]%Q]] /\
  fst r "/tmp/out/pruned_model_sparsity_0.50_block_1x1.tflite" = Some [[[0; 0; 3; -(4)]%Q]] /\
  fst r "/tmp/out/other" = None /\ is_ok (snd r) = true.
Proof. vm_compute. auto. Qed.
