(** C148: the quantization ranges in float32. *)
From Flocq Require Import Core BinarySingleNaN.
From Verif Require Import Base M_Float32 S_Float32 M_FloatQuant S_FloatQuant M_FloatRange S_FloatRange L_FloatRange2 L_FloatRange3.
From Coq Require Import Qabs Qpower.
Open Scope Q_scope.

Section Histories.
  (** A quantizer of 2 to 16 bits and any history of calls with tensors of numbers of at most 2^126. *)
  Context (s : rsettings) (calls : list (bool * list f32)).
  Definition usable : Prop := (2 <= rs_bits s <= 16)%nat /\ Forall (fun c => is_batch (snd c)) calls.
  Notation range := (run_range_f s calls).
  Local Lemma bits_of : usable -> bits_ok s /\ batches calls. Proof. intros [A B]. split; [unfold bits_ok; lia|exact B]. Qed.
  (** The stored range is one of numbers and always contains 0. *)
  Theorem C148_zero_in_range_partial : usable -> contains_zero range.
  Proof. intros U. apply bits_of in U as [A B]. now apply zero_always. Qed.
  (** AllValues: everything seen is in the range, and without symmetry its limits are 0 or values seen. *)
  Theorem C148_all_values_partial : usable -> rs_kind s = AllValues ->
    (forall v, seen calls v -> covers range v) /\
    (rs_symmetric s = false -> (number (fst range) == 0 \/ exists v, seen calls v /\ number v == number (fst range)) /\
                               (number (snd range) == 0 \/ exists v, seen calls v /\ number v == number (snd range))).
  Proof. intros U K. apply bits_of in U as [A B]. split; [intros v V; now apply all_covers|intros S1; now apply all_exact]. Qed.
  (** LastValue: the same of the last batch, whatever came before; a symmetric range has the documented ratio up to rounding. *)
  Theorem C148_last_value_partial : usable -> rs_kind s = LastValue -> forall r x, is_batch x -> let r' := update_range_f s r x in
    (forall v, In v x -> covers r' v) /\
    (rs_symmetric s = false -> (number (fst r') == 0 \/ exists v, In v x /\ number v == number (fst r')) /\
                               (number (snd r') == 0 \/ exists v, In v x /\ number v == number (snd r'))) /\
    (rs_symmetric s = true -> Qabs (number (snd r') - documented_ratio (rs_bits s) (rs_narrow s) * number (fst r')) <= eps * number (snd r') + tiny).
  Proof.
    intros U K r x X r'. apply bits_of in U as [A B]. split; [intros v V; now apply last_covers|]. split; [intros S1; now apply last_exact|intros S1; now apply last_symmetric].
  Qed.
  (** MovingAverage: each limit moves to somewhere between where it is and that of the batch... *)
  Theorem C148_moving_average_partial : usable -> rs_kind s = MovingAverage -> forall x, is_batch x ->
    let r' := run_range_f s (calls ++ [(true, x)]) in let b := update_range_f (as_last s) range x in
    in_between (number (fst range)) (number (fst b)) (number (fst r')) /\ in_between (number (snd range)) (number (snd b)) (number (snd r')).
  Proof. intros U K x X. apply bits_of in U as [A B]. now apply moving_between. Qed.
  (** ... so it never leaves the interval of its initial value (-6, 6) and the values seen... *)
  Theorem C148_moving_average_hull_partial : usable -> rs_kind s = MovingAverage -> rs_symmetric s = false -> forall lo hi : Q,
    lo <= -6 # 1 -> 6 <= hi -> (forall v, seen calls v -> lo <= number v /\ number v <= hi) -> lo <= number (fst range) /\ number (snd range) <= hi.
  Proof. intros U K S1 lo hi. apply bits_of in U as [A B]. now apply moving_hull. Qed.
  (** ... and symmetric narrow ranges stay exactly symmetric. *)
  Theorem C148_symmetric_partial : usable -> rs_kind s <> AllValues -> rs_symmetric s = true -> rs_narrow s = true -> number (snd range) == - number (fst range).
  Proof. intros U K S1 NA. apply bits_of in U as [A B]. now apply narrow_opposite. Qed.
  (** Calls that do not train change nothing. *)
  Theorem C148_inference : forall x, run_range_f s (calls ++ [(false, x)]) = range.
  Proof. intros x. now rewrite run_app. Qed.
End Histories.

(** The float32 number m * 2^e. *)
Definition fl (m e : Z) : f32 := binary_normalize 24 128 prec24 emax128 mode_NE m e false.
(** Near the greatest float32 a symmetric range overflows: the stored limit is infinite. *)
Theorem C148_overflow_refuted : exists s x, (2 <= rs_bits s <= 16)%nat /\ x <> [] /\ Forall finite x /\ ~ finite (fst (run_range_f s [(true, x)])).
Proof.
  exists (mkRS LastValue true 8 false), [fl 16777215 104]. split; [cbn; lia|]. split; [discriminate|]. split; [repeat constructor|]. unfold finite. vm_compute. discriminate.
Qed.
(** And the moving average stops short of the range of the batches: once it is within rounding of a thousandth, it does not move,
    however often the same batch comes. *)
Theorem C148_stalls_refuted : exists v x : f32, ~ number v == number x /\ number (ema_f v x) == number v.
Proof. exists (fl 1 0), (fl 65535 (-16)). split; vm_compute; congruence. Qed.

Definition q8 (k : range_kind) (sym narrow : bool) : rsettings := mkRS k sym 8 narrow.
Definition calls1 : list (bool * list f32) := [(true, [fl 1 0; fl (-1) 1]); (false, [fl 9 0]); (true, [fl 3 0; fl 1 (-1)])].
Definition limits (r : f32 * f32) : Q * Q := (Qred (number (fst r)), Qred (number (snd r))).
Example C148_example :
  limits (run_range_f (q8 LastValue false false) calls1) = (0, 3) /\ limits (run_range_f (q8 LastValue true true) calls1) = (-3 # 1, 3) /\
  limits (run_range_f (q8 AllValues false false) calls1) = (-2 # 1, 3).
Proof. vm_compute. repeat split. Qed.
Example C148_hypotheses : usable (q8 MovingAverage false false) calls1 /\ seen calls1 (fl 3 0) /\ ~ seen calls1 (fl 9 0).
Proof.
  split; [|split].
  - split; [cbn; lia|]. repeat (apply Forall_cons; [split; [discriminate|]; repeat (apply Forall_cons; [split; vm_compute; congruence|]); apply Forall_nil|]). apply Forall_nil.
  - exists [fl 3 0; fl 1 (-1)]. split; [right; right; now left|now left].
  - intros (x & A & B). cbn [calls1 In] in A. destruct A as [A | [A | [A | []]]]; try discriminate; injection A as <-; destruct B as [B | [B | []]];
      apply (f_equal number) in B; vm_compute in B; discriminate.
Qed.

Print Assumptions C148_zero_in_range_partial.
Print Assumptions C148_all_values_partial.
Print Assumptions C148_last_value_partial.
Print Assumptions C148_moving_average_partial.
Print Assumptions C148_moving_average_hull_partial.
Print Assumptions C148_symmetric_partial.
Print Assumptions C148_inference.
Print Assumptions C148_overflow_refuted.
Print Assumptions C148_stalls_refuted.
