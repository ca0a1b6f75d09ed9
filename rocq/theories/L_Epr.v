From Coq Require Import String Ascii.
From Verif Require Import Base M_Tensor L_Tensor M_Num L_Num M_Compress S_Compress M_Epr S_Epr.
Open Scope list_scope.
Open Scope nat_scope.

(** ** Broadcasting *)
Lemma valid_len s idx : valid s idx -> List.length idx = List.length s.
Proof. unfold valid. induction 1; cbn; auto. Qed.
Lemma valid_skip pre s idx : valid (pre ++ s) idx -> valid s (skipn (List.length idx - List.length s) idx).
Proof.
  intros H. pose proof (valid_len _ _ H) as L. rewrite app_length in L. replace (List.length idx - List.length s) with (List.length pre) by lia.
  clear L. revert idx H. induction pre as [|d pre IH]; intros idx H; [exact H|]. inversion H; subst. cbn. apply IH. assumption.
Qed.
Definition suffix (s : tensor Q) (w : list nat) : Prop := wf s /\ exists pre, w = pre ++ shape s.
Lemma tget_broadcast f w s idx : valid (shape w) idx ->
  tget 0%Q (broadcast f w s) idx = f (tget 0%Q w idx) (tget 0%Q s (skipn (List.length idx - rank s) idx)).
Proof. intros H. unfold broadcast. now rewrite tget_tab. Qed.
Lemma tget_suffix f s w idx : suffix s w -> valid w idx ->
  tget 0%Q (tmap f s) (skipn (List.length idx - rank s) idx) = f (tget 0%Q s (skipn (List.length idx - rank s) idx)).
Proof. intros (W & pre & ->) V. apply tget_tmap; auto. now apply (valid_skip pre). Qed.
Lemma broadcast_wf f w s : wf (broadcast f w s). Proof. apply tab_wf. Qed.
Lemma broadcast_shape f w s : shape (broadcast f w s) = shape w. Proof. reflexivity. Qed.
Lemma tmap_wf {A B} (f : A -> B) t : wf t -> wf (tmap f t). Proof. unfold wf, tmap. cbn. now rewrite map_length. Qed.
Lemma suffix_map f s w : suffix s w -> suffix (tmap f s) w.
Proof. intros (W & p & E). split; [now apply tmap_wf|]. exists p. exact E. Qed.
Lemma rank_map (f : Q -> Q) s : rank (tmap f s) = rank s. Proof. reflexivity. Qed.

Lemma tget_symbols o w ls idx : suffix ls (shape w) -> valid (shape w) idx ->
  tget 0%Z (symbols w (tmap (o_exp o) ls)) idx = round_half_even (tget 0%Q w idx / step_at o ls idx)%Q.
Proof.
  intros S V. unfold symbols. rewrite (tget_tmap _ 0%Q) by (auto using broadcast_wf). rewrite tget_broadcast by exact V. rewrite rank_map. rewrite (tget_suffix _ _ _ _ S V). reflexivity.
Qed.
Lemma symbols_wf w s : wf (symbols w s). Proof. apply tmap_wf, broadcast_wf. Qed.
Lemma symbols_shape w s : shape (symbols w s) = shape w. Proof. reflexivity. Qed.

(** One entry. *)
Lemma quantize_ok step w : (0 < step)%Q -> quantized_to step w (inject_Z (round_half_even (w / step)) * step)%Q.
Proof.
  intros P. exists (round_half_even (w / step)). split; [reflexivity|].
  pose proof (round_error (w / step)) as E. set (z := inject_Z (round_half_even (w / step))) in *.
  assert (H : (z * step - w == (z - w / step) * step)%Q) by (field; intro X; rewrite X in P; discriminate P).
  rewrite H. rewrite Qabs_Qmult. rewrite (Qabs_pos step) by (apply Qlt_le_weak; exact P).
  apply Qmult_le_compat_r; [exact E | apply Qlt_le_weak; exact P].
Qed.
Lemma moderate_int32 step w : (0 < step)%Q -> moderate step w -> int32 (round_half_even (w / step)).
Proof.
  unfold moderate, int32. intros P H.
  assert (B : (inject_Z (- (2 ^ 31 - 2)) <= w / step <= inject_Z (2 ^ 31 - 2))%Q).
  { apply Qabs_Qle_condition in H. change (inject_Z (- (2 ^ 31 - 2))) with (- (2 ^ 31 - 2))%Q. change (inject_Z (2 ^ 31 - 2)) with (2 ^ 31 - 2)%Q.
    destruct H as [H1 H2]. split; [apply Qle_shift_div_l; auto | apply Qle_shift_div_r; auto].
    eapply Qle_trans; [|exact H1]. apply Qle_lteq. right. ring. }
  apply round_bounds in B. lia.
Qed.

(** Dense weights in the forward pass. *)
Lemma tget_dense o w ls q idx : suffix ls (shape w) -> valid (shape w) idx ->
  tget 0%Q (transform_dense o w ls q) idx =
  ((if q then tget 0%Q w idx else inject_Z (round_half_even (tget 0%Q w idx / step_at o ls idx))) * step_at o ls idx)%Q.
Proof.
  intros S V. unfold transform_dense. set (w' := if q then w else _). assert (E : shape w' = shape w) by (unfold w'; destruct q; reflexivity).
  rewrite tget_broadcast by (rewrite E; exact V). rewrite rank_map, (tget_suffix _ _ _ _ S V). fold (step_at o ls idx). f_equal.
  unfold w'. destruct q; [reflexivity|]. rewrite (tget_tmap _ 0%Z) by (auto using symbols_wf). now rewrite tget_symbols.
Qed.
Lemma dense_shape o w ls q : shape (transform_dense o w ls q) = shape w.
Proof. unfold transform_dense. destruct q; reflexivity. Qed.
Lemma dense_wf o w ls q : wf (transform_dense o w ls q). Proof. apply broadcast_wf. Qed.

(** The coefficients of a convolution kernel. *)
Definition coefs (o : epr_ops) (r : tensor Q) (ks : list nat) (ls : tensor Q) (q : bool) : tensor Q :=
  broadcast Qmult (if q then r else tmap inject_Z (symbols r (tmap (o_exp o) ls))) (tmap (fun s => (s * o_sqrt o (prod (lead ks)))%Q) (tmap (o_exp o) ls)).
Lemma transform_conv_eq o r ks ls q : transform_conv o r ks ls q = o_irfft o (lead ks) (coefs o r ks ls q).
Proof. reflexivity. Qed.
Lemma coefs_shape o r ks ls q : shape (coefs o r ks ls q) = shape r. Proof. unfold coefs. destruct q; reflexivity. Qed.
Lemma tget_coefs o r ks ls q idx : suffix ls (shape r) -> valid (shape r) idx ->
  tget 0%Q (coefs o r ks ls q) idx =
  ((if q then tget 0%Q r idx else inject_Z (round_half_even (tget 0%Q r idx / step_at o ls idx))) * (step_at o ls idx * o_sqrt o (prod (lead ks))))%Q.
Proof.
  intros S V. unfold coefs. set (r' := if q then r else _). assert (E : shape r' = shape r) by (unfold r'; destruct q; reflexivity).
  rewrite tget_broadcast by (rewrite E; exact V). rewrite !rank_map.
  pose proof (tget_suffix (fun s => (s * o_sqrt o (prod (lead ks)))%Q) _ _ idx (suffix_map (o_exp o) _ _ S) V) as T. rewrite rank_map in T. rewrite T. clear T. rewrite (tget_suffix _ _ _ _ S V). fold (step_at o ls idx). f_equal.
  unfold r'. destruct q; [reflexivity|]. rewrite (tget_tmap _ 0%Z) by (auto using symbols_wf). now rewrite tget_symbols.
Qed.

(** ** Casts *)
Lemma int16_id z : in_int16 z -> int16 z = z.
Proof. unfold in_int16, int16. intros H. rewrite Z.mod_small; lia. Qed.
Lemma tmap_id {A} (f : A -> A) t : Forall (fun x => f x = x) (data t) -> tmap f t = t.
Proof. destruct t as [s l]. unfold tmap. cbn. intros H. f_equal. induction H; cbn; congruence. Qed.
Lemma Forall_imp {A} (P Q : A -> Prop) l : (forall x, P x -> Q x) -> Forall P l -> Forall Q l.
Proof. induction 2; constructor; auto. Qed.
Lemma dims_vector s : dims (shape_vector s) = s.
Proof. unfold dims, shape_vector. cbn. rewrite map_map. rewrite <- (map_id s) at 2. apply map_ext. intros; apply Nat2Z.id. Qed.
Lemma dims_uint16 s : small s -> dims (tmap uint16 (shape_vector s)) = s.
Proof.
  unfold dims, shape_vector, tmap. cbn [data]. rewrite !map_map. intros H. rewrite <- (map_id s) at 2. apply map_ext_in. intros d I.
  unfold small in H. rewrite Forall_forall in H. specialize (H d I).
  unfold uint16. rewrite Z.mod_small; [apply Nat2Z.id|]. lia.
Qed.
Lemma dims_uint16_big s : Exists (fun d => (65536 <= Z.of_nat d)%Z) s -> dims (tmap uint16 (shape_vector s)) <> s.
Proof.
  unfold dims, shape_vector, tmap. cbn [data]. rewrite !map_map. intros H E. apply Exists_exists in H as (d & I & H).
  assert (P : forall l, map (fun x => Z.to_nat (uint16 (Z.of_nat x))) l = l -> forall x, In x l -> Z.to_nat (uint16 (Z.of_nat x)) = x).
  { induction l as [|a l IH]; intros Q x Ix; [destruct Ix|]. cbn in Q. injection Q as Q1 Q2. destruct Ix as [<- | Ix]; auto. }
  specialize (P s E d I). unfold uint16 in P. pose proof (Z.mod_pos_bound (Z.of_nat d) 65536 eq_refl) as B. lia.
Qed.
