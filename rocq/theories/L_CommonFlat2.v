(** Library stages have fixed structure on float tensors of an accepted shape. *)
From Coq Require Import Reals.
From Verif Require Import Base M_Tensor L_Tensor M_Bitpack L_Bitpack M_Hadamard S_Hadamard L_Hadamard L_Kashin M_Encoder S_Encoder L_Encoder M_Composer M_CommonEncoders S_CommonEncoders L_CommonEncoders L_CommonEncoders4
  M_Dicts S_Dicts M_Gather S_Gather M_CoreTree S_CoreTree L_CoreTree L_CoreTree5 M_CommonFlat S_CommonFlat L_CommonFlat.
From Coq Require Import Lra Psatz.
Open Scope R_scope.
Open Scope list_scope.
Local Notation lib k := (as_adaptive (lib_stage k) : astage fval string (nat -> R)).

Definition frame_enc (k : skind) (sh : list nat) : dict fval :=
  match k with
  | KIdentity => [("identity_values"%string, fz sh)] | KFlatten => [("flattened_values"%string, fz [prod sh])]
  | KHadamard => [("hadamard_values"%string, fz (passes_on KHadamard sh))]
  | KUniform _ mm _ => ("quantized_values"%string, fz sh) :: match mm with None => [("min_max"%string, fz [2%nat])] | Some _ => [] end
  | KBitpack b s => [("bitpacked_values"%string, FV (I (pack_into_int s (repeat 0%Z (prod sh)) b 28)))]
  end.
Definition lib_frame (k : skind) (sh : list nat) : @stage_frame fval := mkSF [] (lib_params k no_draws) (lib_params k no_draws) (frame_enc k sh) [].

Lemma pick1 k d t : dget k d = Some (FV (F t)) -> wf t -> pick [k] d = Ok [(k, F t)].
Proof. intros H W. cbn [pick bind]. rewrite H, tens_float by exact W. reflexivity. Qed.
Lemma same_float v sh : same_spec fspec_of (fz sh) v -> exists t, v = FV (F t) /\ shape t = sh /\ wf t.
Proof. unfold same_spec. rewrite fz_spec. intros H. symmetry in H. apply spec_float in H. exact H. Qed.
Lemma spec_of_float t : wf t -> fspec_of (FV (F t)) = SFloat (shape t) (prod (shape t)).
Proof. intros W. apply spec_float. exists t. auto. Qed.
Lemma to_same sh t : shape t = sh -> wf t -> same_spec fspec_of (fz sh) (FV (F t)).
Proof. intros <- W. unfold same_spec. now rewrite fz_spec, spec_of_float. Qed.
Lemma shape_wf sh (l : list R) : List.length l = prod sh -> wf (mkT sh l). Proof. exact (fun H => H). Qed.
Lemma usable_params k : usable fis_none (lib_params k no_draws).
Proof.
  intros q x H. destruct k as [| | |b [[lo hi]|] st|b st]; cbn in H; try discriminate.
  - destruct (String.eqb q "seed"); discriminate.
  - destruct (String.eqb q "max_value"); [injection H as <-; reflexivity|]. destruct (String.eqb q "min_max"); [injection H as <-; reflexivity|discriminate].
  - destruct (String.eqb q "max_value"); [injection H as <-; reflexivity|discriminate].
Qed.
Lemma same_params k w : items (same_leaf fspec_of) (lib_params k no_draws) (lib_params k w).
Proof.
  destruct k as [| | |b [[lo hi]|] st|b st]; cbn; try apply it0; try (apply it1; split; reflexivity). apply it2; [discriminate|split; reflexivity|split; reflexivity].
Qed.
Lemma enc_keys k sh : NoDup (dkeys (frame_enc k sh)).
Proof. destruct k as [| | |b [[lo hi]|] st|b st]; cbn; try apply nd1. now apply nd2. Qed.

(** The parameters a stage sees. *)
Lemma prm_uniform b mm st w p : items (converted fspec_of) (lib_params (KUniform b mm st) no_draws) p ->
  lib_prm (KUniform b mm st) w p = Ok (mkPrm (uq_params b mm) w).
Proof.
  intros H. cbn [lib_prm]. destruct mm as [[lo hi]|].
  - destruct (items_get _ _ _ "max_value" _ H eq_refl) as (m & E1 & C1). destruct (items_get _ _ _ "min_max" _ H eq_refl) as (n & E2 & C2). cbn [pick_params]. unfold converted in C1, C2. cbn in C1, C2. subst m n. rewrite E1, E2. reflexivity.
  - destruct (items_get _ _ _ "max_value" _ H eq_refl) as (m & E1 & C1). pose proof (items_none _ _ _ "min_max" H eq_refl) as E2. cbn [pick_params]. unfold converted in C1. cbn in C1. subst m. rewrite E1, E2. reflexivity.
Qed.
Lemma prm_hadamard w p : items (converted fspec_of) (lib_params KHadamard no_draws) p -> exists u, lib_prm KHadamard w p = Ok (mkPrm [] u).
Proof.
  intros H. destruct (items_get _ _ _ "seed" _ H eq_refl) as (s & E & C). unfold converted in C. cbn in C. destruct s as [[t|l]|s|l|u|]; try discriminate. exists u. cbn [lib_prm]. unfold dindex. rewrite E. reflexivity.
Qed.

(** ** encode *)
Lemma uq_len (st : bool) u (l : list R) (f : R -> R) : List.length (map (fun iv => quantize1 st (u (fst iv)) (snd iv)) (combine (seq 0 (List.length (map f l))) (map f l))) = List.length l.
Proof. rewrite map_length, combine_length, seq_length, map_length. lia. Qed.
Lemma mapM_F {A B} (f : A -> res B) (P : A -> Prop) (Q : B -> Prop) l : (forall a, P a -> exists b, f a = Ok b /\ Q b) -> Forall P l -> exists m, mapM f l = Ok m /\ List.length m = List.length l /\ Forall Q m.
Proof.
  intros H F. induction F as [|a r Pa _ (m & E & L & Fm)]; [exists []; repeat split; constructor|]. destruct (H a Pa) as (b & Eb & Qb). exists (b :: m). cbn [mapM]. rewrite Eb. cbn [bind]. rewrite E. cbn. repeat split; [lia|constructor; assumption].
Qed.
Lemma had_rows u t sh : accepts KHadamard sh -> shape t = sh -> wf t ->
  exists rows, hadamard_encode u (to_hinput t) = Ok rows /\ exists b d, passes_on KHadamard sh = [b; (2 ^ Nat.log2_up d)%nat] /\ (0 < b)%nat /\ is_matrix b (2 ^ Nat.log2_up d) rows.
Proof.
  intros A E W.
  assert (ROW : forall d r, (0 < d)%nat -> List.length r = d -> exists y, fwht (pad_right (2 ^ Nat.log2_up d) (vmul r (random_signs d u))) = Ok y /\ List.length y = (2 ^ Nat.log2_up d)%nat).
  { intros d r D L. assert (LV : List.length (vmul r (random_signs d u)) = d) by (unfold vmul; rewrite vmap2_len; [exact L|rewrite signs_len; exact L]).
    destruct (fwht_spec (Nat.log2_up d) (pad_right (2 ^ Nat.log2_up d) (vmul r (random_signs d u)))) as (y & Ey & Ly & _).
    - apply pad_len. rewrite LV. now apply le_log2_up. - exists y. split; [exact Ey|exact Ly]. }
  unfold wf in W. destruct A as [(d & -> & D)|(b & d & -> & Bn & D)].
  - unfold to_hinput. rewrite E in *. cbn in W. unfold hadamard_encode. cbn [expand bind]. assert (L : List.length (data t) = d) by lia. rewrite L. unfold hadamard_pad_dim. destruct (d =? 0)%nat eqn:Z; [apply Nat.eqb_eq in Z; lia|]. cbn [bind].
    destruct (ROW d (data t) ltac:(lia) L) as (y & Ey & Ly). cbn [mapM]. rewrite Ey. cbn [bind]. exists [y]. split; [reflexivity|]. exists 1%nat, d. cbn [passes_on]. split; [reflexivity|]. split; [lia|]. split; [reflexivity|]. constructor; [exact Ly|constructor].
  - unfold to_hinput. rewrite E in *. cbn in W. destruct (chunks_spec (data t) b d) as (rows & _ & Er & M); [lia|lia|]. rewrite Er. unfold hadamard_encode. cbn [expand bind]. unfold hadamard_pad_dim. destruct (d =? 0)%nat eqn:Z; [apply Nat.eqb_eq in Z; lia|]. cbn [bind].
    destruct M as [Lb FR]. destruct (mapM_F _ _ (fun y => List.length y = (2 ^ Nat.log2_up d)%nat) rows (fun r Hr => ROW d r ltac:(lia) Hr) FR) as (m & Em & Lm & Fm). rewrite Em. exists m. split; [reflexivity|]. exists b, d. cbn [passes_on]. split; [reflexivity|]. split; [lia|]. split; [congruence|exact Fm].
Qed.
Lemma lib_encodes k sh w x p : accepts k sh -> fspec_of x = SFloat sh (prod sh) -> items (converted fspec_of) (lib_params k no_draws) p ->
  exists enc, lib_encode k w x p = Ok enc /\ items (same_spec fspec_of) (frame_enc k sh) enc.
Proof.
  intros A Sx Hp. apply spec_float in Sx as (t & -> & Es & W). unfold lib_encode. rewrite tens_float by exact W. cbn [bind]. destruct k as [| | |b mm st|b st].
  - cbn. eexists. split; [reflexivity|]. cbn. apply it1. now apply to_same.
  - cbn. eexists. split; [reflexivity|]. cbn. apply it1. apply to_same; [cbn [shape]; unfold wf in W; congruence|]. unfold wf. cbn. unfold wf in W. lia.
  - destruct (prm_hadamard w p Hp) as (u & ->). cbn [bind to_stage hadamard_stage s_encode float p_draws]. destruct (had_rows u t sh A Es W) as (rows & -> & b & d & P & B & M). cbn [bind]. eexists. split; [reflexivity|]. cbn [map fst snd frame_enc]. apply it1. rewrite P.
    assert (R0 : List.length rows = b /\ match rows with r :: _ => List.length r | [] => O end = (2 ^ Nat.log2_up d)%nat).
    { destruct M as [Lr Fr]. split; [exact Lr|]. destruct rows as [|r rows]; [cbn in Lr; lia|]. now inversion Fr. }
    destruct R0 as [-> ->]. apply to_same; [reflexivity|]. apply shape_wf. rewrite (concat_len' _ _ _ M). cbn. lia.
  - rewrite (prm_uniform b mm st w p Hp). cbn [bind to_stage uniform_stage s_encode float]. unfold uq_encode. destruct mm as [[lo hi]|].
    + cbn [p_dict uq_params dindex dget String.eqb Ascii.eqb Bool.eqb bind]. change (dget "min_max" (uq_params b (Some (lo, hi)))) with (Some [lo; hi]). cbv zeta. cbn [dindex dget uq_params bind]. cbn. eexists. split; [reflexivity|]. cbn [map fst snd]. apply it1. apply to_same; [exact Es|]. apply shape_wf. rewrite uq_len, map_length. exact W.
    + cbn. eexists. split; [reflexivity|]. cbn [map fst snd]. apply it2; [discriminate| |].
      * apply to_same; [exact Es|]. apply shape_wf. rewrite uq_len. exact W.
      * apply to_same; reflexivity.
  - cbn [lib_prm bind to_stage bitpack_stage s_encode float]. unfold bitpack_encode. cbn [accepts] in A. destruct ((1 <=? b) && (b <=? 16))%nat eqn:E; [|exfalso; apply andb_false_iff in E; rewrite !Nat.leb_gt in E; lia]. cbn. eexists. split; [reflexivity|]. cbn. apply it1. unfold same_spec. cbn. f_equal. apply pack_len. rewrite repeat_length, map_length. unfold wf in W. now rewrite W, Es.
Qed.

(** ** decode *)
Lemma lib_decodes k sh d p n x : accepts k sh -> items (same_spec fspec_of) (frame_enc k sh) d -> items (converted fspec_of) (lib_params k no_draws) p -> fspec_of x = SFloat sh (prod sh) ->
  exists y, lib_decode k d p n (if s_needs_shape (to_stage k) then Some (fshape_of x) else None) = Ok y /\ fspec_of y = SFloat sh (prod sh).
Proof.
  intros A Hd Hp Sx. apply spec_float in Sx as (t & -> & Es & W). unfold lib_decode. destruct k as [| | |b mm st|b st]; cbn [reads].
  - destruct (items_get _ _ _ "identity_values" _ Hd eq_refl) as (v & Ev & Hv). apply same_float in Hv as (tv & -> & Esv & Wv). rewrite (pick1 _ _ _ Ev Wv). cbn. eexists. split; [reflexivity|]. rewrite <- Esv. now apply spec_of_float.
  - destruct (items_get _ _ _ "flattened_values" _ Hd eq_refl) as (v & Ev & Hv). apply same_float in Hv as (tv & -> & Esv & Wv). rewrite (pick1 _ _ _ Ev Wv). cbn. rewrite Es. assert (L : List.length (data tv) = prod sh) by (unfold wf in Wv; rewrite Wv, Esv; cbn; lia).
    unfold reshape. rewrite L, Nat.eqb_refl. cbn. eexists. split; [reflexivity|]. cbn. now rewrite L.
  - destruct (items_get _ _ _ "hadamard_values" _ Hd eq_refl) as (v & Ev & Hv). apply same_float in Hv as (tv & -> & Esv & Wv). rewrite (pick1 _ _ _ Ev Wv). cbn [bind]. destruct (prm_hadamard no_draws p Hp) as (u & ->). cbn [bind to_stage hadamard_stage s_needs_shape s_decode shape_arg fshape_of ten_shape]. rewrite Es.
    cbn [dindex dget String.eqb Ascii.eqb Bool.eqb bind float need p_draws]. cbn [dindex]. unfold dindex. cbn [dget]. cbn [String.eqb Ascii.eqb Bool.eqb bind float need].
    assert (B : exists b dd, sh = (if (List.length sh =? 1)%nat then [dd] else [b; dd]) /\ passes_on KHadamard sh = [b; (2 ^ Nat.log2_up dd)%nat] /\ (0 < b)%nat /\ (0 < dd)%nat /\ (List.length sh = 1%nat -> b = 1%nat)).
    { destruct A as [(dd & -> & D)|(b & dd & -> & Bn & D)]; [exists 1%nat, dd|exists b, dd]; cbn; repeat split; try lia. }
    destruct B as (b & dd & E & P & Bp & Dp & One). rewrite P in Esv. rewrite Esv.
    destruct (chunks_spec (data tv) b (2 ^ Nat.log2_up dd)) as (rows & _ & Er & M); [unfold wf in Wv; rewrite Wv, Esv; cbn; lia|apply Nat.neq_0_lt_0, Nat.pow_nonzero; lia|]. rewrite Er.
    assert (LS : List.last sh O = dd) by (rewrite E; destruct (List.length sh =? 1)%nat; reflexivity). rewrite LS. unfold hadamard_decode. cbn [fst]. destruct M as [Lb FR].
    destruct (mapM_F (decrow u dd) (fun r => List.length r = (2 ^ Nat.log2_up dd)%nat) (fun y => List.length y = dd) rows) as (m & Em & Lm & Fm); [|exact FR|].
    { intros r Hr. destruct (decrow_spec u dd (Nat.log2_up dd) r Hr) as (y & Ey & Ly & _); [now apply le_log2_up|]. exists y. split; [exact Ey|exact Ly]. }
    change (fun r => do y <- fwht r ;; do z <- slice dd y ;; Ok (vmul z (random_signs dd u))) with (decrow u dd). rewrite Em. cbn [bind]. unfold collapse. cbn [snd fst]. destruct (List.length sh =? 1)%nat eqn:E1.
    + apply Nat.eqb_eq in E1. rewrite (One E1) in *. destruct m as [|y [|]]; cbn in Lm; try lia. cbn. eexists. split; [reflexivity|]. inversion Fm as [|? ? Hy _]. cbn. rewrite E. cbn. rewrite Hy, Nat.mul_1_r. reflexivity.
    + cbn. eexists. split; [reflexivity|]. assert (MM : is_matrix b dd m) by (split; [lia|exact Fm]). destruct MM as [L1 L2]. cbn [fspec_of shape data]. rewrite (concat_len' m b dd (conj L1 L2)). rewrite L1, E. cbn. f_equal. lia.
  - rewrite (prm_uniform b mm st no_draws p Hp). destruct (items_get _ _ _ "quantized_values" (fz sh) Hd) as (v & Ev & Hv); [destruct mm; reflexivity|]. apply same_float in Hv as (tv & -> & Esv & Wv). destruct mm as [[lo hi]|].
    + cbn [frame_enc] in Hd. cbn [pick bind]. rewrite Ev. rewrite tens_float by exact Wv. cbn. eexists. split; [reflexivity|]. cbn [fspec_of shape data tmap]. rewrite map_length. unfold wf in Wv. now rewrite Wv, Esv.
    + cbn [frame_enc] in Hd. destruct (items_get _ _ _ "min_max" (fz [2%nat]) Hd eq_refl) as (m & Em & Hm). apply same_float in Hm as (tm & -> & Esm & Wm). cbn [pick bind]. rewrite Em, Ev. rewrite !tens_float by assumption. cbn. eexists. split; [reflexivity|]. cbn [fspec_of shape data tmap]. rewrite map_length. unfold wf in Wv. now rewrite Wv, Esv.
  - destruct (items_get _ _ _ "bitpacked_values" _ Hd eq_refl) as (v & Ev & Hv). unfold same_spec in Hv. cbn [fspec_of] in Hv. destruct v as [[tv|l]|s|l|u|]; try discriminate Hv. cbn in Hv. injection Hv as HL. cbn [pick bind]. rewrite Ev. cbn [tens bind lib_prm to_stage bitpack_stage s_needs_shape s_decode shape_arg fshape_of ten_shape]. rewrite Es. cbn [accepts] in A.
    assert (RT : unpack_from_int (pack_into_int st (repeat 0%Z (prod sh)) b 28) b 28 sh = Ok (mkT sh (repeat 0%Z (prod sh)))).
    { apply pack_roundtrip; [lia|lia| |now rewrite repeat_length]. apply Forall_forall. intros z Hz. apply repeat_spec in Hz. subst z. split; [lia|]. apply Z.pow_pos_nonneg; lia. }
    destruct (unpack_ok _ l b sh _ ltac:(lia) HL RT) as (t' & E' & Es' & W'). unfold dindex. cbn [dget String.eqb Ascii.eqb Bool.eqb bind ints need]. unfold bitpack_decode. rewrite E'. cbn. eexists. split; [reflexivity|]. cbn [fspec_of shape data tmap]. rewrite map_length. unfold wf in W'. now rewrite W', Es'.
Qed.

Theorem lib_fixed k sh : accepts k sh -> stage_fixed fspec_of fis_none fshape_of (lib k) (SFloat sh (prod sh)) (lib_frame k sh).
Proof.
  intros A. constructor; cbn [lib_frame sf_st sf_ep sf_dp sf_enc sf_upd as_adaptive a_initial a_update a_params a_encode a_decode a_needs_shape lib_stage p_params p_encode p_decode p_needs_shape].
  - repeat split; try apply params_nodup; try apply enc_keys; constructor.
  - apply it0.
  - intros w st _. do 2 eexists. split; [reflexivity|]. split; apply same_params.
  - split; apply usable_params.
  - intros w x p Sx Hp. destruct (lib_encodes k sh w x p A Sx Hp) as (enc & -> & H). exists enc, []. split; [reflexivity|]. split; [exact H|apply it0].
  - intros d p n x Hd Hp Sx. exact (lib_decodes k sh d p n x A Hd Hp Sx).
  - intros. eexists. split; [reflexivity|apply it0].
Qed.
