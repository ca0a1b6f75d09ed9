(** Properties C114-C118: the ready-made encoders end to end, sums of what they encode, per-channel and clipping stages.
    Statements only. *)
From Coq Require Import Reals Lra Psatz.
From Verif Require Import Base M_Tensor L_Tensor M_Bitpack M_Hadamard M_Encoder S_Encoder L_Encoder M_Composer S_Composer M_CommonEncoders S_CommonEncoders L_CommonEncoders L_CommonEncoders2
  L_CommonEncoders3 L_CommonEncoders4 L_CommonEncoders5 M_Research S_Research L_Research.
From Coq Require Import Lra Psatz.
Open Scope R_scope.
Open Scope list_scope.

(** * C114: encoders.uniform_quantization *)
Theorem C114_accepted : forall bits min_max stochastic static,
  (exists e, uniform_quantization bits min_max stochastic static = Ok e) <->
  (1 <= bits <= 16)%nat /\ (min_max = None \/ exists a b, min_max = Some [a; b] /\ a < b).
Proof. exact accepted_uniform. Qed.
Print Assumptions C114_accepted.
(** Whatever non-empty tensor is encoded, it decodes to a tensor of the same shape in which every entry is within one step
    of the entry moved into the working range, within half a step without randomness, and exact at the ends. *)
Theorem C114_round_trip : forall bits min_max stochastic static e st x,
  uniform_quantization bits min_max stochastic static = Ok e -> fits st e -> draws_ok st -> wf x -> data x <> [] ->
  exists sent y lo hi, round_trip e st x sent y /\ shape y = shape x /\ wf y /\ working_rangeR min_max (data x) lo hi /\
  let step := (hi - lo) / IZR (2 ^ Z.of_nat bits - 1) in
  forall i, (i < prod (shape x))%nat -> exists c, clipped_toR lo hi (nth i (data x) 0) c /\
    (lo < hi -> Rabs (nth i (data y) 0 - c) < step) /\
    (stochastic = false -> Rabs (nth i (data y) 0 - c) <= 1/2 * step) /\
    (c = lo \/ c = hi -> nth i (data y) 0 = c).
Proof. exact uniform_main. Qed.
Print Assumptions C114_round_trip.
(** What is transmitted: ceil(bits * n / 28) integers of 28 bits and, unless the range was given, two floats. *)
Theorem C114_payload : forall bits min_max stochastic e st x sent y,
  uniform_quantization bits min_max stochastic true = Ok e -> fits st e -> draws_ok st -> wf x -> data x <> [] -> round_trip e st x sent y ->
  exists v, sent = [("flattened_values"%string, ED (("quantized_values"%string, ED [("bitpacked_values"%string, ET (I v))]) ::
      match min_max with None => [("min_max"%string, ET (F (mkT [2%nat] [minR (data x); maxR (data x)])))] | Some _ => [] end))] /\
    List.length v = ((bits * prod (shape x) + 27) / 28)%nat /\ Forall (fun z => 0 <= z < 2 ^ 28)%Z v.
Proof. exact uniform_payload. Qed.
Print Assumptions C114_payload.

Definition half : nat -> R := fun _ => 1 / 4.
Definition chain_state (ks : list string) : tree (nat -> R) := fold_right (fun k t => Node half [(k, t)]) (Node half []) ks.
Lemma chain_draws ks : draws_ok (chain_state ks).
Proof.
  induction ks as [|k ks IH]; cbn; constructor; try (intros; unfold half; lra); [constructor|]. constructor; [exact IH|constructor].
Qed.
Lemma fits_chain (s : cstage) k c (u : nat -> R) t : fits t (c : cencoder) -> fits (Node u [(k, t)]) (Enc s [(k, c)]).
Proof.
  intros H. constructor. intros k' c' [E|[]]. injection E as <- <-. exists t. cbn [dget]. rewrite String.eqb_refl. auto.
Qed.
Lemma fits_leaf (s : cstage) (u : nat -> R) : fits (Node u []) (Enc s [] : cencoder).
Proof. constructor. intros k c []. Qed.
Definition uq_state := chain_state ["flattened_values"%string; "quantized_values"%string].
Example C114_ex : exists e, uniform_quantization 8 (Some [-1; 1]) true true = Ok e /\ fits uq_state e /\ draws_ok uq_state /\
  wf (mkT [2; 2]%nat [1/3; -5; 7; 0]) /\ data (mkT [2; 2]%nat [1/3; -5; 7; 0]) <> [].
Proof.
  destruct (proj2 (accepted_uniform 8 (Some [-1; 1]) true true)) as (e & E); [split; [lia|]; right; do 2 eexists; split; [reflexivity|lra]|].
  exists e. split; [exact E|]. destruct (uniform_eq _ _ _ _ _ E) as (_ & mm & _ & _ & ->). split; [|split; [apply chain_draws|split; [reflexivity|discriminate]]].
  apply fits_chain, fits_chain, fits_leaf.
Qed.

(** * C115: sums *)
(** Any encoder tree made of the library's stages: summing part-decoded values and decoding the sum gives the sum of the
    decoded values (for any non-empty list of summands). *)
Theorem C115_any_tree : forall (I : Type) (is : list I), is <> [] -> forall e : cencoder,
  every_stage (fun s => (exists k, s = to_stage k) \/ (exists c, s = clip_norm_stage c) \/ (exists lo hi, s = clip_value_stage lo hi)
                        \/ (exists b st, s = per_channel_stage b st) \/ (exists rf b, s = per_channel_prng_stage rf b)) e ->
  forall (ev : I -> evalue) st ep dp sh dpb dpa (shb : I -> tree (option (option (list nat)))) sha (ys : I -> ten),
  get_params e st = Ok (ep, dp) ->
  split_by_commuting_structure dp (commuting_structure e) = Ok (dpb, dpa) ->
  (forall i, In i is -> split_by_commuting_structure (sh i) (commuting_structure e) = Ok (shb i, sha)) ->
  (forall i, In i is -> decode e (ev i) (full dp) (full (sh i)) = Ok (ys i)) ->
  exists ws : I -> evalue,
    (forall i, In i is -> decode_before_sum e (ev i) dpb (shb i) = Ok (ws i)) /\
    forall W, esum is float_sum ws W ->
    exists Y, decode_after_sum e W dpa (Z.of_nat (List.length is)) sha = Ok Y /\ float_sum (map ys is) Y.
Proof.
  intros I is NE e Q. apply (sum_theorem is float_sum NE e). revert Q. apply every_stage_impl.
  intros s [(k & ->)|[(c & ->)|[(lo & hi & ->)|[(b & st & ->)|(rf & b & ->)]]]].
  - exact (kinds_commute is NE k).
  - exact (proj1 (clip_stages_commute is NE) c).
  - exact (proj2 (clip_stages_commute is NE) lo hi).
  - intros C; discriminate C.
  - intros C; discriminate C.
Qed.
Print Assumptions C115_any_tree.
(** Federated mean with uniform_quantization and a given range: the clients send integer codes, the server adds the codes,
    and the decoded sum is within (number of clients) steps of the sum of the clipped values. *)
Theorem C115_uniform_sum : forall (I : Type) (is : list I) bits lo hi stochastic static e (st : I -> tree (nat -> R)) (x : I -> tensor R) sh,
  uniform_quantization bits (Some [lo; hi]) stochastic static = Ok e -> is <> [] -> prod sh <> 0%nat ->
  (forall i, In i is -> fits (st i) e /\ draws_ok (st i) /\ shape (x i) = sh /\ wf (x i)) ->
  exists (codes : I -> list Z) (sent : I -> dict evalue) shapes dp dpb dpa shb sha Y,
    split_by_commuting_structure dp (commuting_structure e) = Ok (dpb, dpa) /\ split_by_commuting_structure shapes (commuting_structure e) = Ok (shb, sha) /\
    (forall i, In i is -> (exists ep, get_params e (st i) = Ok (ep, dp) /\ encode ten_shape e (F (x i)) ep = Ok (sent i, shapes)) /\
       Forall (fun z => 0 <= z <= 2 ^ Z.of_nat bits - 1)%Z (codes i) /\ List.length (codes i) = prod sh /\
       decode_before_sum e (ED (sent i)) dpb shb = Ok (ED [("flattened_values"%string, ED [("quantized_values"%string, ET (F (mkT [prod sh] (map IZR (codes i)))))])])) /\
    let total := map (fun j => sumR (map (fun i => IZR (nth j (codes i) 0%Z)) is)) (seq 0 (prod sh)) in
    decode_after_sum e (ED [("flattened_values"%string, ED [("quantized_values"%string, ET (F (mkT [prod sh] total)))])]) dpa (Z.of_nat (List.length is)) sha = Ok (F Y) /\
    shape Y = sh /\ wf Y /\
    forall j, (j < prod sh)%nat -> exists c : I -> R, (forall i, In i is -> clipped_toR lo hi (nth j (data (x i)) 0) (c i)) /\
      Rabs (nth j (data Y) 0 - sumR (map c is)) < INR (List.length is) * ((hi - lo) / IZR (2 ^ Z.of_nat bits - 1)).
Proof. intros I is. exact (uniform_sum is). Qed.
Print Assumptions C115_uniform_sum.
Example C115_ex : exists e, uniform_quantization 4 (Some [0; 2]) false true = Ok e /\ [true; false] <> [] /\
  (every_stage (fun s => (exists k, s = to_stage k) \/ (exists c, s = clip_norm_stage c) \/ (exists lo hi, s = clip_value_stage lo hi)
                        \/ (exists b st, s = per_channel_stage b st) \/ (exists rf b, s = per_channel_prng_stage rf b)) e) /\
  forall i : bool, In i [true; false] -> fits uq_state e /\ draws_ok uq_state /\ shape (mkT [3%nat] (if i then [1; 2; 3] else [0; 1/2; 5])) = [3%nat] /\ wf (mkT [3%nat] (if i then [1; 2; 3] else [0; 1/2; 5])).
Proof.
  destruct (proj2 (accepted_uniform 4 (Some [0; 2]) false true)) as (e & E); [split; [lia|]; right; do 2 eexists; split; [reflexivity|lra]|].
  exists e. split; [exact E|]. split; [discriminate|]. destruct (uniform_eq _ _ _ _ _ E) as (_ & mm & _ & _ & ->). split.
  - cbn. repeat split; try (repeat constructor; intros []); try exact Logic.I; left; [exists KFlatten|exists (KUniform 4 mm false)|exists (KBitpack 4 true)]; reflexivity.
  - intros i _. split; [apply fits_chain, fits_chain, fits_leaf|]. split; [apply chain_draws|]. destruct i; split; reflexivity.
Qed.

(** * C116: encoders.hadamard_quantization *)
(** No sign draw equal to 1/2 (where tf.sign yields 0): the decoded tensor is within 2 sqrt(p) |x| / (2^bits - 1) of the
    input in Euclidean norm, p being the number of elements rounded up to a power of two. *)
Theorem C116_round_trip : forall bits static e st x,
  hadamard_quantization bits static = Ok e -> fits st e -> draws_ok st ->
  (forall u, draws_at ["flattened_values"%string] st = Some u -> forall i, (i < prod (shape x))%nat -> u i <> 1/2) ->
  wf x -> data x <> [] ->
  exists sent y, round_trip e st x sent y /\ shape y = shape x /\ wf y /\
  let p := (2 ^ Nat.log2_up (prod (shape x)))%nat in
  dist2 (data y) (data x) <= sqrt (INR p) * (2 * norm2 (data x)) / IZR (2 ^ Z.of_nat bits - 1).
Proof. exact hadamard_main. Qed.
Print Assumptions C116_round_trip.
Definition had_state := chain_state ["flattened_values"%string; "hadamard_values"%string; "quantized_values"%string].
Example C116_ex : exists e, hadamard_quantization 8 true = Ok e /\ fits had_state e /\ draws_ok had_state /\
  (forall u, draws_at ["flattened_values"%string] had_state = Some u -> forall i, (i < prod [3%nat])%nat -> u i <> 1/2) /\ wf (mkT [3%nat] [1; 2; -4]) /\ data (mkT [3%nat] [1; 2; -4]) <> [].
Proof.
  assert (exists e, hadamard_quantization 8 true = Ok e) as (e & E) by (eexists; reflexivity).
  exists e. split; [exact E|]. destruct (hadamard_eq _ _ _ E) as (_ & ->). split; [apply fits_chain, fits_chain, fits_chain, fits_leaf|]. split; [apply chain_draws|].
  split; [|split; [reflexivity|discriminate]]. intros u [= <-] i _. unfold half. lra.
Qed.

(** * C117: per-channel quantization *)
(** What the constructors accept. *)
Theorem C117_accepted : forall bits, (new_per_channel bits = Ok bits <-> (1 <= bits <= 16)%nat) /\ (new_per_channel bits = Ok bits \/ new_per_channel bits = Err ValueError).
Proof.
  intros b. unfold new_per_channel. destruct (Nat.leb_spec 1 b); destruct (Nat.leb_spec b 16); cbn [andb]; (split; [split; intros; try lia; try discriminate; try reflexivity | auto]).
Qed.
Print Assumptions C117_accepted.
Theorem C117_per_channel : forall bits stochastic u x, (1 <= bits)%nat -> (forall i, 0 <= u i < 1) -> wf x -> data x <> [] -> shape x <> [] ->
  exists q mm y, stage_round_trip (per_channel_stage bits stochastic) u x [("quantized_values"%string, F q); ("min_max"%string, F mm)] y /\ shape y = shape x /\ wf y /\
  (forall v, In v (data q) -> exists z, v = IZR z /\ (0 <= z <= 2 ^ Z.of_nat bits - 1)%Z) /\
  let dim := List.last (shape x) O in
  forall i, (i < prod (shape x))%nat -> exists lo hi, channel_range dim (data x) (i mod dim) lo hi /\
    let step := (hi - lo) / IZR (2 ^ Z.of_nat bits - 1) in let v := nth i (data x) 0 in let w := nth i (data y) 0 in
    (lo < hi -> Rabs (w - v) < step) /\ (stochastic = false -> Rabs (w - v) <= 1/2 * step) /\ (v = lo \/ v = hi -> w = v).
Proof. exact per_channel_main. Qed.
Print Assumptions C117_per_channel.
(** With the shared seed: within half a step of the channel, for every random stream in [0, 1). *)
Theorem C117_per_channel_prng : forall random_floats bits u x, (1 <= bits)%nat -> (forall seed i, 0 <= random_floats seed i < 1) -> wf x -> data x <> [] -> shape x <> [] ->
  exists q seed mm y, stage_round_trip (per_channel_prng_stage random_floats bits) u x [("quantized_values"%string, F q); ("seed"%string, I seed); ("min_max"%string, F mm)] y /\ shape y = shape x /\ wf y /\
  (forall v, In v (data q) -> exists z, v = IZR z /\ (0 <= z <= 2 ^ Z.of_nat bits - 1)%Z) /\
  let dim := List.last (shape x) O in
  forall i, (i < prod (shape x))%nat -> exists lo hi, channel_range dim (data x) (i mod dim) lo hi /\
    Rabs (nth i (data y) 0 - nth i (data x) 0) <= 1/2 * ((hi - lo) / IZR (2 ^ Z.of_nat bits - 1)).
Proof. exact per_channel_prng_main. Qed.
Print Assumptions C117_per_channel_prng.
(** The seed sent along: two non-negative numbers below the largest int64. *)
Theorem C117_seed_range : forall random_floats bits u x d, (forall i, 0 <= u i < 1) ->
  s_encode (per_channel_prng_stage random_floats bits) (F x) (fst (s_params (per_channel_prng_stage random_floats bits) u)) = Ok d ->
  exists a b, dget "seed" d = Some (I [a; b]) /\ (0 <= a < 2 ^ 63 - 1)%Z /\ (0 <= b < 2 ^ 63 - 1)%Z.
Proof.
  intros rf bits u x d U H. cbn [s_encode per_channel_prng_stage float bind s_params fst p_dict p_draws] in H. destruct (last_dim x) as [dim|]; cbn [bind] in H; [|discriminate].
  injection H as <-. exists (floorR (u 0%nat * IZR (2 ^ 63 - 1))), (floorR (u 1%nat * IZR (2 ^ 63 - 1))). split; [reflexivity|].
  assert (P : 0 < IZR (2 ^ 63 - 1)) by (apply IZR_lt; lia).
  assert (G : forall i, (0 <= floorR (u i * IZR (2 ^ 63 - 1)) < 2 ^ 63 - 1)%Z).
  { intros i. pose proof (U i) as B. pose proof (floor_spec (u i * IZR (2 ^ 63 - 1))) as [F1 F2].
    assert (0 <= u i * IZR (2 ^ 63 - 1)) by (apply Rmult_le_pos; lra). assert (u i * IZR (2 ^ 63 - 1) < IZR (2 ^ 63 - 1)) by (apply Rlt_le_trans with (1 * IZR (2 ^ 63 - 1)); [apply Rmult_lt_compat_r; lra|lra]).
    split; [|apply lt_IZR; lra]. assert (-1 < floorR (u i * IZR (2 ^ 63 - 1)))%Z by (apply lt_IZR; lra). lia. }
  split; apply G.
Qed.
Print Assumptions C117_seed_range.
Example C117_ex : (1 <= 8)%nat /\ (forall i, 0 <= half i < 1) /\ wf (mkT [2; 3]%nat [1; 2; 3; 4; 2; 0]) /\ shape (mkT [2; 3]%nat [1; 2; 3; 4; 2; 0]) <> [] /\
  channel_range 3 [1; 2; 3; 4; 2; 0] 2 0 3.
Proof.
  split; [lia|]. split; [intros; unfold half; lra|]. split; [reflexivity|]. split; [discriminate|]. split; [exists 5%nat; cbn; repeat split; lia|]. split; [exists 2%nat; cbn; repeat split; lia|].
  intros j Hj. cbn in Hj. do 6 (destruct j as [|j]; [cbn; intros; try discriminate; lra|]). lia.
Qed.

(** * C118: clipping stages *)
Theorem C118_clip_by_value : forall lo hi u x, lo <= hi -> exists q y,
  stage_round_trip (clip_value_stage lo hi) u x [("clipped_values"%string, F q)] y /\ y = q /\ shape y = shape x /\ List.length (data y) = List.length (data x) /\
  forall i, (i < List.length (data x))%nat -> clipped_toR lo hi (nth i (data x) 0) (nth i (data y) 0).
Proof.
  intros lo hi u x L. exists (tmap (clip_by_value lo hi) x), (tmap (clip_by_value lo hi) x). split; [split; reflexivity|]. split; [reflexivity|]. split; [reflexivity|].
  unfold tmap. cbn [data]. split; [apply map_length|]. intros i Hi. rewrite (nth_indep (map (clip_by_value lo hi) (data x)) 0 (clip_by_value lo hi 0)) by (rewrite map_length; exact Hi). rewrite map_nth.
  unfold clip_by_value, clipped_toR, Rmin, Rmax. destruct (Rle_dec hi (nth i (data x) 0)); destruct (Rle_dec lo _); try lra; auto.
Qed.
Print Assumptions C118_clip_by_value.
(** Both clipping stages declare that they commute with sums (so C115 moves their decoding after the sum) and neither needs the input shape. *)
Theorem C118_declarations : forall c lo hi, s_commutes (clip_norm_stage c) = true /\ s_commutes (clip_value_stage lo hi) = true /\
  s_needs_shape (clip_norm_stage c) = false /\ s_needs_shape (clip_value_stage lo hi) = false.
Proof. intros. repeat split. Qed.
Print Assumptions C118_declarations.
(** The constructor accepts a minimum above the maximum; then every value leaves the range that was asked for. *)
Theorem C118_swapped_bounds_refuted : forall lo hi u x, hi < lo -> exists y,
  stage_round_trip (clip_value_stage lo hi) u x [("clipped_values"%string, F y)] y /\ forall v, In v (data y) -> v = lo /\ hi < v.
Proof.
  intros lo hi u x L. exists (tmap (clip_by_value lo hi) x). split; [split; reflexivity|]. unfold tmap. cbn [data]. intros v I. apply in_map_iff in I. destruct I as (a & <- & _).
  unfold clip_by_value. pose proof (Rmin_l hi a). rewrite Rmax_left by lra. lra.
Qed.
Print Assumptions C118_swapped_bounds_refuted.
(** Clipping by norm is the projection onto the ball: inside, unchanged otherwise, and nothing in the ball is closer. *)
Theorem C118_clip_by_norm : forall c u x, 0 < c -> exists y,
  stage_round_trip (clip_norm_stage c) u x [("clipped_values"%string, F y)] y /\ shape y = shape x /\ List.length (data y) = List.length (data x) /\
  norm2 (data y) <= c /\ (norm2 (data x) <= c -> y = x) /\
  forall z, List.length z = List.length (data x) -> norm2 z <= c -> dist2 (data y) (data x) <= dist2 z (data x).
Proof. intros c u x C. exists (clip_by_norm c x). split; [split; reflexivity|]. exact (clip_norm_main c x C). Qed.
Print Assumptions C118_clip_by_norm.
(** A negative norm is accepted too and flips the sign of the tensor. *)
Theorem C118_negative_norm_refuted : forall u, exists y,
  stage_round_trip (clip_norm_stage (-1)) u (mkT [1%nat] [2]) [("clipped_values"%string, F y)] y /\ data y = [-1].
Proof.
  intros u. exists (clip_by_norm (-1) (mkT [1%nat] [2])). split; [split; reflexivity|]. unfold clip_by_norm, tmap. cbn [data map].
  assert (N : norm2 [2] = 2) by (unfold norm2; cbn [map sumR]; rewrite Rplus_0_r; apply sqrt_square; lra). rewrite N, Rmax_left by lra. f_equal. lra.
Qed.
Print Assumptions C118_negative_norm_refuted.
Example C118_ex : (-1 <= 1) /\ 0 < 1 /\ norm2 [3; 4] = 5.
Proof. split; [lra|]. split; [lra|]. unfold norm2. cbn [map sumR]. replace (3 * 3 + (4 * 4 + 0)) with (5 * 5) by lra. apply sqrt_square. lra. Qed.
