(** C141: the library's encoders behind GatherEncoder and SimpleEncoder. *)
From Coq Require Import Reals.
From Verif Require Import Base M_Tensor M_Bitpack M_Hadamard M_Encoder S_Encoder M_Composer M_CommonEncoders S_CommonEncoders
  M_Dicts S_Dicts M_Gather S_Gather M_CoreTree S_CoreTree P_CoreTree M_CommonFlat S_CommonFlat L_CommonFlat L_CommonFlat2 L_CommonFlat3 L_CommonFlat4 L_CommonFlat5.
From Coq Require Import Lra Psatz.
Open Scope R_scope.
Open Scope list_scope.
Local Notation create e zeros w := (from_encoder fspec_of fcompatible (fcore e) (fspec_of zeros) zeros w).
Local Notation encoded g ep bp := (fun c q => exists d u, g_encode fcompatible g (fst c) (snd c) ep = Ok (d, u) /\ g_decode_before_sum fcompatible g d bp = Ok q).

(** Every tree of library stages satisfies what C139 and C140 ask for: the stages read by key, have fixed structure on the declared
    shape, name their aggregation modes, and commute with sums where they declare it. *)
Theorem C141_library_stages_qualify : forall e sh zeros, lib_tree e sh -> float_of sh zeros ->
  well_behaved fspec_of fis_none fshape_of fcompatible FNone e zeros /\ S_CoreTree.every_stage modes_match e /\
  proper_sum fspec_of fsum /\ S_CoreTree.every_stage (commutes_with_sum fspec_of fsum) e.
Proof. intros e sh zeros T Z. split; [exact (lib_behaved e sh zeros T Z)|]. split; [exact (lib_modes e sh T)|]. split; [exact f_proper|]. exact (lib_tree_every _ e sh lib_commutes T). Qed.
(** ... and each stage declares so exactly as it should: the decoding of identity, flattening, rotation and quantization on a shared
    range waits for the sum, that of bit packing and of quantization on the data's own range does not. *)
Theorem C141_what_waits_for_the_sum : forall k, a_commutes (as_adaptive (lib_stage k) : astage fval string (nat -> R)) = true <-> waits_for_sum k.
Proof. intros [| | |b [mm|] st|b st]; cbn; split; auto; try discriminate; intros N; now exfalso. Qed.
(** So no call fails, and sums of part-decoded values decode to the sum of the decoded values. *)
Theorem C141_no_call_fails : forall e sh zeros w0, lib_tree e sh -> float_of sh zeros -> exists g, create e zeros w0 = Ok g /\
  forall fs, reached fcompatible g fs -> forall w, exists ep bp ap, g_get_params fcompatible g w fs = Ok (ep, bp, ap) /\
  forall wc x, float_of sh x -> exists d u q fs', g_encode fcompatible g wc x ep = Ok (d, u) /\ g_decode_before_sum fcompatible g d bp = Ok q /\
    (forall n, exists y, g_decode_after_sum fcompatible g q ap n = Ok y /\ float_of sh y) /\ g_update_state fcompatible g fs u = Ok fs'.
Proof.
  intros e sh zeros w0 T Z. pose proof (lib_behaved e sh zeros T Z) as WB. pose proof (proj2 (spec_float zeros sh) Z) as Sz.
  destruct (C139_created fspec_of fcompatible fis_none FNone fshape_of e zeros w0 zeros WB eq_refl) as [(g & G) _]. exists g. split; [exact G|]. intros fs R w.
  destruct (C139_every_call_succeeds fspec_of fcompatible fis_none FNone fshape_of e zeros w0 g WB G fs R w) as (ep & bp & ap & GP & H). exists ep, bp, ap. split; [exact GP|]. intros wc x Sx. apply spec_float in Sx. rewrite <- Sz in Sx.
  destruct (H wc x Sx) as (d & u & q & fs' & H1 & H2 & H3 & H4). exists d, u, q, fs'. split; [exact H1|]. split; [exact H2|]. split; [|exact H4]. intros n. destruct (H3 n) as (y & Y1 & Y2). exists y. split; [exact Y1|]. apply spec_float. congruence.
Qed.
Theorem C141_sums_decode_to_sums : forall e sh zeros w0 g, lib_tree e sh -> float_of sh zeros -> create e zeros w0 = Ok g ->
  forall fs w ep bp ap, reached fcompatible g fs -> g_get_params fcompatible g w fs = Ok (ep, bp, ap) ->
  forall (clients : list ((list string -> nat -> R) * fval)) parts total, clients <> [] -> (forall c, In c clients -> float_of sh (snd c)) ->
  Forall2 (encoded g ep bp) clients parts -> part_sum fsum parts total ->
  exists ys, Forall2 (fun q y => g_decode_after_sum fcompatible g q ap 1 = Ok y) parts ys /\ g_decode_after_sum fcompatible g total ap (Z.of_nat (List.length clients)) = Ok (fsum ys).
Proof.
  intros e sh zeros w0 g T Z G fs w ep bp ap R GP cl parts total NE SX F2 SU. pose proof (proj2 (spec_float zeros sh) Z) as Sz.
  apply (C140_sum_of_clients fspec_of fcompatible fis_none FNone fshape_of fsum e zeros w0 g (lib_behaved e sh zeros T Z) f_proper (lib_tree_every _ e sh lib_commutes T) G fs w ep bp ap R GP cl parts total NE); [|exact F2|exact SU].
  intros c Hc. rewrite Sz. apply spec_float, SX, Hc.
Qed.

(** The ready-made encoders are such trees: identity and uniform quantization for every shape, Hadamard quantization for every
    non-empty one. *)
Theorem C141_ready_made : forall bits min_max stochastic static,
  (forall e sh, flat_identity = Ok e -> lib_tree e sh) /\ (exists e, flat_identity = Ok e) /\
  (forall e sh, flat_uniform bits min_max stochastic static = Ok e -> lib_tree e sh) /\
  ((exists e, flat_uniform bits min_max stochastic static = Ok e) <-> (1 <= bits <= 16)%nat /\ (min_max = None \/ exists a b, min_max = Some [a; b] /\ a < b)) /\
  (forall e sh, flat_hadamard bits static = Ok e -> prod sh <> 0%nat -> lib_tree e sh) /\ ((exists e, flat_hadamard bits static = Ok e) <-> (1 <= bits <= 16)%nat).
Proof.
  intros bits mm st static. split; [exact id_tree|]. split; [cbn; eauto|]. split; [|split; [|split; [|split]]].
  - intros e sh H. destruct (flat_uniform_eq _ _ _ _ _ H) as (Bb & m & _ & _ & -> & _). apply (chain_tree _ _ sh). now apply uq_fits.
  - split; [|intros [Bb M]; now apply flat_uniform_ok]. intros (e & H). destruct (flat_uniform_eq _ _ _ _ _ H) as (Bb & m & V & -> & _). split; [exact Bb|]. destruct m as [[a b]|]; [right; exists a, b; split; [reflexivity|exact V]|now left].
  - intros e sh H N. destruct (flat_hadamard_eq _ _ _ H) as (Bb & -> & _). apply (chain_tree _ _ sh). now apply had_fits.
  - intros (e & H). now destruct (flat_hadamard_eq _ _ _ H).
  - intros Bb. now apply flat_hadamard_ok.
Qed.
(** Aggregating with uniform quantization: the decoded value is the sum of the clients' values, each up to its quantization. *)
Theorem C141_uniform_aggregate : forall bits min_max stochastic static e sh zeros w0 g, flat_uniform bits min_max stochastic static = Ok e -> float_of sh zeros -> prod sh <> 0%nat -> create e zeros w0 = Ok g ->
  forall fs w ep bp ap, unit_draws w -> reached fcompatible g fs -> g_get_params fcompatible g w fs = Ok (ep, bp, ap) ->
  forall (clients : list ((list string -> nat -> R) * fval)) parts total, clients <> [] -> (forall c, In c clients -> unit_draws (fst c) /\ float_of sh (snd c)) ->
  Forall2 (encoded g ep bp) clients parts -> part_sum fsum parts total ->
  exists ys, Forall2 (fun c y => quantized bits stochastic min_max (snd c) y) clients ys /\ g_decode_after_sum fcompatible g total ap (Z.of_nat (List.length clients)) = Ok (fsum ys).
Proof.
  intros bits mml st static e sh zeros w0 g H Z N G fs w ep bp ap Dw R GP cl parts total NE SX F2 SU. destruct (flat_uniform_eq _ _ _ _ _ H) as (Bb & mm & V & M & Ee & UQ).
  destruct (gather_clients e _ _ sh Ee (uq_fits bits mm st static sh Bb) zeros Z w0 g G fs w ep bp ap R GP cl parts total NE (fun c Hc => proj2 (SX c Hc)) F2 SU) as (ys & Y & GA). exists ys. split; [|exact GA].
  revert Y. apply F2_and_impl. intros c y Hc Y. destruct (SX c Hc) as [Dc Fc]. exact (alone_uniform bits mml st static _ mm w (fst c) (snd c) y sh Bb UQ eq_refl Dw Dc Fc N Y).
Qed.
(** ... so with a given range every entry of the decoded sum is within (number of clients) steps of the sum of the clipped entries. *)
Theorem C141_uniform_error : forall bits lo hi stochastic static e sh zeros w0 g, flat_uniform bits (Some [lo; hi]) stochastic static = Ok e -> float_of sh zeros -> prod sh <> 0%nat -> create e zeros w0 = Ok g ->
  forall fs w ep bp ap, unit_draws w -> reached fcompatible g fs -> g_get_params fcompatible g w fs = Ok (ep, bp, ap) ->
  forall (clients : list ((list string -> nat -> R) * fval)) parts total, clients <> [] -> (forall c, In c clients -> unit_draws (fst c) /\ float_of sh (snd c)) ->
  Forall2 (encoded g ep bp) clients parts -> part_sum fsum parts total ->
  exists Y, g_decode_after_sum fcompatible g total ap (Z.of_nat (List.length clients)) = Ok (FV (F Y)) /\ shape Y = sh /\ wf Y /\
  let step := (hi - lo) / IZR (2 ^ Z.of_nat bits - 1) in
  forall i, (i < prod sh)%nat -> exists cs, Forall2 (fun c v => exists t, snd c = FV (F t) /\ clipped_toR lo hi (nth i (data t) 0) v) clients cs /\
    Rabs (nth i (data Y) 0 - sumR cs) < INR (List.length clients) * step /\
    (stochastic = false -> Rabs (nth i (data Y) 0 - sumR cs) <= INR (List.length clients) * (1/2 * step)).
Proof.
  intros bits lo hi st static e sh zeros w0 g H Z N G fs w ep bp ap Dw R GP cl parts total NE SX F2 SU.
  destruct (C141_uniform_aggregate bits (Some [lo; hi]) st static e sh zeros w0 g H Z N G fs w ep bp ap Dw R GP cl parts total NE SX F2 SU) as (ys & Y & GA).
  destruct (proj1 (proj1 (proj2 (proj2 (proj2 (C141_ready_made bits (Some [lo; hi]) st static)))))) as (_ & [M|(a & b & [= <- <-] & L)]); [eauto|discriminate|].
  destruct (quantized_sum bits st lo hi sh cl ys L NE (fun c Hc => proj2 (SX c Hc)) Y) as (YY & EY & S1 & S2 & S3). rewrite EY in GA. exists YY. auto.
Qed.
(** Aggregating with Hadamard quantization: each client's value up to a bounded Euclidean error. *)
Theorem C141_hadamard_aggregate : forall bits static e sh zeros w0 g, flat_hadamard bits static = Ok e -> float_of sh zeros -> prod sh <> 0%nat -> create e zeros w0 = Ok g ->
  forall fs w ep bp ap, unit_draws w -> (forall i, (i < prod sh)%nat -> w ["flattened_values"%string] i <> 1/2) -> reached fcompatible g fs -> g_get_params fcompatible g w fs = Ok (ep, bp, ap) ->
  forall (clients : list ((list string -> nat -> R) * fval)) parts total, clients <> [] -> (forall c, In c clients -> unit_draws (fst c) /\ float_of sh (snd c)) ->
  Forall2 (encoded g ep bp) clients parts -> part_sum fsum parts total ->
  exists ys, Forall2 (fun c y => quantized_rotated bits (snd c) y) clients ys /\ g_decode_after_sum fcompatible g total ap (Z.of_nat (List.length clients)) = Ok (fsum ys).
Proof.
  intros bits static e sh zeros w0 g H Z N G fs w ep bp ap Dw NH R GP cl parts total NE SX F2 SU. destruct (flat_hadamard_eq _ _ _ H) as (Bb & Ee & UQ).
  destruct (gather_clients e _ _ sh Ee (had_fits bits static sh Bb N) zeros Z w0 g G fs w ep bp ap R GP cl parts total NE (fun c Hc => proj2 (SX c Hc)) F2 SU) as (ys & Y & GA). exists ys. split; [|exact GA].
  revert Y. apply F2_and_impl. intros c y Hc Y. destruct (SX c Hc) as [Dc Fc]. exact (alone_hadamard bits static _ w (fst c) (snd c) y sh UQ eq_refl Dw Dc NH Fc N Y).
Qed.
(** SimpleEncoder: what is encoded decodes to the value up to the quantization of the encoder. *)
Theorem C141_simple_round_trip : forall bits min_max stochastic static e sh zeros x0 w0 m, flat_uniform bits min_max stochastic static = Ok e -> float_of sh zeros -> float_of sh x0 -> prod sh <> 0%nat ->
  make_simple (fcore e) (fspec_of zeros) x0 w0 = Ok m -> forall fs, reached_simple fcompatible m fs -> forall w x, unit_draws w -> float_of sh x ->
  exists d fs' y, m_encode fcompatible m w x fs = Ok (d, fs') /\ m_decode m d = Ok y /\ quantized bits stochastic min_max x y.
Proof.
  intros bits mml st static e sh zeros x0 w0 m H Z X0 N MS fs R w x Dw Sx. destruct (flat_uniform_eq _ _ _ _ _ H) as (Bb & mm & V & M & Ee & UQ).
  destruct (simple_client e _ _ sh Ee (uq_fits bits mm st static sh Bb) zeros Z x0 w0 m X0 MS fs R w x Sx) as (d & fs' & y & H1 & H2 & H3). exists d, fs', y. split; [exact H1|]. split; [exact H2|].
  exact (alone_uniform bits mml st static _ mm w w x y sh Bb UQ eq_refl Dw Dw Sx N H3).
Qed.
Theorem C141_simple_round_trip_hadamard : forall bits static e sh zeros x0 w0 m, flat_hadamard bits static = Ok e -> float_of sh zeros -> float_of sh x0 -> prod sh <> 0%nat ->
  make_simple (fcore e) (fspec_of zeros) x0 w0 = Ok m -> forall fs, reached_simple fcompatible m fs -> forall w x, unit_draws w -> (forall i, (i < prod sh)%nat -> w ["flattened_values"%string] i <> 1/2) -> float_of sh x ->
  exists d fs' y, m_encode fcompatible m w x fs = Ok (d, fs') /\ m_decode m d = Ok y /\ quantized_rotated bits x y.
Proof.
  intros bits static e sh zeros x0 w0 m H Z X0 N MS fs R w x Dw NH Sx. destruct (flat_hadamard_eq _ _ _ H) as (Bb & Ee & UQ).
  destruct (simple_client e _ _ sh Ee (had_fits bits static sh Bb N) zeros Z x0 w0 m X0 MS fs R w x Sx) as (d & fs' & y & H1 & H2 & H3). exists d, fs', y. split; [exact H1|]. split; [exact H2|].
  exact (alone_hadamard bits static _ w w x y sh UQ eq_refl Dw Dw NH Sx N H3).
Qed.
(** Hadamard quantization of an empty tensor: neither encoder can be created. *)
Theorem C141_hadamard_rejects_empty : forall bits static e zeros sh w, flat_hadamard bits static = Ok e -> float_of sh zeros -> prod sh = 0%nat ->
  create e zeros w = Err OverflowError /\ make_simple (fcore e) (fspec_of zeros) zeros w = Err OverflowError.
Proof.
  intros bits static e zeros sh w H (t & -> & Es & W) N. destruct (flat_hadamard_eq _ _ _ H) as (Bb & -> & _). unfold M_Tensor.wf in W. rewrite Es, N in W. destruct t as [s l]. cbn in Es, W. subst s. destruct l as [|? ?]; [|discriminate].
  assert (E1 : forall u, lib_encode KFlatten u (FV (F (mkT sh []))) [] = Ok [("flattened_values"%string, FV (F (mkT [0%nat] [])))]) by (intros u; unfold lib_encode, tens; cbn [shape data List.length]; rewrite N; reflexivity).
  assert (E2 : forall u v, lib_encode KHadamard u (FV (F (mkT [0%nat] []))) [("seed"%string, FSeed v)] = Err OverflowError) by reflexivity. split.
  - unfold from_encoder, nested_params. cbn -[lib_encode]. rewrite E1. cbn -[lib_encode]. rewrite E2. reflexivity.
  - unfold make_simple, full_structure. cbn -[lib_encode]. rewrite E1. cbn -[lib_encode]. rewrite E2. reflexivity.
Qed.

(** A concrete case: four-bit quantization of two clients' vectors with a given range. *)
Definition quarter : list string -> nat -> R := fun _ _ => 1 / 4.
Definition vec3 (a b c : R) : fval := FV (F (mkT [3%nat] [a; b; c])).
Example C141_ex : exists e g, flat_uniform 4 (Some [0; 2]) false true = Ok e /\ create e (vec3 0 0 0) quarter = Ok g /\ float_of [3%nat] (vec3 0 0 0) /\ prod [3%nat] <> 0%nat /\ unit_draws quarter /\
  exists ep bp ap parts, reached fcompatible g (g_initial_state g) /\ g_get_params fcompatible g quarter (g_initial_state g) = Ok (ep, bp, ap) /\
  (forall c, In c [(quarter, vec3 1 2 3); (quarter, vec3 0 (1/2) 5)] -> unit_draws (fst c) /\ float_of [3%nat] (snd c)) /\
  Forall2 (encoded g ep bp) [(quarter, vec3 1 2 3); (quarter, vec3 0 (1/2) 5)] parts.
Proof.
  destruct (proj2 (proj1 (proj2 (proj2 (proj2 (C141_ready_made 4 (Some [0; 2]) false true)))))) as (e & E); [split; [lia|]; right; do 2 eexists; split; [reflexivity|lra]|].
  assert (V : forall a b c, float_of [3%nat] (vec3 a b c)) by (intros; eexists; split; [reflexivity|split; reflexivity]). assert (U : unit_draws quarter) by (intros p i; unfold quarter; lra).
  destruct (C141_no_call_fails e [3%nat] (vec3 0 0 0) quarter) as (g & G & K); [exact (proj1 (proj2 (proj2 (C141_ready_made 4 (Some [0; 2]) false true))) e [3%nat] E)|apply V|].
  exists e, g. split; [exact E|]. split; [exact G|]. split; [apply V|]. split; [cbn; discriminate|]. split; [exact U|]. destruct (K _ (R0 fcompatible g) quarter) as (ep & bp & ap & GP & H). 
  destruct (H quarter (vec3 1 2 3) (V _ _ _)) as (d1 & u1 & q1 & _ & A1 & A2 & _). destruct (H quarter (vec3 0 (1/2) 5) (V _ _ _)) as (d2 & u2 & q2 & _ & B1 & B2 & _).
  exists ep, bp, ap, [q1; q2]. split; [constructor|]. split; [exact GP|]. split.
  - intros c [<-|[<-|[]]]; split; try exact U; apply V.
  - constructor; [exists d1, u1; auto|]. constructor; [exists d2, u2; auto|constructor].
Qed.
Example C141_ex_hadamard : exists e g, flat_hadamard 8 true = Ok e /\ create e (vec3 0 0 0) quarter = Ok g /\ (forall i, (i < prod [3%nat])%nat -> quarter ["flattened_values"%string] i <> 1/2).
Proof.
  destruct (proj2 (proj2 (proj2 (proj2 (proj2 (proj2 (C141_ready_made 8 None true true)))))) ltac:(lia)) as (e & E). destruct (C141_no_call_fails e [3%nat] (vec3 0 0 0) quarter) as (g & G & _).
  - apply (proj1 (proj2 (proj2 (proj2 (proj2 (C141_ready_made 8 None true true)))))); [exact E|discriminate].
  - eexists. split; [reflexivity|split; reflexivity].
  - exists e, g. split; [exact E|]. split; [exact G|]. intros i _. unfold quarter. lra.
Qed.

Print Assumptions C141_library_stages_qualify.
Print Assumptions C141_what_waits_for_the_sum.
Print Assumptions C141_no_call_fails.
Print Assumptions C141_sums_decode_to_sums.
Print Assumptions C141_ready_made.
Print Assumptions C141_uniform_aggregate.
Print Assumptions C141_uniform_error.
Print Assumptions C141_hadamard_aggregate.
Print Assumptions C141_simple_round_trip.
Print Assumptions C141_simple_round_trip_hadamard.
Print Assumptions C141_hadamard_rejects_empty.
