(** The ready-made encoders, end to end. *)
From Coq Require Import Reals Lra Psatz.
From Verif Require Import Base M_Tensor L_Tensor M_Bitpack L_Bitpack M_Hadamard S_Hadamard L_Hadamard L_Kashin M_Encoder S_Encoder M_Composer S_Composer M_CommonEncoders S_CommonEncoders L_CommonEncoders.
From Coq Require Import Lra Psatz.
Open Scope R_scope.
Open Scope list_scope.

Lemma new_uniform_inv bits mml st k : new_uniform bits mml st = Ok k -> (1 <= bits <= 16)%nat /\ exists mm, valid_mm mm /\ k = KUniform bits mm st /\
  mml = match mm with Some (a, b) => Some [a; b] | None => None end.
Proof.
  unfold new_uniform. destruct ((1 <=? bits) && (bits <=? 16))%nat eqn:E; cbn [negb]; [|discriminate]. assert (1 <= bits <= 16)%nat by lia.
  destruct mml as [[|a [|b [|c l]]]|]; try discriminate.
  - destruct (Rle_dec b a); [discriminate|]. intros [= <-]. split; [assumption|]. exists (Some (a, b)). cbn. split; [lra|auto].
  - intros [= <-]. split; [assumption|]. exists None. cbn. auto.
Qed.
Lemma uniform_eq bits mml st static e : uniform_quantization bits mml st static = Ok e -> (1 <= bits <= 16)%nat /\ exists mm, valid_mm mm /\
  mml = match mm with Some (a, b) => Some [a; b] | None => None end /\
  e = Enc flatten_stage [("flattened_values"%string, Enc (uniform_stage bits mm st) [("quantized_values"%string, Enc (bitpack_stage bits static) [])])].
Proof.
  unfold uniform_quantization, compose_uniform. unfold new_bitpack. destruct ((1 <=? bits) && (bits <=? 16))%nat; cbn [bind new_composer]; [|discriminate].
  destruct (new_uniform bits mml st) as [k|] eqn:E; cbn [bind]; [|discriminate]. destruct (new_uniform_inv _ _ _ _ E) as (B & mm & V & -> & M).
  cbn. intros [= <-]. split; [exact B|]. exists mm. auto.
Qed.
Lemma hadamard_eq bits static e : hadamard_quantization bits static = Ok e -> (1 <= bits <= 16)%nat /\
  e = Enc flatten_stage [("flattened_values"%string, Enc hadamard_stage [("hadamard_values"%string, Enc (uniform_stage bits None true) [("quantized_values"%string, Enc (bitpack_stage bits static) [])])])].
Proof.
  unfold hadamard_quantization, compose_hadamard. unfold new_bitpack. destruct ((1 <=? bits) && (bits <=? 16))%nat; cbn [bind new_composer]; [|discriminate].
  destruct (new_uniform bits None true) as [k|] eqn:E; cbn [bind]; [|discriminate]. destruct (new_uniform_inv _ _ _ _ E) as (B & mm & V & -> & M).
  assert (mm = None) as -> by (destruct mm as [[? ?]|]; [discriminate|reflexivity]). cbn. intros [= <-]. auto.
Qed.
Lemma accepted_uniform bits mml st static : (exists e, uniform_quantization bits mml st static = Ok e) <-> (1 <= bits <= 16)%nat /\ (mml = None \/ exists a b, mml = Some [a; b] /\ a < b).
Proof.
  split.
  - intros (e & E). destruct (uniform_eq _ _ _ _ _ E) as (B & mm & V & -> & _). split; [exact B|]. destruct mm as [[a b]|]; [right; exists a, b; auto|now left].
  - intros (B & M). unfold uniform_quantization, compose_uniform, new_bitpack, new_uniform. assert ((1 <=? bits) && (bits <=? 16) = true)%nat as -> by lia. cbn [bind new_composer negb].
    destruct M as [->|(a & b & -> & L)]; [|destruct (Rle_dec b a); [lra|]]; cbn; eauto.
Qed.
(** Parameters along a chain. *)
Lemma params_chain (s : cstage) k (c : cencoder) st stk epk dpk : dget k (tkids st) = Some stk -> get_params c stk = Ok (epk, dpk) ->
  get_params (Enc s [(k, c)]) st = Ok (Node (fst (s_params s (troot st))) [(k, epk)], Node (snd (s_params s (troot st))) [(k, dpk)]).
Proof. intros D G. cbn [get_params]. destruct (s_params s (troot st)) as [ep dp]. unfold dindex. rewrite D. cbn [bind]. rewrite G. reflexivity. Qed.
Lemma params_leaf (s : cstage) st : get_params (Enc s []) st = Ok (Node (fst (s_params s (troot st))) [], Node (snd (s_params s (troot st))) []).
Proof. cbn [get_params]. destruct (s_params s (troot st)) as [ep dp]. reflexivity. Qed.
Lemma dget_In {A} k (d : dict A) v : dget k d = Some v -> In (k, v) d.
Proof. induction d as [|[k' w] d IH]; [discriminate|]. cbn [dget]. destruct (String.eqb_spec k k') as [->|N]; [intros [= ->]; now left|]. right; auto. Qed.
Lemma draws_root st : draws_ok st -> forall i, 0 <= troot st i < 1.
Proof. inversion 1; auto. Qed.
Lemma draws_child st k c : draws_ok st -> dget k (tkids st) = Some c -> draws_ok c.
Proof. inversion 1 as [u kids U Fk]; subst. cbn [tkids]. intros D. apply dget_In in D. rewrite Forall_forall in Fk. exact (Fk _ D). Qed.
Lemma fits_child {s k c} {st : tree (nat -> R)} : fits st (Enc s [(k, c)] : cencoder) -> exists t, dget k (tkids st) = Some t /\ fits t c.
Proof. inversion 1 as [a ts s' cs Hc]; subst. cbn [tkids]. apply (Hc k c). now left. Qed.
(** The two innermost stages together: quantize and pack. *)
Definition packed (bits : nat) (static : bool) (st : bool) (mm : option (R * R)) : cencoder :=
  Enc (uniform_stage bits mm st) [("quantized_values"%string, Enc (bitpack_stage bits static) [])].
Definition leaf_dict (d : dict ten) : dict (@evalue ten) := map (fun kt => (fst kt, ET (snd kt))) d.
Lemma packed_rt bits static st mm s x : (1 <= bits <= 16)%nat -> valid_mm mm -> fits s (packed bits static st mm) -> draws_ok s -> wf x -> data x <> [] ->
  exists ep dp zs lo hi shs,
    get_params (packed bits static st mm) s = Ok (ep, dp) /\
    let sent := ("quantized_values"%string, ED [("bitpacked_values"%string, ET (I (pack_into_int static zs bits 28)))]) :: leaf_dict (uq_extra mm (data x)) in
    encode ten_shape (packed bits static st mm) (F x) ep = Ok (sent, shs) /\
    let y := map (fun z => IZR z / IZR (top bits) * (hi - lo) + lo) zs in
    decode (packed bits static st mm) (ED sent) (full dp) (full shs) = Ok (F (mkT (shape x) y)) /\
    (lo, hi) = uq_range mm (data x) /\ List.length zs = List.length (data x) /\ (forall z, In z zs -> (0 <= z <= top bits)%Z) /\
    forall i, (i < List.length (data x))%nat -> let c := uq_pre mm (nth i (data x) 0) in
      lo <= c <= hi /\ (lo < hi -> Rabs (nth i y 0 - c) < (hi - lo) / IZR (top bits)) /\ (st = false -> Rabs (nth i y 0 - c) <= 1/2 * ((hi - lo) / IZR (top bits))) /\ (c = lo \/ c = hi -> nth i y 0 = c).
Proof.
  intros B V Fi Dr W N. destruct (fits_child Fi) as (sq & Dq & Fq).
  destruct (uq_stage_codes bits mm st (troot s) x ltac:(lia) V (draws_root s Dr) N) as (zs & E & Lz & Rz & lo & hi & ER & D & Bd).
  unfold wf in W. destruct (bitpack_rt bits static (shape x) zs (fst (s_params (bitpack_stage bits static) (troot sq))) (snd (s_params (bitpack_stage bits static) (troot sq))) B ltac:(congruence) Rz) as (E2 & D2).
  unfold packed. do 2 eexists. exists zs, lo, hi. eexists.
  split; [apply (params_chain _ _ _ _ _ _ _ Dq (params_leaf _ _))|]. cbn zeta. split; [|split; [|split; [exact ER|split; [exact Lz|split; [exact Rz|]]]]].
  - rewrite (encode_chain _ _ _ _ _ _ _ _ _ E). rewrite encode_leaf, E2. cbn [bind map fst snd]. reflexivity.
  - unfold leaf_dict at 1. rewrite decode_chain by (destruct mm as [[? ?]|]; cbn; intuition discriminate).
    change [("bitpacked_values"%string, ET (I (pack_into_int static zs bits 28)))] with (leaf_dict [("bitpacked_values"%string, I (pack_into_int static zs bits 28))]).
    unfold leaf_dict. rewrite decode_leaf. refine (eq_trans (f_equal (fun r => bind r _) D2) _). cbn [bind].
    exact D.
  - intros i Hi. cbn zeta. set (f := fun z => IZR z / IZR (top bits) * (hi - lo) + lo).
    assert (Ny : nth i (map f zs) 0 = f (nth i zs 0%Z)). { rewrite (nth_indep (map f zs) 0 (f 0%Z)) by (rewrite map_length; lia). apply map_nth. }
    rewrite Ny. exact (Bd i Hi).
Qed.
Theorem uniform_main bits mml st static e s x : uniform_quantization bits mml st static = Ok e -> fits s e -> draws_ok s -> wf x -> data x <> [] ->
  exists sent y lo hi, round_trip e s x sent y /\ shape y = shape x /\ wf y /\ working_rangeR mml (data x) lo hi /\
  let step := (hi - lo) / IZR (2 ^ Z.of_nat bits - 1) in
  forall i, (i < prod (shape x))%nat -> exists c, clipped_toR lo hi (nth i (data x) 0) c /\
    (lo < hi -> Rabs (nth i (data y) 0 - c) < step) /\ (st = false -> Rabs (nth i (data y) 0 - c) <= 1/2 * step) /\ (c = lo \/ c = hi -> nth i (data y) 0 = c).
Proof.
  intros E Fi Dr W N. destruct (uniform_eq _ _ _ _ _ E) as (B & mm & V & M & ->). destruct (fits_child Fi) as (sf & Df & Ff).
  set (xf := mkT [List.length (data x)] (data x) : tensor R).
  destruct (packed_rt bits static st mm sf xf B V Ff (draws_child _ _ _ Dr Df) ltac:(unfold wf; cbn; lia) N) as (ep & dp & zs & lo & hi & shs & G & En & De & ER & Lz & Rz & Bd).
  cbn zeta in *. set (y := map (fun z => IZR z / IZR (top bits) * (hi - lo) + lo) zs) in *. cbn [data xf shape] in *.
  assert (Ly : List.length y = prod (shape x)) by (unfold y; rewrite map_length, Lz; exact W).
  eexists. exists (mkT (shape x) y), lo, hi. split; [|split; [reflexivity|split; [exact Ly|split]]].
  - do 3 eexists. split; [apply (params_chain _ _ _ _ _ _ _ Df G)|]. split.
    + rewrite (encode_chain ten_shape flatten_stage "flattened_values" _ (F x) _ ep (F xf) []) by reflexivity. unfold packed in En. rewrite En. cbn [bind map]. reflexivity.
    + pose proof (decode_chain flatten_stage "flattened_values" (packed bits static st mm)) as DC. unfold packed in DC at 1 2. unfold cencoder, cstage in *.
      match goal with |- decode _ (ED [(_, ED ?ek)]) (full (Node ?p _)) (full (Node ?sh _)) = _ => specialize (DC ek [] p dp sh shs (fun H => H)) end. cbn [map] in DC. refine (eq_trans DC _). clear DC.
      refine (eq_trans (f_equal (fun r => bind r _) De) _). cbn [bind]. cbn [s_decode flatten_stage s_needs_shape ten_shape]. unfold dindex. cbn [dget String.eqb Ascii.eqb Bool.eqb bind float need]. unfold reshape. cbn [data]. rewrite Ly, Nat.eqb_refl. reflexivity.
  - subst mml. destruct mm as [[a b]|]; cbn in ER |- *; injection ER as -> ->; [reflexivity|]. now apply min_max_range.
  - cbn zeta. intros i Hi. unfold wf in W. rewrite <- W in Hi. destruct (Bd i Hi) as (In1 & B1 & B2 & B3). exists (uq_pre mm (nth i (data x) 0)). split; [|split; [exact B1|split; [exact B2|exact B3]]].
    destruct mm as [[a b]|]; cbn in *; injection ER as -> ->.
    + now apply clip_clipped.
    + right. right. split; [exact In1|reflexivity].
Qed.
(** What is sent: ceil(bits * n / 28) integers below 2^28, and two floats unless the range was given. *)
Theorem uniform_payload bits mml st e s x sent y : uniform_quantization bits mml st true = Ok e -> fits s e -> draws_ok s -> wf x -> data x <> [] -> round_trip e s x sent y ->
  exists v, sent = [("flattened_values"%string, ED (("quantized_values"%string, ED [("bitpacked_values"%string, ET (I v))]) ::
      match mml with None => [("min_max"%string, ET (F (mkT [2%nat] [minR (data x); maxR (data x)])))] | Some _ => [] end))] /\
    List.length v = ((bits * prod (shape x) + 27) / 28)%nat /\ Forall (fun z => 0 <= z < 2 ^ 28)%Z v.
Proof.
  intros E Fi Dr W N (ep0 & dp0 & sh0 & G0 & En0 & De0). destruct (uniform_eq _ _ _ _ _ E) as (B & mm & V & M & ->). destruct (fits_child Fi) as (sf & Df & Ff).
  set (xf := mkT [List.length (data x)] (data x) : tensor R).
  destruct (packed_rt bits true st mm sf xf B V Ff (draws_child _ _ _ Dr Df) ltac:(unfold wf; cbn; lia) N) as (ep & dp & zs & lo & hi & shs & G & En & De & ER & Lz & Rz & Bd).
  cbn zeta in *. unfold cencoder, cstage in *. unfold packed in *. rewrite (params_chain _ _ _ _ _ _ _ Df G) in G0. injection G0 as <- <-.
  rewrite (encode_chain ten_shape flatten_stage "flattened_values" _ (F x) _ ep (F xf) []) in En0 by reflexivity. rewrite En in En0. cbn [bind map] in En0. injection En0 as <- <-.
  exists (pack_into_int true zs bits 28). split; [|split].
  - subst mml. destruct mm as [[a b]|]; reflexivity.
  - cbn [data xf] in Lz. unfold wf in W. rewrite <- W, <- Lz. apply pack_count; [lia|]. apply Forall_forall. intros z Iz. specialize (Rz z Iz). unfold top in Rz. lia.
  - apply pack_bound; [lia|]. apply Forall_forall. intros z Iz. specialize (Rz z Iz). unfold top in Rz. lia.
Qed.
