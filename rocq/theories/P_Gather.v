(** C124-C126: the flat interfaces (GatherEncoder, SimpleEncoder) do what the underlying Encoder does. *)
From Coq Require Import Ascii Permutation Sorted Lia.
From Verif Require Import Base M_Encoder M_Dicts S_Dicts M_Gather S_Gather L_Dicts L_Gather L_Gather2 L_Gather3 L_Gather4 L_Gather5 L_Gather6 L_Gather7.
Open Scope nat_scope.

Section C124.
Context {V Sp M W : Type} (spec : V -> Sp) (compatible : Sp -> V -> bool).
(** Eager execution: specs are concrete shapes and dtypes. *)
Definition eager := forall x y, compatible (spec x) y = true <-> spec x = spec y.
Context (c : @core V M W) (tspec : Sp) (zeros : V) (f : @frame V).

Theorem C124_gather_encoder_is_created w : eager -> by_key c -> fixed_structure spec compatible c tspec f -> compatible tspec zeros = true ->
  exists g, from_encoder spec compatible c tspec zeros w = Ok g.
Proof. intros E B F Z. destruct (creates spec compatible E c tspec zeros f B F Z w) as (g & H & _). eauto. Qed.

(** From here on [g] is such an encoder, created with any random draws [w0]. *)
Section With.
Context (g : @gather V Sp M W) (w0 : W).
Hypothesis E : eager.
Hypothesis B : by_key c.
Hypothesis F : fixed_structure spec compatible c tspec f.
Hypothesis Z0 : compatible tspec zeros = true.
Hypothesis G : from_encoder spec compatible c tspec zeros w0 = Ok g.
Lemma is_built : built spec c tspec zeros f g.
Proof. destruct (creates spec compatible E c tspec zeros f B F Z0 w0) as (g' & H & Bu). rewrite G in H. now injection H as ->. Qed.
End With.

Theorem C124_initial_state g w0 : eager -> by_key c -> fixed_structure spec compatible c tspec f -> compatible tspec zeros = true ->
  from_encoder spec compatible c tspec zeros w0 = Ok g ->
  lists (tensors (k_initial c)) (g_initial_state g) /\ alike spec (f_st f) (tensors (k_initial c)).
Proof. intros E B F Z G. pose proof (is_built g w0 E B F Z G) as Bu. intros. eapply initial_ok with (zeros := zeros); eassumption. Qed.

Theorem C124_get_params g w0 : eager -> by_key c -> fixed_structure spec compatible c tspec f -> compatible tspec zeros = true ->
  from_encoder spec compatible c tspec zeros w0 = Ok g ->
  forall w st fs, alike spec (f_st f) st -> lists st fs ->
  exists ep bp ap sha e b a, core_params c zeros w st ep bp ap sha /\ g_get_params compatible g w fs = Ok (e, b, a) /\
    lists ep e /\ lists bp b /\ lists (with_shapes_after ap sha) a /\
    alike spec (f_ep f) ep /\ alike spec (f_bp f) bp /\ alike spec (f_ap f) ap /\ alike spec (f_sha f) sha.
Proof. intros E B F Z G. pose proof (is_built g w0 E B F Z G) as Bu. intros. eapply get_params_ok with (zeros := zeros); eassumption. Qed.

Theorem C124_encode g w0 : eager -> by_key c -> fixed_structure spec compatible c tspec f -> compatible tspec zeros = true ->
  from_encoder spec compatible c tspec zeros w0 = Ok g ->
  forall w x ep e, compatible tspec x = true -> alike spec (f_ep f) ep -> lists ep e ->
  exists enc upd shb d u, core_encode c w x ep enc upd shb /\ g_encode compatible g w x e = Ok (d, u) /\
    holds (with_shapes_before enc shb) d /\ lists upd u /\
    alike spec (f_enc f) enc /\ alike spec (f_upd f) upd /\ alike spec (f_shb f) shb.
Proof. intros E B F Z G. pose proof (is_built g w0 E B F Z G) as Bu. intros. eapply encode_ok with (zeros := zeros); eassumption. Qed.

(** The encoded values may arrive in any order of keys. *)
Theorem C124_decode_before_sum g w0 : eager -> by_key c -> fixed_structure spec compatible c tspec f -> compatible tspec zeros = true ->
  from_encoder spec compatible c tspec zeros w0 = Ok g ->
  forall enc shb bp d b, alike spec (f_enc f) enc -> alike spec (f_shb f) shb -> alike spec (f_bp f) bp ->
  holds (with_shapes_before enc shb) d -> lists bp b ->
  exists p q, k_before c enc bp shb = Ok p /\ g_decode_before_sum compatible g d b = Ok q /\ part_of p q /\ alike spec (f_part f) p.
Proof. intros E B F Z G. pose proof (is_built g w0 E B F Z G) as Bu. intros. eapply before_ok with (zeros := zeros); eassumption. Qed.

(** [p] may be any sum of part-decoded values: only its structure, shapes and dtypes matter. *)
Theorem C124_decode_after_sum g w0 : eager -> by_key c -> fixed_structure spec compatible c tspec f -> compatible tspec zeros = true ->
  from_encoder spec compatible c tspec zeros w0 = Ok g ->
  forall p q ap sha a n, alike spec (f_part f) p -> alike spec (f_ap f) ap -> alike spec (f_sha f) sha ->
  part_of p q -> lists (with_shapes_after ap sha) a ->
  exists y, k_after c p ap n sha = Ok y /\ g_decode_after_sum compatible g q a n = Ok y /\ compatible tspec y = true.
Proof. intros E B F Z G. pose proof (is_built g w0 E B F Z G) as Bu. intros. eapply after_ok with (zeros := zeros); eassumption. Qed.

(** [u] holds the aggregated update tensors: only its structure matters. *)
Theorem C124_update_state g w0 : eager -> by_key c -> fixed_structure spec compatible c tspec f -> compatible tspec zeros = true ->
  from_encoder spec compatible c tspec zeros w0 = Ok g ->
  forall st fs u us, alike spec (f_st f) st -> lists st fs -> arranged (f_upd f) u -> lists u us ->
  exists st' fs', k_update c st u = Ok st' /\ g_update_state compatible g fs us = Ok fs' /\ lists st' fs' /\ alike spec (f_st f) st'.
Proof. intros E B F Z G. pose proof (is_built g w0 E B F Z G) as Bu. intros. eapply update_ok with (zeros := zeros); eassumption. Qed.

(** C127: a call either gets flat values that are the view of dictionaries of the recorded structure (then C124 applies), or
    raises ValueError.  (Python dictionaries have distinct keys.) *)
Theorem C127_wrong_state_rejected g w0 : eager -> by_key c -> fixed_structure spec compatible c tspec f -> compatible tspec zeros = true ->
  from_encoder spec compatible c tspec zeros w0 = Ok g ->
  forall fs, (exists st, alike spec (f_st f) st /\ lists st fs) \/
    (forall w, g_get_params compatible g w fs = Err ValueError) /\ forall us, g_update_state compatible g fs us = Err ValueError.
Proof.
  intros E B F Z G fs. pose proof (is_built g w0 E B F Z G) as Bu. destruct (rejects_state spec compatible E c tspec zeros f F g Bu w0 fs) as [H|[H1 H2]]; [now left|].
  right. split; [|exact H2]. intros w. destruct (rejects_state spec compatible E c tspec zeros f F g Bu w fs) as [(st & A & L)|[H _]]; [|exact H].
  destruct (get_params_ok spec compatible E c tspec zeros f B F Z g Bu w0 st fs A L) as (? & ? & ? & ? & ? & ? & ? & _ & K & _). congruence.
Qed.
Theorem C127_wrong_input_rejected g w0 : eager -> by_key c -> fixed_structure spec compatible c tspec f -> compatible tspec zeros = true ->
  from_encoder spec compatible c tspec zeros w0 = Ok g ->
  forall w x ps, (compatible tspec x = true /\ exists ep, alike spec (f_ep f) ep /\ lists ep ps) \/ g_encode compatible g w x ps = Err ValueError.
Proof. intros E B F Z G. pose proof (is_built g w0 E B F Z G) as Bu. intros. eapply rejects_encode with (zeros := zeros); eassumption. Qed.
Theorem C127_wrong_encoding_rejected g w0 : eager -> by_key c -> fixed_structure spec compatible c tspec f -> compatible tspec zeros = true ->
  from_encoder spec compatible c tspec zeros w0 = Ok g ->
  forall d ps, NoDup (map fst d) ->
  ((exists es, alike spec (with_shapes_before (f_enc f) (f_shb f)) es /\ holds es d) /\ exists bp, alike spec (f_bp f) bp /\ lists bp ps) \/
  g_decode_before_sum compatible g d ps = Err ValueError.
Proof. intros E B F Z G. pose proof (is_built g w0 E B F Z G) as Bu. intros. eapply rejects_before with (zeros := zeros); eassumption. Qed.
Theorem C127_wrong_part_rejected g w0 : eager -> by_key c -> fixed_structure spec compatible c tspec f -> compatible tspec zeros = true ->
  from_encoder spec compatible c tspec zeros w0 = Ok g ->
  forall p ps n, match p with PD d => NoDup (map fst d) | PT _ => True end ->
  ((exists v, alike spec (f_part f) v /\ part_of v p) /\ exists ap, alike spec (with_shapes_after (f_ap f) (f_sha f)) ap /\ lists ap ps) \/
  g_decode_after_sum compatible g p ps n = Err ValueError.
Proof. intros E B F Z G. pose proof (is_built g w0 E B F Z G) as Bu. intros. eapply rejects_after with (zeros := zeros); eassumption. Qed.
Theorem C127_wrong_number_of_updates_rejected g w0 : eager -> by_key c -> fixed_structure spec compatible c tspec f -> compatible tspec zeros = true ->
  from_encoder spec compatible c tspec zeros w0 = Ok g ->
  forall fs us, (exists u, arranged (f_upd f) u /\ lists u us) \/ g_update_state compatible g fs us = Err ValueError.
Proof. intros E B F Z G. pose proof (is_built g w0 E B F Z G) as Bu. intros. eapply rejects_updates with (zeros := zeros); eassumption. Qed.

(** C125: the i-th aggregation mode belongs to the i-th state-update tensor. *)
Theorem C125_modes_belong_to_their_tensors g w0 : eager -> by_key c -> fixed_structure spec compatible c tspec f -> compatible tspec zeros = true ->
  from_encoder spec compatible c tspec zeros w0 = Ok g ->
  wf_dval (k_modes c) -> (forall p, (exists m, at_path p (k_modes c) = APy m) <-> exists u, at_path p (f_upd f) = ATf u) ->
  (forall p m, at_path p (k_modes c) <> ATf m) ->
  forall upd us, alike spec (f_upd f) upd -> lists upd us ->
  List.length (g_modes g) = List.length us /\
  forall i m u, nth_error (g_modes g) i = Some m -> nth_error us i = Some u -> exists p, at_path p (k_modes c) = APy m /\ at_path p upd = ATf u.
Proof.
  intros E B F Z G Wm Sm Nm upd us A L. destruct (fs_tensors _ _ _ _ _ F) as (_ & O & _). pose proof (alike_only spec _ _ A O) as Ou. destruct A as (W1 & W2 & A).
  assert (Eg : g_modes g = map snd (nflatten (k_modes c))).
  { unfold from_encoder, bind in G. repeat match type of G with (match ?x with _ => _ end) = Ok _ => destruct x; try discriminate G end. injection G as <-. reflexivity. }
  apply lists_values in L; [|exact W2|exact Ou]. subst us. rewrite Eg. unfold values, nflatten.
  assert (P : map fst (flatten_with_path (to_struct (k_modes c))) = map fst (flatten_with_path (to_struct upd))).
  { apply same_paths; [exact Wm|exact W2|]. intros q. specialize (A q). specialize (Sm q). specialize (Nm q). unfold leaf_at. split; intros [x H].
    - destruct (at_path q (k_modes c)) as [| |m|m] eqn:E1; try discriminate; [|now destruct (Nm m)]. destruct (proj1 Sm) as [u E2]; [eauto|]. rewrite E2 in A. destruct (at_path q upd); cbn in A; try tauto. eauto.
    - destruct (at_path q upd) as [| |u|u] eqn:E1; try discriminate; [now apply Ou in E1|]. destruct (at_path q (f_upd f)) as [| |v|v] eqn:E2; cbn in A; try tauto. destruct (proj2 Sm) as [m E3]; [eauto|]. rewrite E3. eauto. }
  split; [rewrite !map_length, <- (map_length fst (flatten_with_path (to_struct (k_modes c)))), P; apply map_length|].
  intros i m u H1 H2. rewrite !map_map in H1, H2. rewrite nth_error_map in H1, H2.
  destruct (nth_error (flatten_with_path (to_struct (k_modes c))) i) as [[p l]|] eqn:N1; [|discriminate]. destruct (nth_error (flatten_with_path (to_struct upd)) i) as [[p' l']|] eqn:N2; [|discriminate].
  assert (p = p') as <-.
  { pose proof (map_nth_error fst _ _ N1) as Q1. pose proof (map_nth_error fst _ _ N2) as Q2. cbn [fst] in Q1, Q2. rewrite P in Q1. congruence. }
  injection H1 as H1. injection H2 as H2. cbn [snd] in H1, H2. apply nth_error_In in N1, N2. pose proof N1 as N1'. unfold to_struct in N1. apply (in_struct _ _ Wm) in N1. destruct N1 as (q & _ & _ & -> & _).
  apply leaf_flat in N1'; [|exact Wm]. apply leaf_flat in N2; [|exact W2]. exists q. unfold leaf_at in *.
  destruct (at_path q (k_modes c)) as [| |x|x] eqn:E1; try discriminate; [|now destruct (Nm q x)]. destruct (at_path q upd) as [| |y|y] eqn:E2; try discriminate; [now apply Ou in E2|].
  injection N1' as <-. injection N2 as <-. cbn in H1, H2. now subst.
Qed.

(** C126: SimpleEncoder. *)
Theorem C126_simple_encoder_is_created x0 w0 : by_key c -> fixed_simple spec compatible c tspec f -> compatible tspec x0 = true ->
  exists m, make_simple c tspec x0 w0 = Ok m.
Proof. intros B F. exact (simple_creates spec compatible c tspec f B F x0 w0). Qed.
Theorem C126_round_trip m x0 w0 : by_key c -> fixed_simple spec compatible c tspec f -> compatible tspec x0 = true -> make_simple c tspec x0 w0 = Ok m ->
  forall w x st fs, compatible tspec x = true -> alike spec (f_st f) st -> lists st fs ->
  exists ep dp enc upd sh st' d fs', k_params c w st = Ok (ep, dp) /\ k_encode c w x ep = Ok (enc, upd, sh) /\ k_update c st upd = Ok st' /\
    m_encode compatible m w x fs = Ok (d, fs') /\ holds (encoded_parts enc dp sh) d /\ lists st' fs' /\ alike spec (f_st f) st' /\
    forall d', holds (encoded_parts enc dp sh) d' -> both eq (m_decode m d') (k_decode c enc dp sh).
Proof. intros B F C H. exact (simple_encode_ok spec compatible c tspec f B F m x0 w0 C H). Qed.
End C124.

(** ** A concrete encoder: one adaptive stage that multiplies by a factor kept in its state (with a Python parameter), and
    whose decoding commutes with sum.  Tensors are lists of integers, their spec is their length. *)
Module Toy.
Definition V := list Z.
Definition sp (v : V) : nat := List.length v.
Definition comp (s : nat) (v : V) : bool := Nat.eqb s (List.length v).
Definition get (v : dval V) (p : list string) : res V := match at_path p v with ATf x | APy x => Ok x | _ => Err KeyError end.
Definition node (k : string) (d : dict (dval V)) : dval V := DDict [(k, DDict d); ("children", DDict [])].
Definition mul (f x : V) : V := map (Z.mul (hd 1%Z f)) x.
Definition div (f z x : V) : V := map (fun z => Z.div z (hd 1%Z f)) x.
(** Non-zero values with their positions, and back. *)
Definition sparse (f x : V) : V := List.concat (map (fun iz => if Z.eqb (snd iz) 0 then [] else [Z.of_nat (fst iz); snd iz]) (combine (seq 0 (List.length x)) x)).
Fixpoint find (i : Z) (v : V) : Z := match v with j :: z :: r => if Z.eqb i j then z else find i r | _ => 0%Z end.
Definition scatter (f z v : V) : V := map (fun i => find (Z.of_nat i) v) (seq 0 (Z.to_nat (hd 0%Z z))).
Definition size (x : V) : V := [Z.of_nat (List.length x)].
Definition stage_core (enc : V -> V -> V) (dec : V -> V -> V -> V) : @core V string unit :=
  mkCore (DDict [("tensors", DDict [("peak", DPy "max")]); ("children", DDict [])])
    (node "state" [("factor", DPy [1%Z])])
    (fun _ st => do f <- get st ["state"; "factor"] ;; let p := node "params" [("factor", DTf f); ("bits", DPy [8%Z])] in Ok (p, p))
    (fun dp => do f <- get dp ["params"; "factor"] ;; do b <- get dp ["params"; "bits"] ;;
       Ok (DDict [("params", DPy []); ("children", DDict [])], node "params" [("factor", DTf f); ("bits", DPy b)]))
    (fun sh => do s <- get sh ["shape"] ;; Ok (DDict [("shape", DPy []); ("children", DDict [])], DDict [("shape", DPy s); ("children", DDict [])]))
    (fun _ x p => do f <- get p ["params"; "factor"] ;; do b <- get p ["params"; "bits"] ;;
       Ok (DDict [("values", DTf (enc f x))], node "tensors" [("peak", DTf [fold_right Z.max 0%Z x])], DDict [("shape", DPy (size x)); ("children", DDict [])]))
    (fun e p s => do v <- get e ["values"] ;; do f <- get p ["params"; "factor"] ;; do z <- get s ["shape"] ;; Ok (dec f z v))
    (fun e p s => do v <- get e ["values"] ;; Ok (DDict [("values", DTf v)]))
    (fun e p n s => do v <- get e ["values"] ;; do f <- get p ["params"; "factor"] ;; do z <- get s ["shape"] ;; Ok (dec f z v))
    (fun st u => do f <- get st ["state"; "factor"] ;; do m <- get u ["tensors"; "peak"] ;; Ok (node "state" [("factor", DTf [(hd 1 f + 1 + hd 0 m)%Z])])).
Lemma get_same v v' p : same v v' -> get v p = get v' p.
Proof. intros (_ & _ & H). unfold get. now rewrite H. Qed.
Ltac wfd := cbn; repeat split; repeat constructor; cbn; intuition discriminate.
Lemma stage_by_key enc dec : by_key (stage_core enc dec).
Proof.
  constructor; cbn [stage_core k_params k_split_params k_split_shapes k_encode k_decode k_before k_after k_update]; intros;
    repeat match goal with H : same ?a ?b |- context [get ?a ?p] => rewrite (get_same a b p H) end;
    repeat match goal with |- context [get ?a ?p] => destruct (get a p); cbn [bind]; [|reflexivity] end;
    cbn [both pairs fst snd]; unfold pairs; cbn [fst snd]; try reflexivity; repeat split; wfd.
Qed.
Definition frame1 : @frame V :=
  mkFrame (node "state" [("factor", DTf [1%Z])]) (node "params" [("factor", DTf [1%Z]); ("bits", DPy [8%Z])]) (node "params" [("factor", DTf [1%Z]); ("bits", DPy [8%Z])])
    (DDict [("params", DPy []); ("children", DDict [])]) (node "params" [("factor", DTf [1%Z]); ("bits", DPy [8%Z])])
    (DDict [("values", DTf [0%Z; 0%Z])]) (node "tensors" [("peak", DTf [0%Z])]) (DDict [("shape", DPy [2%Z]); ("children", DDict [])])
    (DDict [("shape", DPy []); ("children", DDict [])]) (DDict [("shape", DPy [2%Z]); ("children", DDict [])]) (DDict [("values", DTf [0%Z; 0%Z])]).
Lemma al_tf x y : sp x = sp y -> alike sp (DTf x) (DTf y).
Proof. intros H. repeat split. intros [|k q]; [exact H|exact I]. Qed.
Lemma al_py x : alike sp (DPy x) (DPy x).
Proof. repeat split. intros [|k q]; [reflexivity|exact I]. Qed.
Lemma al_dict (d e : dict (dval V)) : NoDup (dkeys d) -> Forall2 (fun a b => fst a = fst b /\ alike sp (snd a) (snd b)) d e -> alike sp (DDict d) (DDict e).
Proof.
  intros N F. assert (K : dkeys d = dkeys e) by (clear N; induction F as [|a b d e [H _] F IH]; [reflexivity|]; unfold dkeys in *; cbn; congruence).
  assert (Wd : (forall k v, In (k, v) d -> wf_dval v) /\ (forall k v, In (k, v) e -> wf_dval v)).
  { clear N K. induction F as [|[k1 a] [k2 b] d e [_ (W1 & W2 & _)] F [I1 I2]]; [split; intros ? ? []|]. split; intros k v [[= <- <-]|H]; eauto. }
  split; [apply wf_inv; split; [exact N|apply Wd]|]. split; [apply wf_inv; split; [now rewrite <- K|apply Wd]|]. intros [|k q]; [exact I|]. cbn [at_path]. clear N K Wd.
  induction F as [|[k1 a] [k2 b] d e [E (_ & _ & A)] F IH]; [exact I|]. cbn in E. subst k2. cbn [dget]. destruct (String.eqb k k1); [apply A|exact IH].
Qed.
Lemma get_tf v w p x : alike sp v w -> at_path p v = ATf x -> exists y, get w p = Ok y /\ sp y = sp x.
Proof. intros (_ & _ & A) H. specialize (A p). rewrite H in A. unfold get. destruct (at_path p w); cbn in A; try tauto. eauto. Qed.
Lemma get_py v w p x : alike sp v w -> at_path p v = APy x -> get w p = Ok x.
Proof. intros (_ & _ & A) H. specialize (A p). rewrite H in A. unfold get. destruct (at_path p w); cbn in A; try tauto. now subst. Qed.
Lemma get_arr (v w : dval V) p x : arranged v w -> at_path p v = ATf x -> exists y, get w p = Ok y.
Proof. intros (_ & _ & A) H. specialize (A p). rewrite H in A. unfold get. destruct (at_path p w); cbn in A; try tauto. eauto. Qed.
Ltac al := unfold node; repeat first [apply al_py | apply al_tf; unfold sp, mul, size in *; rewrite ?map_length; cbn [List.length] in *; congruence
  | apply al_dict; [cbn; repeat constructor; cbn; intuition discriminate|] | constructor | split; [reflexivity|]].
Ltac look H t := let y := fresh "y" in let E := fresh "E" in let L := fresh "L" in destruct (get_tf _ _ t _ H eq_refl) as (y & E & L); cbn [stage_core k_params k_split_params k_split_shapes k_encode k_decode k_before k_after k_update]; rewrite E; cbn [bind].
Ltac lookp H t := rewrite (get_py _ _ t _ H eq_refl); cbn [bind].
Ltac cb := cbn [stage_core k_params k_split_params k_split_shapes k_encode k_decode k_before k_after k_update].
Ltac no_dict := intros [|k0 [|k1 [|k2 p]]] k k' ch r H; cbn in H; repeat match type of H with context [String.eqb ?a ?b] => destruct (String.eqb_spec a b); subst; cbn in H end; try discriminate H; try (destruct p; discriminate H).
Lemma safe1 : slash_safe (f_enc frame1) /\ slash_safe (f_shb frame1) /\ slash_safe (f_part frame1) /\ slash_safe (f_dp frame1) /\ slash_safe (f_sh frame1).
Proof.
  repeat split; intros [|k0 [|k1 [|k2 p]]] k k' ch r H H' E; cbn in H, H';
    repeat match type of H with context [String.eqb ?a ?b] => destruct (String.eqb_spec a b); subst; cbn in H end; try discriminate H; try (destruct p; discriminate H);
    repeat match type of H' with context [String.eqb ?a ?b] => destruct (String.eqb_spec a b); subst; cbn in H' end; try congruence; vm_compute in E; congruence.
Qed.
Lemma fixed1 : fixed_structure sp comp (stage_core mul div) 2 frame1.
Proof.
  constructor.
  - split; [al|]. intros p x H. destruct p as [|a [|b [|d p]]]; cbn in H; try discriminate; repeat match type of H with context [String.eqb ?a ?b] => destruct (String.eqb a b); cbn in H end; try discriminate; destruct p; discriminate.
  - intros w st A. look A ["state"; "factor"]. do 2 eexists. split; [reflexivity|]. split; al.
  - intros dp A. cb. look A ["params"; "factor"]. lookp A ["params"; "bits"]. do 2 eexists. split; [reflexivity|]. split; al.
  - intros w x ep Cx A. look A ["params"; "factor"]. lookp A ["params"; "bits"]. apply Nat.eqb_eq in Cx. do 3 eexists. split; [reflexivity|]. split; [al|]. split; [al|]. unfold size. rewrite <- Cx. al.
  - intros sh A. cb. lookp A ["shape"]. do 2 eexists. split; [reflexivity|]. split; al.
  - intros enc bp shb A _ _. look A ["values"]. eexists. split; [reflexivity|]. al.
  - intros p ap n sha A Aa As. look A ["values"]. look Aa ["params"; "factor"]. lookp As ["shape"]. eexists. split; [reflexivity|]. unfold comp, div. rewrite map_length. unfold sp in *. cbn in *. rewrite L. reflexivity.
  - intros st u A Au. look A ["state"; "factor"]. destruct (get_arr _ _ ["tensors"; "peak"] _ Au eq_refl) as [m Em]. rewrite Em. cbn [bind]. eexists. split; [reflexivity|]. al.
  - repeat split.
  - repeat split; intros p x H; destruct p as [|a [|b [|d p]]]; cbn in H; try discriminate; repeat match type of H with context [String.eqb ?a ?b] => destruct (String.eqb a b); cbn in H end; try discriminate; try (destruct p; discriminate).
  - destruct safe1 as (? & ? & ? & _). auto.
Qed.
Lemma fixed1s : fixed_simple sp comp (stage_core mul div) 2 frame1.
Proof.
  constructor; try apply fixed1.
  - intros st u A Au. apply (fs_update _ _ _ _ _ fixed1 st u A). apply (alike_arranged sp); [exact Au|]. apply (fs_tensors _ _ _ _ _ fixed1).
  - destruct safe1 as (? & ? & ? & ? & ?). auto.
Qed.
Lemma toy_eager : eager sp comp.
Proof. intros x y. unfold comp. rewrite Nat.eqb_eq. unfold sp. tauto. Qed.
End Toy.

Example C124_example : exists g, from_encoder Toy.sp Toy.comp (Toy.stage_core Toy.mul Toy.div) 2 [0; 0]%Z tt = Ok g /\
  g_initial_state g = [[1%Z]] /\ g_modes g = ["max"] /\
  g_get_params Toy.comp g tt [[3%Z]] = Ok ([[3%Z]], [], [[3%Z]]) /\
  (exists d, g_encode Toy.comp g tt [5; 7]%Z [[3%Z]] = Ok (d, [[7%Z]]) /\ map snd d = [[15; 21]%Z] /\
     exists q, g_decode_before_sum Toy.comp g d [] = Ok q /\ g_decode_after_sum Toy.comp g q [[3%Z]] 1 = Ok [5; 7]%Z) /\
  g_update_state Toy.comp g [[3%Z]] [[7%Z]] = Ok [[11%Z]].
Proof. eexists. split; [vm_compute; reflexivity|]. repeat split. eexists. split; [vm_compute; reflexivity|]. split; [reflexivity|]. eexists. split; vm_compute; reflexivity. Qed.

(** Outside the hypotheses: an encoder whose encoded shape depends on the data (here: the non-zero values are sent with their
    positions; compare SplitBySmallValueEncodingStage).  Executing eagerly, the encoder is created, encodes, and then rejects
    what it encoded, although the underlying encoder decodes it. *)
Theorem C124_data_dependent_shapes_refuted :
  let c := Toy.stage_core Toy.sparse Toy.scatter in
  let ep := Toy.node "params" [("factor", DTf [1%Z]); ("bits", DPy [8%Z])] in
  by_key c /\ exists g d u, from_encoder Toy.sp Toy.comp c 2 [0; 0]%Z tt = Ok g /\ g_get_params Toy.comp g tt (g_initial_state g) = Ok ([[1%Z]], [], [[1%Z]]) /\
    g_encode Toy.comp g tt [0; 7]%Z [[1%Z]] = Ok (d, u) /\ g_decode_before_sum Toy.comp g d [] = Err ValueError /\
    exists enc upd sh, k_encode c tt [0; 7]%Z ep = Ok (enc, upd, sh) /\ k_decode c enc ep sh = Ok [0; 7]%Z.
Proof.
  intros c ep. split; [apply Toy.stage_by_key|]. do 3 eexists. split; [vm_compute; reflexivity|]. split; [vm_compute; reflexivity|]. split; [vm_compute; reflexivity|]. split; [vm_compute; reflexivity|].
  do 3 eexists. split; [vm_compute; reflexivity|]. vm_compute. reflexivity.
Qed.
Example C127_example : exists g, from_encoder Toy.sp Toy.comp (Toy.stage_core Toy.mul Toy.div) 2 [0; 0]%Z tt = Ok g /\
  g_get_params Toy.comp g tt [] = Err ValueError /\ g_get_params Toy.comp g tt [[1; 2]%Z] = Err ValueError /\
  g_encode Toy.comp g tt [1; 2; 3]%Z [[3%Z]] = Err ValueError /\ g_decode_before_sum Toy.comp g [] [] = Err ValueError /\
  g_decode_after_sum Toy.comp g (PT [1; 2]%Z) [[3%Z]] 1 = Err ValueError /\ g_update_state Toy.comp g [[3%Z]] [] = Err ValueError.
Proof. eexists. split; [vm_compute; reflexivity|]. repeat split; vm_compute; reflexivity. Qed.
Example C125_example : exists g, from_encoder Toy.sp Toy.comp (Toy.stage_core Toy.mul Toy.div) 2 [0; 0]%Z tt = Ok g /\
  (forall p, (exists m, at_path p (k_modes (Toy.stage_core Toy.mul Toy.div)) = APy m) <-> exists u, at_path p (f_upd Toy.frame1) = ATf u) /\
  by_key (Toy.stage_core Toy.mul Toy.div) /\ fixed_structure Toy.sp Toy.comp (Toy.stage_core Toy.mul Toy.div) 2 Toy.frame1 /\ eager Toy.sp Toy.comp.
Proof.
  eexists. split; [vm_compute; reflexivity|]. split; [|split; [apply Toy.stage_by_key|split; [exact Toy.fixed1|exact Toy.toy_eager]]].
  intros p. destruct p as [|a [|b [|d p]]]; cbn; repeat match goal with |- context [String.eqb ?a ?b] => destruct (String.eqb a b); cbn end; split; intros [? ?]; try discriminate; eauto.
Qed.
Example C126_example : fixed_simple Toy.sp Toy.comp (Toy.stage_core Toy.mul Toy.div) 2 Toy.frame1 /\
  exists m, make_simple (Toy.stage_core Toy.mul Toy.div) 2 [0; 0]%Z tt = Ok m /\
  exists d, m_encode Toy.comp m tt [5; 7]%Z [[3%Z]] = Ok (d, [[11%Z]]) /\ map snd d = [[15; 21]; [3]]%Z /\ m_decode m d = Ok [5; 7]%Z /\ m_decode m (rev d) = Ok [5; 7]%Z.
Proof. split; [exact Toy.fixed1s|]. eexists. split; [vm_compute; reflexivity|]. eexists. split; [vm_compute; reflexivity|]. split; [reflexivity|]. split; vm_compute; reflexivity. Qed.

Print Assumptions C124_gather_encoder_is_created.
Print Assumptions C124_initial_state.
Print Assumptions C124_get_params.
Print Assumptions C124_encode.
Print Assumptions C124_decode_before_sum.
Print Assumptions C124_decode_after_sum.
Print Assumptions C124_update_state.
Print Assumptions C124_data_dependent_shapes_refuted.
Print Assumptions C125_modes_belong_to_their_tensors.
Print Assumptions C126_simple_encoder_is_created.
Print Assumptions C126_round_trip.
Print Assumptions C127_wrong_state_rejected.
Print Assumptions C127_wrong_input_rejected.
Print Assumptions C127_wrong_encoding_rejected.
Print Assumptions C127_wrong_part_rejected.
Print Assumptions C127_wrong_number_of_updates_rejected.
