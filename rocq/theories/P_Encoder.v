(** Properties C58-C62 and C74: encoder trees, their composition, nested dictionaries.  Statements only. *)
From Verif Require Import Base M_Encoder S_Encoder L_Encoder L_Commute M_Composer S_Composer L_Composer M_Dicts S_Dicts L_Dicts L_Keys.
From Coq Require Import Permutation Lia.

(** [full]: decode receives every parameter and every shape. *)
Theorem C58_lossless_trees : forall (T P Sh St : Type) (tshape : T -> Sh) (e : @encoder T P Sh St),
  every_stage (lossless_stage tshape) e ->
  forall st ep dp x ev sh, get_params e st = Ok (ep, dp) -> encode tshape e x ep = Ok (ev, sh) ->
  decode e (ED ev) (full dp) (full sh) = Ok x.
Proof. intros T P Sh St tshape. exact (tree_lossless tshape). Qed.
Print Assumptions C58_lossless_trees.

(** One summand: whatever decode returns, the two phases return together, each with the parameters and shapes that the
    commuting structure assigns to it. *)
Theorem C59_single_summand : forall (T P Sh St : Type) (e : @encoder T P Sh St),
  every_stage (fun s => s_commutes s = true -> forall d pr sh, s_decode s d pr (Some 1%Z) sh = s_decode s d pr None sh) e ->
  forall ev dp sh dpb dpa shb sha y,
  split_by_commuting_structure dp (commuting_structure e) = Ok (dpb, dpa) ->
  split_by_commuting_structure sh (commuting_structure e) = Ok (shb, sha) ->
  decode e ev (full dp) (full sh) = Ok y ->
  exists w, decode_before_sum e ev dpb shb = Ok w /\ decode_after_sum e w dpa 1 sha = Ok y.
Proof. intros T P Sh St. exact single_summand. Qed.
Print Assumptions C59_single_summand.
(** Any non-empty list [is] of summands: part-decode each, sum the part-decoded structures leaf by leaf ([esum]), decode
    after the sum: this is the sum of the full decodings.  [Tsum]: addition of tensors. *)
Theorem C59_sum_in_between : forall (T P Sh St I : Type) (is : list I) (Tsum : list T -> T -> Prop), is <> [] ->
  forall e : @encoder T P Sh St, every_stage (declared_commutation is Tsum) e ->
  forall (ev : I -> evalue) (st : tree St) (ep dp : tree P) (sh : I -> tree (option Sh)) dpb dpa (shb : I -> tree (option (option Sh))) sha (ys : I -> T),
  get_params e st = Ok (ep, dp) ->
  split_by_commuting_structure dp (commuting_structure e) = Ok (dpb, dpa) ->
  (forall i, In i is -> split_by_commuting_structure (sh i) (commuting_structure e) = Ok (shb i, sha)) ->
  (forall i, In i is -> decode e (ev i) (full dp) (full (sh i)) = Ok (ys i)) ->
  exists ws : I -> evalue,
    (forall i, In i is -> decode_before_sum e (ev i) dpb (shb i) = Ok (ws i)) /\
    forall W, esum is Tsum ws W ->
    exists Y, decode_after_sum e W dpa (Z.of_nat (List.length is)) sha = Ok Y /\ Tsum (map ys is) Y.
Proof. intros T P Sh St I is Tsum N e. exact (sum_theorem is Tsum N e). Qed.
Print Assumptions C59_sum_in_between.

(** A concrete tree: the root adds an offset (commutes with sums, needs the number of summands), its child stores sign and
    magnitude (does not commute). *)
Definition ex_offset : @stage Z Z unit unit :=
  mkStage true false (fun _ => (3, 3)%Z) (fun x p => Ok [("v", (x - p)%Z)])
    (fun d p n _ => do v <- dindex "v" d ;; Ok (v + p * match n with Some k => k | None => 1 end)%Z).
Definition ex_sign : @stage Z Z unit unit :=
  mkStage false true (fun _ => (0, 0)%Z) (fun x p => Ok [("m", Z.abs x); ("s", Z.sgn x)])
    (fun d p _ _ => do m <- dindex "m" d ;; do s <- dindex "s" d ;; Ok (m * s)%Z).
Definition ex_tree : @encoder Z Z unit unit := Enc ex_offset [("v", Enc ex_sign [])].
Definition ex_state : tree unit := Node tt [("v", Node tt [])].
Definition zsum (ts : list Z) (t : Z) : Prop := t = fold_right Z.add 0%Z ts.
Example C58_ex : every_stage (lossless_stage (fun _ : Z => tt)) ex_tree /\
  exists ep dp, get_params ex_tree ex_state = Ok (ep, dp) /\
  exists ev sh, encode (fun _ : Z => tt) ex_tree 1%Z ep = Ok (ev, sh) /\ ev = [("v", ED [("m", ET 2%Z); ("s", ET (-1)%Z)])] /\
  decode ex_tree (ED ev) (full dp) (full sh) = Ok 1%Z.
Proof.
  split.
  - split; [|split; [repeat constructor; intros []|split; [|exact Logic.I]]].
    + intros st x d. cbn. intros [= <-]. split; [repeat constructor; intros []|]. cbn. f_equal. lia.
    + split; [|split; [constructor|exact Logic.I]]. intros st x d. cbn. intros [= <-]. split; [repeat constructor; cbn; intuition discriminate|].
      cbn. f_equal. lia.
  - do 2 eexists. split; [reflexivity|]. do 2 eexists. split; [reflexivity|]. split; reflexivity.
Qed.
Example C59_ex : every_stage (declared_commutation [1%Z; (-7)%Z] zsum) ex_tree /\
  exists ep dp dpb dpa, get_params ex_tree ex_state = Ok (ep, dp) /\
  split_by_commuting_structure dp (commuting_structure ex_tree) = Ok (dpb, dpa) /\
  exists e1 e2 sh shb sha, encode (fun _ : Z => tt) ex_tree 1%Z ep = Ok (e1, sh) /\ encode (fun _ : Z => tt) ex_tree (-7)%Z ep = Ok (e2, sh) /\
  split_by_commuting_structure sh (commuting_structure ex_tree) = Ok (shb, sha) /\
  decode_before_sum ex_tree (ED e1) dpb shb = Ok (ED [("v", ET (-2)%Z)]) /\
  decode_before_sum ex_tree (ED e2) dpb shb = Ok (ED [("v", ET (-10)%Z)]) /\
  decode_after_sum ex_tree (ED [("v", ET (-12)%Z)]) dpa 2%Z sha = Ok (-6)%Z.
Proof.
  split.
  - split; [|split; [repeat constructor; intros []|split; [|exact Logic.I]]].
    + intros _ ds d pr sh ys p0 S D. apply (tdsum_get _ _ "v") in S. pose proof (D 1%Z (or_introl eq_refl)) as D1.
      pose proof (D (-7)%Z (or_intror (or_introl eq_refl))) as D2. cbn in D1, D2. unfold dindex in *. cbn. unfold dindex.
      destruct (dget "v" d) as [t|].
      * destruct S as (ts & A & B). rewrite (A 1%Z) in D1 by (cbn; auto). rewrite (A (-7)%Z) in D2 by (cbn; auto).
        cbn in D1, D2, B. injection D1 as D1. injection D2 as D2. eexists. split; [reflexivity|]. unfold zsum in *. cbn in *. lia.
      * rewrite (S 1%Z) in D1 by (cbn; auto). discriminate D1.
    + split; [|split; [constructor|exact Logic.I]]. intros H; discriminate H.
  - do 4 eexists. split; [reflexivity|]. split; [reflexivity|]. do 5 eexists. repeat split; reflexivity.
Qed.

(** The GatherEncoder property is the number of commuting stages, a truth value that is wrong as soon as the root commutes
    but some stage below does not. *)
Theorem C60_gather_flag_refuted : exists e : @encoder Z Z unit unit,
  every_stage (fun _ => True) e /\ gather_fully_commutes e <> 0%nat /\ ~ every_stage (fun s => s_commutes s = true) e.
Proof.
  exists ex_tree. split; [repeat constructor; intros []|]. split; [discriminate|]. intros (_ & _ & ((H & _) & _)). discriminate H.
Qed.
Print Assumptions C60_gather_flag_refuted.
(** What does hold: Encoder.fully_commutes_with_sum is right, the GatherEncoder value is truthy iff the root stage commutes,
    is at most the number of stages and equals it iff every stage commutes. *)
Theorem C60_flags_partial : forall (T P Sh St : Type) (e : @encoder T P Sh St), every_stage (fun _ => True) e ->
  (fully_commutes e = true <-> every_stage (fun s => s_commutes s = true) e) /\
  (gather_fully_commutes e <> 0%nat <-> root_commutes e = true) /\
  (gather_fully_commutes e <= num_stages e)%nat /\
  (gather_fully_commutes e = num_stages e <-> every_stage (fun s => s_commutes s = true) e).
Proof.
  intros T P Sh St e W. split; [exact (fully_iff e W)|]. split; [exact (gather_zero_iff e)|]. split; [exact (count_le e true)|exact (gather_full_iff e W)].
Qed.
Print Assumptions C60_flags_partial.
Example C60_ex : every_stage (fun _ => True) ex_tree /\ gather_fully_commutes ex_tree = 1%nat /\ num_stages ex_tree = 2%nat /\ fully_commutes ex_tree = false.
Proof. split; [repeat constructor; intros []|]. repeat split. Qed.

(** Splitting a nested dictionary into Python and TensorFlow values and merging them, in either order, has at every path
    what the dictionary had; each half keeps every dictionary level and exactly its own leaves. *)
Theorem C61_split_merge : forall (V : Type) (d : dict (dval V)), wf_dval (DDict d) ->
  exists a b, split_dict_py_tf (DDict d) = Ok (a, b) /\
  (exists m, merge_dicts a b = Ok m /\ forall p, at_path p m = at_path p (DDict d)) /\
  (exists m, merge_dicts b a = Ok m /\ forall p, at_path p m = at_path p (DDict d)) /\
  (forall p, at_path p a = match at_path p (DDict d) with ATf _ => Nothing | x => x end) /\
  (forall p, at_path p b = match at_path p (DDict d) with APy _ => Nothing | x => x end).
Proof. intros V. exact split_merge. Qed.
Print Assumptions C61_split_merge.
Theorem C61_merge_values : forall (V : Type) (a b m : dval V), wf_dval a -> wf_dval b -> merge_dicts a b = Ok m ->
  forall p, at_path p m = or_else (at_path p a) (at_path p b).
Proof. intros V a b m. exact (merge_values a b m). Qed.
Print Assumptions C61_merge_values.
Theorem C61_merge_rejects_conflicts : forall (V : Type) (a b : dval V), wf_dval a -> wf_dval b ->
  (is_ok (merge_dicts a b) = true <-> corresponding a b).
Proof. intros V a b. exact (merge_ok_iff a b). Qed.
Print Assumptions C61_merge_rejects_conflicts.
(** The error is a TypeError when an argument is not a dictionary, and a ValueError for dictionaries of different structure. *)
Theorem C61_error_kinds : forall (V : Type) (a b : dval V) e, merge_dicts a b = Err e ->
  e = if is_dict a && is_dict b then ValueError else TypeError.
Proof.
  intros V a b e H. destruct a as [x|x|d1]; [destruct b; cbn in *; congruence|destruct b; cbn in *; congruence|].
  destruct b as [y|y|d2]; [cbn in *; congruence|cbn in *; congruence|]. cbn [is_dict andb]. exact (merge_err (DDict d1) d2 e eq_refl H).
Qed.
Print Assumptions C61_error_kinds.
Theorem C61_split_error : forall (V : Type) (a : dval V), is_dict a = false -> split_dict_py_tf a = Err TypeError.
Proof. intros V [x|x|d] H; [reflexivity|reflexivity|discriminate]. Qed.
Print Assumptions C61_split_error.
Example C61_ex : let d := [("a", DPy 1); ("b", DDict [("c", DTf 2); ("d", DPy 3)])]%nat in
  split_dict_py_tf (DDict d) = Ok (DDict [("a", DPy 1); ("b", DDict [("d", DPy 3)])], DDict [("b", DDict [("c", DTf 2)])])%nat /\
  merge_dicts (DDict [("a", DPy 1); ("b", DDict [("d", DPy 3)])]) (DDict [("b", DDict [("c", DTf 2)])])%nat
    = Ok (DDict [("a", DPy 1); ("b", DDict [("d", DPy 3); ("c", DTf 2)])])%nat /\
  merge_dicts (DDict [("a", DPy 1)]) (DDict [("a", DTf 1)])%nat = Err ValueError.
Proof. repeat split; reflexivity. Qed.

(** [fd]: the flat dictionary the user hands back: the keys of the encoded structure in any order, any values.  If no key of
    a dictionary is continued in a sibling key by '/' or a character collating before it, repacking puts each value at the path that its key names. *)
Theorem C62_repacked_at_own_key_partial : forall (V : Type) (s : struct V) (fd : list (key * V)), joinable 47 s ->
  Permutation (map fst fd) (map fst (flatten_with_joined_string_paths s)) ->
  exists r, pack_sequence_as s (nest_flatten_flat fd) = Ok r /\ map fst r = map fst (flatten_with_path s) /\
    forall p v, In (p, v) r -> In (join 47 p, v) fd.
Proof. intros V. exact repack. Qed.
Print Assumptions C62_repacked_at_own_key_partial.
(** Keys "a" (holding "x") and "a-b": flattening the structure's own encoding and repacking swaps the two tensors. *)
Theorem C62_repacked_at_own_key_refuted : exists (s : struct nat) r,
  pack_sequence_as s (nest_flatten_flat (flatten_with_joined_string_paths s)) = Ok r /\
  NoDup (map fst (flatten_with_joined_string_paths s)) /\ r <> flatten_with_path s /\
  exists p v, In (p, v) r /\ ~ In (join 47 p, v) (flatten_with_joined_string_paths s).
Proof.
  exists (Tree [([97], Tree [([120], Leaf 1)]); ([97; 45; 98], Leaf 2)])%nat. eexists. split; [reflexivity|].
  split; [repeat constructor; cbn; intuition discriminate|]. split; [discriminate|].
  exists [[97]; [120]]%nat, 2%nat. split; [now left|]. cbn. intuition discriminate.
Qed.
Print Assumptions C62_repacked_at_own_key_refuted.
Example C62_ex : let s := Tree [([98], Leaf 1); ([97], Tree [([121], Leaf 2); ([120; 122], Leaf 3)])]%nat in
  joinable 47 s /\ flatten_with_joined_string_paths s = [([97; 47; 120; 122], 3); ([97; 47; 121], 2); ([98], 1)]%nat /\
  pack_sequence_as s (nest_flatten_flat [([98], 10); ([97; 47; 121], 20); ([97; 47; 120; 122], 30)]%nat)
    = Ok [([[97]; [120; 122]], 30); ([[97]; [121]], 20); ([[98]], 10)]%nat.
Proof.
  split; [|split; reflexivity]. cbn. repeat split; try (repeat constructor; cbn; intuition discriminate).
  intros k c k' [[=]|[[= <- _]|[]]] [<-|[<-|[]]] ch r E; discriminate.
Qed.

(** Composers: after any sequence of operations on composer objects (also failing ones, also on nodes that already have
    parents) every composer object can be made into an encoder - the recursion is at most as deep as there are objects -
    whose children sit at distinct keys that their parent's stage declares compressible. *)
Theorem C74_make : forall (T P Sh St : Type) (compressible : @stage T P Sh St -> list string) ops i,
  (i < List.length (crun compressible ops))%nat ->
  exists e, make (List.length (crun compressible ops)) (crun compressible ops) i = Ok e /\ respects compressible e.
Proof. intros T P Sh St. exact make_total. Qed.
Print Assumptions C74_make.
(** Encoding with such an encoder never fails: the initial state, every updated state, the parameters and the encoding have
    an entry for every stage. *)
Theorem C74_encode_total : forall (T P Sh St U : Type) (compressible : @stage T P Sh St -> list string) (tshape : T -> Sh)
  (init : @stage T P Sh St -> St) (upd : @stage T P Sh St -> St -> U -> St) (e : @encoder T P Sh St),
  respects compressible e ->
  fits (initial_state init e) e /\
  (forall st u, fits st e -> fits u e -> exists st', update_state upd e st u = Ok st' /\ fits st' e) /\
  (forall st, fits st e -> exists ep dp, get_params e st = Ok (ep, dp) /\ fits ep e /\ fits dp e) /\
  (every_stage (provides compressible) e -> forall x ep, fits ep e -> exists ev sh, encode tshape e x ep = Ok (ev, sh)).
Proof.
  intros T P Sh St U compressible tshape init upd e R. split; [exact (fits_initial compressible init e R)|].
  split; [exact (fits_update compressible upd e R)|]. split; [exact (params_total compressible e R)|exact (encode_total compressible tshape e R)].
Qed.
Print Assumptions C74_encode_total.
(** add_child and add_parent raise KeyError exactly when the key is not compressible or already taken. *)
Theorem C74_key_errors : forall (S : Type) (compressible : S -> list string) h i s0 kids s k, nth_error h i = Some (s0, kids) ->
  (add_child compressible h i s k = Err KeyError <-> ~ In k (compressible s0) \/ In k (dkeys kids)) /\
  (add_parent compressible h i s k = Err KeyError <-> ~ In k (compressible s)).
Proof. exact (@add_errors). Qed.
Print Assumptions C74_key_errors.
Definition ex_compressible (s : @stage Z Z unit unit) : list string := if s_commutes s then ["v"] else ["m"; "s"].
Example C74_ex : make 3 (crun ex_compressible [New ex_sign; AddChild 0 ex_offset "x"; AddParent 0 ex_offset "v"; AddChild 0 ex_offset "m"]) 1
  = Ok (Enc ex_offset [("v", Enc ex_sign [("m", Enc ex_offset [])])]).
Proof. reflexivity. Qed.
