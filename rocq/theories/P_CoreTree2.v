(** C143: what every stage of an encoder tree receives, and where what it returns goes. *)
From Verif Require Import Base M_Encoder M_Dicts S_Dicts M_Gather S_Gather M_CoreTree S_CoreTree S_CoreTree2 L_CoreTree8 P_CoreTree.

Section C143.
Context {V M W0 : Type} (is_none : V -> bool) (none : V) (shape_of : V -> V).
Notation draws := (list string -> W0).

(** update_state: every stage is given its own state and its own update tensors, and what it returns is its next state. *)
Theorem C143_update_state : forall (e : aenc V M W0) st u st', c_update is_none e st u = Ok st' -> forall p s kids, stage_at p e s kids ->
  exists s0 u0 s1, holds_values st p "EncoderKeys.STATE" s0 /\ holds_values u p "EncoderKeys.TENSORS" u0 /\ a_update s s0 u0 = Ok s1 /\
    holds_tensors st' p "EncoderKeys.STATE" s1.
Proof. intros e st u st' H p s kids A. exact (each_update is_none p e s kids A st u st' H). Qed.
(** get_params: every stage is given its own state, and both its results are kept for it. *)
Theorem C143_get_params : forall (e : aenc V M W0) (w : draws) st ep dp, c_params is_none e w st = Ok (ep, dp) -> forall p s kids, stage_at p e s kids ->
  exists s0 a b, holds_values st p "EncoderKeys.STATE" s0 /\ a_params s (w p) s0 = Ok (a, b) /\
    holds_leaves ep p "EncoderKeys.PARAMS" a /\ holds_leaves dp p "EncoderKeys.PARAMS" b.
Proof. intros e w st ep dp H p s kids A. exact (each_params is_none p e s kids A w st ep dp H). Qed.
(** encode: the first stage gets the value, every other stage gets what its parent wrote under its key; each uses its own encode
    parameters, its update tensors are kept for it, the shape of its input is kept where it asks for it, and what no child
    encodes further is what is left in the encoded value. *)
Theorem C143_encode : forall (e : aenc V M W0), every_stage (fun _ => True) e -> forall (w : draws) x ep enc upd sh, c_encode is_none none shape_of e w x ep = Ok (enc, upd, sh) ->
  exists input : list string -> V, input [] = x /\ forall p s kids, stage_at p e s kids ->
    exists p0 en up, holds_values ep p "EncoderKeys.PARAMS" p0 /\ a_encode s (w p) (input p) p0 = Ok (en, up) /\
      holds_tensors upd p "EncoderKeys.TENSORS" up /\
      at_path (node p ++ ["EncoderKeys.SHAPE"]) sh = APy (if a_needs_shape s then shape_of (input p) else none) /\
      (forall k c, dget k kids = Some c -> dget k en = Some (input (p ++ [k]))) /\
      (forall k, dget k kids = None -> at_path (p ++ [k]) enc = match dget k en with Some y => ATf y | None => Nothing end).
Proof. exact (each_encode is_none none shape_of). Qed.
(** decode: every stage is given its own decode parameters and shape and, under each key, what the child there decoded, or what the
    encoded value holds; the first stage's result is the result. *)
Theorem C143_decode : forall (e : aenc V M W0), every_stage (fun _ => True) e -> forall enc dp sh y, complete e enc -> c_before is_none true e enc dp sh = Ok (DTf y) ->
  exists output : list string -> V, output [] = y /\ forall p s kids, stage_at p e s kids ->
    exists p0 o d, holds_values dp p "EncoderKeys.PARAMS" p0 /\ holds_shape is_none sh p o /\ a_decode s d p0 None o = Ok (output p) /\
      (forall k c, dget k kids = Some c -> dget k d = Some (output (p ++ [k]))) /\
      (forall k, dget k kids = None -> match dget k d with Some x => at_path (p ++ [k]) enc = ATf x \/ at_path (p ++ [k]) enc = APy x | None => at_path (p ++ [k]) enc = Nothing end).
Proof. exact (each_decode is_none). Qed.
(** ... and what encode makes is complete in that sense. *)
Theorem C143_encoded_is_complete : forall (e : aenc V M W0), every_stage (fun _ => True) e -> forall (w : draws) x ep enc upd sh,
  c_encode is_none none shape_of e w x ep = Ok (enc, upd, sh) -> complete e enc.
Proof. exact (encode_complete is_none none shape_of). Qed.
(** decode_before_sum: as long as all stages down to one commute with sums, what it encoded is left as it is; the first stage that
    does not commute is decoded to a single tensor. *)
Theorem C143_decode_before_sum : forall (e : aenc V M W0) enc dp sh part, c_before is_none false e enc dp sh = Ok part -> forall p s kids, deferred p e s kids ->
  (forall k rest, dget k kids = None -> at_path (p ++ k :: rest) part = at_path (p ++ k :: rest) enc) /\
  (forall k c, dget k kids = Some c -> a_commutes (top c) = false -> at_path (p ++ [k]) enc <> Nothing -> exists y, at_path (p ++ [k]) part = ATf y).
Proof. intros e enc dp sh part H p s kids A. exact (each_deferred is_none p e s kids A enc dp sh part H). Qed.
(** decode_after_sum: the stages down to which everything commutes are given the number of summands, their own decode parameters and
    shape and, under each key, what a commuting child decoded, or else what the summed part holds there; a tree whose first stage does
    not commute is left as it is. *)
Theorem C143_decode_after_sum : forall (e : aenc V M W0), every_stage (fun _ => True) e -> forall part dp n sh y, complete_part e part -> c_after is_none e part dp n sh = Ok (DTf y) ->
  (a_commutes (top e) = false -> part = DTf y) /\
  (a_commutes (top e) = true -> exists output : list string -> V, output [] = y /\ forall p s kids, deferred p e s kids ->
    exists p0 o d, holds_values dp p "EncoderKeys.PARAMS" p0 /\ holds_shape is_none sh p o /\ a_decode s d p0 (Some n) o = Ok (output p) /\
      (forall k c, dget k kids = Some c -> a_commutes (top c) = true -> dget k d = Some (output (p ++ [k]))) /\
      (forall k, (forall c, dget k kids = Some c -> a_commutes (top c) = false) ->
         match dget k d with Some x => at_path (p ++ [k]) part = ATf x \/ at_path (p ++ [k]) part = APy x | None => at_path (p ++ [k]) part = Nothing end)).
Proof.
  intros e E part dp n sh y Cv H. split.
  - intros C. symmetry. exact (after_done is_none e part dp n sh (DTf y) C H).
  - intros C. exact (each_after is_none e E C part dp n sh y Cv H).
Qed.
(** ... and what decode_before_sum leaves of a complete value is complete in that sense. *)
Theorem C143_part_is_complete : forall (e : aenc V M W0) enc dp sh part, c_before is_none false e enc dp sh = Ok part -> complete e enc -> complete_part e part.
Proof. intros e enc dp sh part H Ce p s kids k c A G. exact (part_complete is_none p e s kids A enc dp sh part H Ce k c G). Qed.
End C143.

(** The two-stage tree of P_CoreTree, after one update: every call succeeds and yields these values. *)
Import TreeToy.
Definition once := do st <- c_update isnone tree (c_initial tree)
    (DDict [("EncoderKeys.TENSORS", DDict [("n", DTf [1])]); ("EncoderKeys.CHILDREN", DDict [("values", DDict [("EncoderKeys.TENSORS", DDict []); ("EncoderKeys.CHILDREN", DDict [])])])]%Z) ;;
  do (ep, dp) <- c_params isnone tree w1 st ;; do (eu, sh) <- c_encode isnone [] shp tree w1 [1; 2; 3]%Z ep ;; let '(enc, upd) := eu in
  do part <- c_before isnone false tree enc dp sh ;; do y <- c_before isnone true tree enc dp sh ;;
  Ok (at_path ["EncoderKeys.STATE"; "factor"] st, at_path ["values"; "bits"] enc, at_path ["values"] part, at_path [] y,
      at_path ["EncoderKeys.CHILDREN"; "values"; "EncoderKeys.SHAPE"] sh).
Example C143_ex : every_stage (fun _ => True) tree /\ stage_at ["values"] tree (as_adaptive reverse) [] /\ deferred [] tree scale [("values", AEnc (as_adaptive reverse) [])] /\
  once = Ok (ATf [3], ATf [18; 17; 16], ATf [16; 17; 18], ATf [48; 51; 54], APy [3])%Z.
Proof.
  split. { constructor; [exact Logic.I|apply nd1|]. intros k e [H|[]]. injection H as <- <-. constructor; [exact Logic.I|constructor|intros k e []]. }
  split. { eapply at_child; [reflexivity|constructor]. } split. { constructor. reflexivity. } vm_compute. reflexivity.
Qed.

Print Assumptions C143_update_state.
Print Assumptions C143_get_params.
Print Assumptions C143_encode.
Print Assumptions C143_decode.
Print Assumptions C143_encoded_is_complete.
Print Assumptions C143_decode_before_sum.
Print Assumptions C143_decode_after_sum.
Print Assumptions C143_part_is_complete.
