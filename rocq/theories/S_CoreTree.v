(** When stages behave: what GatherEncoder and SimpleEncoder need from the encoding stages of an encoder tree. *)
From Verif Require Import Base M_Encoder M_Dicts S_Dicts M_Gather S_Gather M_CoreTree.

Section Spec.
Context {V Sp M W0 : Type} (spec : V -> Sp) (is_none : V -> bool) (shape_of : V -> V).
Notation astage := (astage V M W0).
Notation aenc := (aenc V M W0).

(** The same items, in any order. *)
Definition same_items {A} (d d' : dict A) : Prop := NoDup (dkeys d) /\ NoDup (dkeys d') /\ forall k, dget k d = dget k d'.
(** The same keys, and related values. *)
Definition items {A B} (R : A -> B -> Prop) (d : dict A) (d' : dict B) : Prop :=
  NoDup (dkeys d) /\ NoDup (dkeys d') /\ forall k, match dget k d, dget k d' with Some a, Some b => R a b | None, None => True | _, _ => False end.
Definition same_spec (x y : V) : Prop := spec x = spec y.
Definition same_leaf (l l' : leaf V) : Prop := fst l = fst l' /\ if fst l then spec (snd l) = spec (snd l') else snd l = snd l'.
(** [x] is the leaf [l] converted to a tensor: a Python value is known, of a tensor only shape and dtype. *)
Definition converted (l : leaf V) (x : V) : Prop := if fst l then spec (snd l) = spec x else snd l = x.

(** The stage looks its dictionaries up by key. *)
Record stage_by_key (s : astage) : Prop := {
  sk_update : forall st st' u u', same_items st st' -> same_items u u' -> both same_items (a_update s st u) (a_update s st' u');
  sk_params : forall w st st', same_items st st' -> both (pairs same_items same_items) (a_params s w st) (a_params s w st');
  sk_encode : forall w x p p', same_items p p' -> both (pairs same_items same_items) (a_encode s w x p) (a_encode s w x p');
  sk_decode : forall d d' p p' n sh, same_items d d' -> same_items p p' -> both eq (a_decode s d p n sh) (a_decode s d' p' n sh) }.
(** ... and so does every stage of a tree; children have distinct keys (a Python dictionary). *)
Inductive every_stage (P : astage -> Prop) : aenc -> Prop :=
| ES s kids : P s -> NoDup (dkeys kids) -> (forall k e, In (k, e) kids -> every_stage P e) -> every_stage P (AEnc s kids).

(** Fixed structure of one stage on inputs of spec [sp]: keys, Python values, shapes and dtypes (those of the frame) do not
    depend on the state, the random draws or the data; the methods succeed, and decoding gives back the spec of the input. *)
Record stage_frame := mkSF { sf_st : dict V; sf_ep : dict (leaf V); sf_dp : dict (leaf V); sf_enc : dict V; sf_upd : dict V }.
Definition usable (d : dict (leaf V)) : Prop := forall k x, dget k d = Some (false, x) -> is_none x = false.
Record stage_fixed (s : astage) (sp : Sp) (f : stage_frame) : Prop := {
  sx_keys : NoDup (dkeys (sf_st f)) /\ NoDup (dkeys (sf_ep f)) /\ NoDup (dkeys (sf_dp f)) /\ NoDup (dkeys (sf_enc f)) /\ NoDup (dkeys (sf_upd f));
  sx_initial : items (fun x (l : leaf V) => spec x = spec (snd l)) (sf_st f) (a_initial s);
  sx_params : forall w st, items same_spec (sf_st f) st -> exists ep dp, a_params s w st = Ok (ep, dp) /\ items same_leaf (sf_ep f) ep /\ items same_leaf (sf_dp f) dp;
  sx_usable : usable (sf_ep f) /\ usable (sf_dp f);
  sx_encode : forall w x p, spec x = sp -> items converted (sf_ep f) p ->
    exists enc upd, a_encode s w x p = Ok (enc, upd) /\ items same_spec (sf_enc f) enc /\ items same_spec (sf_upd f) upd;
  sx_decode : forall d p n x, items same_spec (sf_enc f) d -> items converted (sf_dp f) p -> spec x = sp ->
    exists y, a_decode s d p n (if a_needs_shape s then Some (shape_of x) else None) = Ok y /\ spec y = sp;
  sx_update : forall st u, items same_spec (sf_st f) st -> items (fun _ _ => True) (sf_upd f) u -> exists st', a_update s st u = Ok st' /\ items same_spec (sf_st f) st' }.

(** A tree of such stages: the child under a key encodes what the stage writes under that key; no key of a child is continued
    in another key of the stage's encoding by '/' or a character collating before it. *)
Inductive fixed_tree : aenc -> Sp -> Prop :=
| FT s kids sp f (at_key : string -> V) :
    stage_fixed s sp f -> NoDup (dkeys kids) ->
    (forall k e, In (k, e) kids -> dget k (sf_enc f) = Some (at_key k)) ->
    (forall k e, In (k, e) kids -> fixed_tree e (spec (at_key k))) ->
    (forall k k' ch r, In k (dkeys kids) -> In k' (dkeys (sf_enc f)) -> codes k' = codes k ++ ch :: r -> (47 < ch)%nat) ->
    fixed_tree (AEnc s kids) sp.

(** Shapes are static and never None; None is None. *)
Definition static_shapes : Prop := (forall x y, spec x = spec y -> shape_of x = shape_of y) /\ forall x, is_none (shape_of x) = false.

(** ** Sums.  [tsum] adds up tensors. *)
Context (tsum : list V -> V).
(** Decoding parameters the stage draws itself, converted to tensors. *)
Definition drawn (s : astage) (p : dict V) : Prop := exists w st ep dp, a_params s w st = Ok (ep, dp) /\ p = kmap (fun _ (l : leaf V) => snd l) dp.
(** Dictionaries of the same keys, added up key by key. *)
Definition dict_sum (ds : list (dict V)) (D : dict V) : Prop :=
  NoDup (dkeys D) /\ (forall d, In d ds -> NoDup (dkeys d)) /\
  forall k, match dget k D with Some t => exists ts, map (dget k) ds = map Some ts /\ t = tsum ts | None => forall d, In d ds -> dget k d = None end.
(** A stage that declares that it commutes with sums does: decoding the sum of encodings of the same shapes and dtypes gives the sum of the decoded values. *)
Definition commutes_with_sum (s : astage) : Prop :=
  a_commutes s = true -> forall ds ys D p sh, ds <> [] -> drawn s p -> (forall d d', In d ds -> In d' ds -> items same_spec d d') -> dict_sum ds D -> Forall2 (fun d y => a_decode s d p None sh = Ok y) ds ys ->
  a_decode s D p (Some (Z.of_nat (List.length ds))) sh = Ok (tsum ys).
(** The sum of tensors of one shape and dtype has it too; the sum of one tensor is the tensor. *)
Definition proper_sum : Prop := (forall t, tsum [t] = t) /\ forall ts s, ts <> [] -> (forall t, In t ts -> spec t = s) -> spec (tsum ts) = s.
(** Part-decoded values added up: tensors, or flat dictionaries of the same keys. *)
Definition part_sum (qs : list (@part V)) (q : @part V) : Prop :=
  match q with
  | PT t => exists ts, qs = map PT ts /\ t = tsum ts
  | PD D => exists ds, qs = map PD ds /\ NoDup (map fst D) /\ forall k t, In (k, t) D <-> exists ts, Forall2 (fun d x => In (k, x) d) ds ts /\ t = tsum ts
  end.
(** Every stage names an aggregation mode for exactly the update tensors it returns. *)
Definition modes_match (s : astage) : Prop := NoDup (dkeys (a_modes s)) /\
  forall w x p enc upd, a_encode s w x p = Ok (enc, upd) -> forall k, In k (dkeys upd) <-> In k (dkeys (a_modes s)).
(** The flat states that can arise: the initial one, and what update_state makes of one of them. *)
Context (compatible : Sp -> V -> bool).
Inductive reached {W} (g : @gather V Sp M W) : list V -> Prop :=
| R0 : reached g (g_initial_state g)
| R1 fs us fs' : reached g fs -> g_update_state compatible g fs us = Ok fs' -> reached g fs'.
Inductive reached_simple {W} (m : @simple V Sp M W) : list V -> Prop :=
| Q0 : reached_simple m (m_initial_state m)
| Q1 fs w x d fs' : reached_simple m fs -> m_encode compatible m w x fs = Ok (d, fs') -> reached_simple m fs'.
(** What GatherEncoder and SimpleEncoder are given: specs are concrete (eager execution), the stages read by key and have
    fixed structure on inputs like [zeros]. *)
Definition well_behaved (none : V) (e : aenc) (zeros : V) : Prop :=
  (forall x y, compatible (spec x) y = true <-> spec x = spec y) /\ static_shapes /\ is_none none = true /\ every_stage stage_by_key e /\ fixed_tree e (spec zeros).
End Spec.
