(** Specification vocabulary for GatherEncoder and SimpleEncoder: nested dictionaries are looked at only through what they
    hold at each path ([at_path], S_Dicts). *)
From Coq Require Import Sorted.
From Verif Require Import Base M_Encoder M_Dicts S_Dicts M_Gather.

(** Order of paths: Python's order of keys (code points), key by key. *)
Fixpoint key_lt (a b : key) : Prop :=
  match a, b with
  | [], [] => False | [], _ :: _ => True | _ :: _, [] => False
  | x :: a', y :: b' => (x < y)%nat \/ (x = y /\ key_lt a' b')
  end.
Fixpoint path_lt (p q : list string) : Prop :=
  match p, q with k :: p', k' :: q' => key_lt (codes k) (codes k') \/ (k = k' /\ path_lt p' q') | _, _ => False end.
Definition slash_path (p : list string) : key := join 47 (map codes p).

Section Spec.
Context {V Sp M W : Type} (spec : V -> Sp) (compatible : Sp -> V -> bool).
Notation dval := (dval V).

(** The same dictionary (the order of keys does not matter). *)
Definition same (v w : dval) : Prop := wf_dval v /\ wf_dval w /\ forall p, at_path p v = at_path p w.
(** The same structure, the same Python values, tensors of the same shapes and dtypes. *)
Definition like (f g : @found V) : Prop :=
  match f, g with
  | Nothing, Nothing | ADict, ADict => True
  | APy x, APy y => x = y
  | ATf x, ATf y => spec x = spec y
  | _, _ => False
  end.
Definition alike (v w : dval) : Prop := wf_dval v /\ wf_dval w /\ forall p, like (at_path p v) (at_path p w).
(** The same structure only. *)
Definition shaped (f g : @found V) : Prop :=
  match f, g with Nothing, Nothing | ADict, ADict | ATf _, ATf _ => True | _, _ => False end.
Definition arranged (v w : dval) : Prop := wf_dval v /\ wf_dval w /\ forall p, shaped (at_path p v) (at_path p w).
Definition only_tensors (v : dval) : Prop := forall p x, at_path p v <> APy x.

(** [l] lists the tensors of [v] in the order of their paths. *)
Definition lists (v : dval) (l : list V) : Prop :=
  exists ps, StronglySorted path_lt ps /\ List.length ps = List.length l /\ forall p x, In (p, x) (combine ps l) <-> at_path p v = ATf x.
(** [d] holds the tensors of [v], each under its path written with slashes (in any order). *)
Definition holds (v : dval) (d : list (key * V)) : Prop :=
  NoDup (map fst d) /\ forall k x, In (k, x) d <-> exists p, k = slash_path p /\ at_path p v = ATf x.
Definition part_of (v : dval) (p : part) : Prop :=
  match p with PT x => at_path [] v = ATf x | PD d => at_path [] v = ADict /\ holds v d end.
(** No key of a dictionary is continued in a sibling key by '/' or a character collating before it. *)
Definition slash_safe (v : dval) : Prop :=
  forall p k k' ch r, at_path (p ++ [k]) v = ADict -> at_path (p ++ [k']) v <> Nothing -> codes k' = codes k ++ ch :: r -> (47 < ch)%nat.

(** Both fail (which of several errors is met first may depend on the order of keys), or both succeed with related results. *)
Definition both {A} (R : A -> A -> Prop) (x y : res A) : Prop := match x, y with Ok a, Ok b => R a b | Err _, Err _ => True | _, _ => False end.
Definition pairs {A B} (R : A -> A -> Prop) (Q : B -> B -> Prop) (x y : A * B) : Prop := R (fst x) (fst y) /\ Q (snd x) (snd y).

(** The methods of an Encoder read dictionaries by key only. *)
Record by_key (c : @core V M W) : Prop := {
  bk_params : forall w st st', same st st' -> both (pairs same same) (k_params c w st) (k_params c w st');
  bk_split_params : forall v v', same v v' -> both (pairs same same) (k_split_params c v) (k_split_params c v');
  bk_split_shapes : forall v v', same v v' -> both (pairs same same) (k_split_shapes c v) (k_split_shapes c v');
  bk_encode : forall w x p p', same p p' -> both (pairs (pairs same same) same) (k_encode c w x p) (k_encode c w x p');
  bk_decode : forall e e' p p' s s', same e e' -> same p p' -> same s s' -> both eq (k_decode c e p s) (k_decode c e' p' s');
  bk_before : forall e e' p p' s s', same e e' -> same p p' -> same s s' -> both same (k_before c e p s) (k_before c e' p' s');
  bk_after : forall e e' p p' n s s', same e e' -> same p p' -> same s s' -> both eq (k_after c e p n s) (k_after c e' p' n s');
  bk_update : forall st st' u u', same st st' -> same u u' -> both same (k_update c st u) (k_update c st' u')
}.

(** Fixed structure: whatever the state, the random draws and the input (of the declared shape and dtype), the methods
    succeed and their results have the structure, Python values, shapes and dtypes of those in the frame. *)
Record frame := mkFrame {
  f_st : dval; f_ep : dval; f_dp : dval; f_bp : dval; f_ap : dval; f_enc : dval; f_upd : dval; f_sh : dval; f_shb : dval; f_sha : dval; f_part : dval }.
Record fixed_structure (c : @core V M W) (tspec : Sp) (f : frame) : Prop := {
  fs_initial : alike (f_st f) (tensors (k_initial c)) /\ only_tensors (f_st f);
  fs_params : forall w st, alike (f_st f) st -> exists ep dp, k_params c w st = Ok (ep, dp) /\ alike (f_ep f) ep /\ alike (f_dp f) dp;
  fs_split_params : forall dp, alike (f_dp f) dp -> exists bp ap, k_split_params c dp = Ok (bp, ap) /\ alike (f_bp f) bp /\ alike (f_ap f) ap;
  fs_encode : forall w x ep, compatible tspec x = true -> alike (f_ep f) ep ->
    exists enc upd sh, k_encode c w x ep = Ok (enc, upd, sh) /\ alike (f_enc f) enc /\ alike (f_upd f) upd /\ alike (f_sh f) sh;
  fs_split_shapes : forall sh, alike (f_sh f) sh -> exists shb sha, k_split_shapes c sh = Ok (shb, sha) /\ alike (f_shb f) shb /\ alike (f_sha f) sha;
  fs_before : forall enc bp shb, alike (f_enc f) enc -> alike (f_bp f) bp -> alike (f_shb f) shb -> exists p, k_before c enc bp shb = Ok p /\ alike (f_part f) p;
  fs_after : forall p ap n sha, alike (f_part f) p -> alike (f_ap f) ap -> alike (f_sha f) sha ->
    exists y, k_after c p ap n sha = Ok y /\ compatible tspec y = true;
  fs_update : forall st u, alike (f_st f) st -> arranged (f_upd f) u -> exists st', k_update c st u = Ok st' /\ alike (f_st f) st';
  fs_dicts : at_path [] (f_ep f) = ADict /\ at_path [] (f_bp f) = ADict /\ at_path [] (f_ap f) = ADict /\ at_path [] (f_enc f) = ADict /\
             at_path [] (f_shb f) = ADict /\ at_path [] (f_sha f) = ADict;
  fs_tensors : only_tensors (f_enc f) /\ only_tensors (f_upd f) /\ only_tensors (f_part f);
  fs_keys : slash_safe (f_enc f) /\ slash_safe (f_shb f) /\ slash_safe (f_part f)
}.

(** What the Encoder does in one call of the flat interface, on nested dictionaries. *)
Definition core_params (c : @core V M W) (zeros : V) (w : W) (st ep bp ap sha : dval) : Prop :=
  exists dp enc upd sh shb, k_params c w st = Ok (ep, dp) /\ k_split_params c dp = Ok (bp, ap) /\
    k_encode c w zeros ep = Ok (enc, upd, sh) /\ k_split_shapes c sh = Ok (shb, sha).
Definition core_encode (c : @core V M W) (w : W) (x : V) (ep enc upd shb : dval) : Prop :=
  exists sh sha, k_encode c w x ep = Ok (enc, upd, sh) /\ k_split_shapes c sh = Ok (shb, sha).
(** Where the flat interface puts the shapes. *)
Definition with_shapes_after (ap sha : dval) : dval := DDict [("params", ap); ("shapes", sha)].
Definition with_shapes_before (enc shb : dval) : dval := DDict [("tensors", enc); ("shapes", shb)].

(** Fixed structure as SimpleEncoder needs it (no summation, every update is the encoder's own). *)
Record fixed_simple (c : @core V M W) (tspec : Sp) (f : frame) : Prop := {
  fx_initial : alike (f_st f) (tensors (k_initial c)) /\ only_tensors (f_st f);
  fx_params : forall w st, alike (f_st f) st -> exists ep dp, k_params c w st = Ok (ep, dp) /\ alike (f_ep f) ep /\ alike (f_dp f) dp;
  fx_encode : forall w x ep, compatible tspec x = true -> alike (f_ep f) ep ->
    exists enc upd sh, k_encode c w x ep = Ok (enc, upd, sh) /\ alike (f_enc f) enc /\ alike (f_upd f) upd /\ alike (f_sh f) sh;
  fx_update : forall st u, alike (f_st f) st -> alike (f_upd f) u -> exists st', k_update c st u = Ok st' /\ alike (f_st f) st';
  fx_keys : slash_safe (f_enc f) /\ slash_safe (f_dp f) /\ slash_safe (f_sh f)
}.
Definition encoded_parts (enc dp sh : dval) : dval := DDict [("encoded_tensors", enc); ("params", dp); ("shapes", sh)].
End Spec.
