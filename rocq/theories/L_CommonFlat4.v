(** What a chain of library stages makes of one client's value through nested dictionaries is what the typed encoder of
    M_Encoder makes of it. *)
From Coq Require Import Reals.
From Verif Require Import Base M_Tensor L_Tensor M_Bitpack L_Bitpack M_Hadamard S_Hadamard L_Hadamard L_Kashin M_Encoder S_Encoder L_Encoder M_Composer M_CommonEncoders S_CommonEncoders L_CommonEncoders L_CommonEncoders2 L_CommonEncoders4
  M_Dicts S_Dicts M_Gather S_Gather M_CoreTree S_CoreTree L_CoreTree L_CoreTree5 M_CommonFlat S_CommonFlat L_CommonFlat L_CommonFlat2.
From Coq Require Import Lra Psatz.
Open Scope R_scope.
Open Scope list_scope.
Local Notation lib k := (as_adaptive (lib_stage k) : astage fval string (nat -> R)).
Local Notation cp := (c_params fis_none).
Local Notation ce := (c_encode fis_none FNone fshape_of).
Local Notation cb := (c_before fis_none).

(** A chain: parents with the key of their only child, and the innermost stage. *)
Fixpoint chain_f (ks : list (skind * string)) (kl : skind) : ftree := match ks with [] => AEnc (lib kl) [] | (k, key) :: r => AEnc (lib k) [(key, chain_f r kl)] end.
Fixpoint chain_c (ks : list (skind * string)) (kl : skind) : cencoder := match ks with [] => Enc (to_stage kl) [] | (k, key) :: r => Enc (to_stage k) [(key, chain_c r kl)] end.
(** The draws: of get_params for the Hadamard stage, of encode for uniform quantization. *)
Definition own (k : skind) (w wc : list string -> nat -> R) : nat -> R := match k with KHadamard => w [] | _ => wc [] end.
Definition below {A} (key : string) (w : list string -> A) : list string -> A := fun p => w (key :: p).
Fixpoint chain_s (ks : list (skind * string)) (kl : skind) (w wc : list string -> nat -> R) : tree (nat -> R) :=
  match ks with [] => Node (own kl w wc) [] | (k, key) :: r => Node (own k w wc) [(key, chain_s r kl (below key w) (below key wc))] end.

(** Converted parameters. *)
Definition conv_params (k : skind) (w : nat -> R) : dict fval := kmap (fun _ (l : leaf fval) => snd l) (lib_params k w).
Lemma convert_params k w : convert fis_none (leaves (lib_params k w)) = Ok (conv_params k w).
Proof. destruct k as [| | |b [[lo hi]|] st|b st]; reflexivity. Qed.
Lemma prm_enc k w wc : lib_prm k (wc []) (conv_params k (w [])) = Ok (mkPrm (p_dict (fst (s_params (to_stage k) (own k w wc)))) (match k with KHadamard => w [] | KUniform _ _ _ => wc [] | _ => no_draws end)).
Proof. destruct k as [| | |b [[lo hi]|] st|b st]; reflexivity. Qed.
Lemma prm_enc' k w wc : lib_prm k (wc []) (conv_params k (w [])) = Ok (fst (s_params (to_stage k) (own k w wc))).
Proof. destruct k as [| | |b [[lo hi]|] st|b st]; reflexivity. Qed.
Lemma prm_dec k w wc : lib_prm k no_draws (conv_params k (w [])) = Ok (snd (s_params (to_stage k) (own k w wc))).
Proof. destruct k as [| | |b [[lo hi]|] st|b st]; reflexivity. Qed.

(** Decoding only looks at the keys it reads. *)
Lemma decode_reads k (d d' : dict ten) n sh w wc : (forall q, In q (reads k) -> dget q d = dget q d') ->
  s_decode (to_stage k) d (snd (s_params (to_stage k) (own k w wc))) n sh = s_decode (to_stage k) d' (snd (s_params (to_stage k) (own k w wc))) n sh.
Proof.
  intros H. destruct k as [| | |b [[lo hi]|] st|b st]; cbn [reads] in H.
  - cbn. unfold dindex. now rewrite (H "identity_values"%string (or_introl eq_refl)).
  - cbn [to_stage flatten_stage s_decode]. unfold dindex. now rewrite (H "flattened_values"%string (or_introl eq_refl)).
  - cbn [to_stage hadamard_stage s_decode]. unfold dindex. now rewrite (H "hadamard_values"%string (or_introl eq_refl)).
  - cbn [to_stage uniform_stage s_decode s_params snd]. unfold uq_decode. unfold dindex at 1 3. rewrite (H "quantized_values"%string (or_introl eq_refl)). reflexivity.
  - cbn [to_stage uniform_stage s_decode s_params snd]. unfold uq_decode. unfold dindex. rewrite (H "quantized_values"%string (or_introl eq_refl)), (H "min_max"%string (or_intror (or_introl eq_refl))). reflexivity.
  - cbn [to_stage bitpack_stage s_decode]. unfold dindex. now rewrite (H "bitpacked_values"%string (or_introl eq_refl)).
Qed.
Lemma tens_FV t x : tens (FV t) = Ok x -> x = t.
Proof. destruct t as [t|l]; cbn; [destruct (Nat.eqb _ _)|]; congruence. Qed.
Lemma pick_get ks (e : dict ten) ts q : pick ks (map (fun kt => (fst kt, FV (snd kt))) e) = Ok ts -> In q ks -> dget q ts = dget q e.
Proof.
  revert ts. induction ks as [|k ks IH]; intros ts H []; cbn [pick] in H; apply bind_ok in H as (rest & Hr & H); rewrite get_map in H.
  - subst k. destruct (dget q e) as [t|] eqn:E; cbn [option_map] in H.
    + apply bind_ok in H as (x & Hx & H). apply tens_FV in Hx. injection H as <-. cbn. rewrite String.eqb_refl. congruence.
    + injection H as <-. destruct (in_dec string_dec q ks) as [I1|N1]; [exact (IH rest Hr I1)|]. clear -Hr N1. revert rest Hr. induction ks as [|k ks IH]; intros rest Hr; cbn [pick] in Hr; [injection Hr as <-; reflexivity|]. apply bind_ok in Hr as (r2 & Hr2 & H). assert (G : dget q r2 = None) by (apply IH; [intros X; apply N1; now right|exact Hr2]).
      destruct (dget k _) as [v|]; [|injection H as <-; exact G]. apply bind_ok in H as (x & _ & H). injection H as <-. cbn. destruct (String.eqb_spec q k) as [->|]; [destruct N1; now left|exact G].
  - destruct (dget k e) as [t|] eqn:E; cbn [option_map] in H; [|injection H as <-; now apply IH]. apply bind_ok in H as (x & Hx & H). apply tens_FV in Hx. injection H as <-. cbn. destruct (String.eqb_spec q k) as [->|]; [congruence|now apply IH].
Qed.
Lemma decode_inv k (e : dict ten) w n sh y wc : lib_decode k (map (fun kt => (fst kt, FV (snd kt))) e) (conv_params k (w [])) n sh = Ok y ->
  exists s t, shape_arg sh = Ok s /\ s_decode (to_stage k) e (snd (s_params (to_stage k) (own k w wc))) n s = Ok t /\ y = FV t.
Proof.
  unfold lib_decode. rewrite (prm_dec k w wc). intros H. apply bind_ok in H as (ts & Hp & H). cbn [bind] in H. apply bind_ok in H as (s & Hs & H). apply bind_ok in H as (t & Ht & H). injection H as <-. exists s, t. split; [exact Hs|]. split; [|reflexivity].
  rewrite <- Ht. apply decode_reads. intros q Hq. symmetry. exact (pick_get _ _ _ _ Hp Hq).
Qed.
Lemma encode_inv k w wc t enc : lib_encode k (wc []) (FV t) (conv_params k (w [])) = Ok enc ->
  exists e, s_encode (to_stage k) t (fst (s_params (to_stage k) (own k w wc))) = Ok e /\ enc = map (fun kt => (fst kt, FV (snd kt))) e.
Proof.
  unfold lib_encode. rewrite prm_enc'. intros H. apply bind_ok in H as (x & Hx & H). cbn [bind] in H. apply bind_ok in H as (e & He & H). injection H as <-. apply tens_FV in Hx. subst x. eauto.
Qed.
Lemma head_key k key t p e : In key (compressible k) -> s_encode (to_stage k) t p = Ok e -> exists v rest, e = (key, v) :: rest /\ ~ In key (dkeys rest).
Proof.
  intros I1 H. pose proof (enc_nodup _ _ _ _ H) as N. assert (X : exists v rest, e = (key, v) :: rest).
  { destruct k as [| | |b mm st|b st]; cbn [compressible In] in I1; try (destruct I1 as [<-|[]]); cbn [to_stage s_encode identity_stage flatten_stage hadamard_stage uniform_stage] in H.
    - injection H as <-. eauto.
    - apply bind_ok in H as (x & _ & H). injection H as <-. eauto.
    - apply bind_ok in H as (x & _ & H). apply bind_ok in H as (y & _ & H). injection H as <-. eauto.
    - apply bind_ok in H as (x & _ & H). unfold uq_encode in H. apply bind_ok in H as (mv & _ & H). cbv zeta in H. injection H as <-. eauto.
    - destruct I1. }
  destruct X as (v & rest & ->). exists v, rest. split; [reflexivity|]. now inversion N.
Qed.

(** Plain values of a dictionary as they travel. *)
Definition sent_of (e : dict ten) : dict (dval fval) := kmap (fun _ y => DTf y) (map (fun kt => (fst kt, FV (snd kt))) e).
Lemma convert_sent e : convert fis_none (DDict (sent_of e)) = Ok (map (fun kt => (fst kt, FV (snd kt))) e).
Proof. cbn [convert]. unfold sent_of. induction e as [|[k t] e IH]; [reflexivity|]. cbn. cbn in IH. rewrite IH. reflexivity. Qed.
Lemma same_rest (f : string -> dval fval -> res (dval fval)) e : (forall k v, In k (dkeys e) -> f k v = Ok v) -> kmapM f (sent_of e) = Ok (sent_of e).
Proof. induction e as [|[k t] e IH]; intros H; [reflexivity|]. cbn. rewrite H by (now left). cbn [bind]. unfold sent_of in IH. rewrite IH; [reflexivity|]. intros k' v' H'. apply H. now right. Qed.
Lemma shape_conv k x : convert_shape fis_none (if s_needs_shape (to_stage k) then DPy (fshape_of x) else DPy FNone) = Ok (if s_needs_shape (to_stage k) then Some (fshape_of x) else None).
Proof. cbn [as_adaptive a_needs_shape lib_stage p_needs_shape]. destruct (s_needs_shape (to_stage k)); [|reflexivity]. cbn. now destruct x as [[]| | | |]. Qed.
Lemma shape_inv k t s : shape_arg (if s_needs_shape (to_stage k) then Some (fshape_of (FV t)) else None) = Ok s -> s = if s_needs_shape (to_stage k) then Some (ten_shape t) else None.
Proof. destruct (s_needs_shape (to_stage k)); cbn; congruence. Qed.
Lemma dict_item_here k v r : dict_item k (DDict ((k, v) :: r) : dval fval) = Ok v.
Proof. cbn. unfold dindex. cbn. now rewrite String.eqb_refl. Qed.

Definition good_chain (ks : list (skind * string)) : Prop := Forall (fun kk => In (snd kk) (compressible (fst kk))) ks.
Lemma chain_refines ks kl : good_chain ks -> forall w wc st t ep dp enc upd sh r,
  cp (chain_f ks kl) w st = Ok (ep, dp) -> ce (chain_f ks kl) wc (FV t) ep = Ok (enc, upd, sh) -> cb true (chain_f ks kl) enc dp sh = Ok r ->
  exists ep' dp' sent shs y, get_params (chain_c ks kl) (chain_s ks kl w wc) = Ok (ep', dp') /\ encode ten_shape (chain_c ks kl) t ep' = Ok (sent, shs) /\
    decode (chain_c ks kl) (ED sent) (full dp') (full shs) = Ok y /\ r = DTf (FV y).
Proof.
  induction ks as [|[k key] ks IH]; intros G w wc st t ep dp enc upd sh r HP HE HB; cbn [chain_f chain_c chain_s] in *.
  - cbn [c_params as_adaptive a_params lib_stage p_params] in HP. apply bind_ok in HP as (s0 & _ & HP). apply bind_ok in HP as (s1 & _ & HP). cbn [bind kmapM kmap] in HP. injection HP as <- <-.
    cbn [c_encode as_adaptive a_encode lib_stage p_encode kmapM] in HE. rewrite dict_item_here in HE. cbn [bind] in HE. rewrite convert_params in HE. cbn [bind] in HE. apply bind_ok in HE as ([enc0 u0] & HE0 & HE). apply bind_ok in HE0 as (e1 & HE1 & HE2). injection HE2 as <- <-. cbn [bind fold_left kmap] in HE. injection HE as <- _ <-.
    destruct (encode_inv kl w wc t e1 HE1) as (e & Ee & ->). change (kmap (fun (_ : string) (y : fval) => DTf y) (map (fun kt : string * ten => (fst kt, FV (snd kt))) e)) with (sent_of e) in HB.
    cbn [c_before orb kmap] in HB. rewrite same_rest in HB by (intros; reflexivity). cbn [bind] in HB. unfold stage_decode in HB. rewrite dict_item_here in HB. cbn [bind] in HB. rewrite dict_item_here in HB. cbn [bind] in HB. rewrite convert_sent in HB. cbn [bind] in HB. rewrite convert_params in HB. cbn [bind] in HB. cbn [as_adaptive a_needs_shape lib_stage p_needs_shape] in HB. change (FShape (ten_shape t)) with (fshape_of (FV t)) in HB. rewrite shape_conv in HB. cbn [bind as_adaptive a_decode lib_stage p_decode] in HB.
    apply bind_ok in HB as (y & Hy & HB). injection HB as <-. destruct (decode_inv _ _ _ _ _ _ wc Hy) as (s & y' & Hs & Ht & ->). apply shape_inv in Hs. subst s.
    do 5 eexists. split; [apply params_leaf|]. cbn [troot]. split; [rewrite encode_leaf, Ee; reflexivity|]. split; [|reflexivity]. rewrite decode_leaf. exact Ht.
  - inversion G as [|? ? Hk Gr]; subst. cbn [fst snd] in Hk.
    cbn [c_params as_adaptive a_params lib_stage p_params] in HP. apply bind_ok in HP as (s0 & _ & HP). apply bind_ok in HP as (s1 & _ & HP). cbn [bind kmapM] in HP. apply bind_ok in HP as (cs0 & HC & HP). apply bind_ok in HC as ([epk dpk] & HC & HC2). apply bind_ok in HC as (stk & _ & HC). cbn [bind] in HC2. injection HC2 as <-. cbn [kmap fst snd] in HP. injection HP as <- <-.
    cbn [c_encode as_adaptive a_encode lib_stage p_encode kmapM] in HE. rewrite dict_item_here in HE. cbn [bind] in HE. rewrite convert_params in HE. cbn [bind] in HE. apply bind_ok in HE as ([enc0 u0] & HE0 & HE). apply bind_ok in HE0 as (e1 & HE1 & HE2). injection HE2 as <- <-.
    destruct (encode_inv k w wc t e1 HE1) as (e & Ee & ->). destruct (head_key k key _ _ _ Hk Ee) as (v & rest & -> & NI).
    cbn [bind] in HE. apply bind_ok in HE as (cs1 & HE3 & HE). apply bind_ok in HE3 as ([[enck updk] shk] & HE3 & HE4). cbn [bind] in HE4. injection HE4 as <-.
    cbn [map fst snd] in HE3. unfold dindex at 1 in HE3. cbn [dget] in HE3. rewrite String.eqb_refl in HE3. cbn [bind] in HE3. apply bind_ok in HE3 as (pk & Hpk & HE3).
    assert (pk = epk) as -> by (unfold child in Hpk; cbn in Hpk; unfold dindex in Hpk; cbn in Hpk; rewrite String.eqb_refl in Hpk; congruence).
    cbn [map fst snd kmap fold_left dset] in HE. rewrite String.eqb_refl in HE. injection HE as <- _ <-. change (kmap (fun (_ : string) (y : fval) => DTf y) (map (fun kt : string * ten => (fst kt, FV (snd kt))) rest)) with (sent_of rest) in HB.
    cbn [c_before orb kmap] in HB. cbn [kmapM dget] in HB. rewrite String.eqb_refl in HB.
    assert (CH : forall (pp qq : dval fval) s r0, child key (DDict [(s, pp); (CHILDREN, DDict [(key, qq)])]) = Ok r0 -> s <> CHILDREN -> r0 = qq).
    { intros pp qq s r0 H Ns. unfold child in H. cbn [dict_item] in H. unfold dindex in H. cbn [dget] in H. destruct (String.eqb_spec CHILDREN s) as [Es|_]; [congruence|]. change (String.eqb CHILDREN CHILDREN) with true in H. cbn in H. unfold dindex in H. cbn [dget] in H. rewrite String.eqb_refl in H. congruence. }
    apply bind_ok in HB as (d' & HD & HB). apply bind_ok in HD as (rk & HR & HD). apply bind_ok in HR as (pk & Hp2 & HR). apply bind_ok in HR as (shk' & Hs2 & HR). apply CH in Hp2; [|discriminate]. apply CH in Hs2; [|discriminate]. subst pk shk'.
    rewrite same_rest in HD. 2:{ intros k' v' Hin. destruct (String.eqb_spec k' key) as [->|]; [destruct (NI Hin)|reflexivity]. }
    cbn [bind] in HD. injection HD as <-.
    destruct (IH Gr _ _ stk v epk dpk enck updk shk rk HC HE3 HR) as (ep' & dp' & sent & shs & yk & P1 & P2 & P3 & ->).
    change ((key, DTf (FV yk)) :: sent_of rest) with (sent_of ((key, yk) :: rest)) in HB.
    unfold stage_decode in HB. rewrite dict_item_here in HB. cbn [bind] in HB. rewrite dict_item_here in HB. cbn [bind] in HB. rewrite convert_sent in HB. cbn [bind] in HB. rewrite convert_params in HB. cbn [bind] in HB. cbn [as_adaptive a_needs_shape lib_stage p_needs_shape] in HB. change (FShape (ten_shape t)) with (fshape_of (FV t)) in HB. rewrite shape_conv in HB. cbn [bind as_adaptive a_decode lib_stage p_decode] in HB.
    apply bind_ok in HB as (y & Hy & HB). injection HB as <-. destruct (decode_inv _ _ _ _ _ _ wc Hy) as (s & y' & Hs & Ht & ->). apply shape_inv in Hs. subst s.
    exists (Node (fst (s_params (to_stage k) (own k w wc))) [(key, ep')]), (Node (snd (s_params (to_stage k) (own k w wc))) [(key, dp')]). do 3 eexists.
    split; [apply (params_chain (to_stage k) key (chain_c ks kl) (Node (own k w wc) [(key, chain_s ks kl (below key w) (below key wc))]) _ _ _ ltac:(cbn; now rewrite String.eqb_refl) P1)|]. split; [|split].
    + refine (eq_trans (encode_chain ten_shape (to_stage k) key (chain_c ks kl) t _ ep' v rest Ee) _). refine (eq_trans (f_equal (fun r => bind r _) P2) _). reflexivity.
    + refine (eq_trans (decode_chain (to_stage k) key (chain_c ks kl) sent rest _ dp' _ shs NI) _). refine (eq_trans (f_equal (fun r => bind r _) P3) _). exact Ht.
    + reflexivity.
Qed.
