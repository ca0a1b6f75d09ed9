(** Encoder trees behind the flat interfaces: every call succeeds, sums in between are sums of the decoded values. *)
From Coq Require Import Lia.
From Verif Require Import Base M_Encoder M_Dicts S_Dicts M_Gather S_Gather M_CoreTree S_CoreTree L_Encoder L_Dicts L_Gather3 L_Gather5 L_Gather6 L_Gather7 L_CoreTree L_CoreTree2 L_CoreTree3 L_CoreTree4 L_CoreTree5.

(** ** Replacing tensors path by path *)
Section Fill.
Context {V : Type}.
Fixpoint fillp (f : list string -> V -> V) (v : dval V) : dval V :=
  match v with DPy x => DPy x | DTf x => DTf (f [] x) | DDict d => DDict (kmap (fun k w => fillp (fun q => f (k :: q)) w) d) end.
Lemma fillp_at v : forall f p, at_path p (fillp f v) = match at_path p v with ATf x => ATf (f p x) | o => o end.
Proof.
  induction v as [x|x|d IH] using dval_ind2; intros f [|k p]; try reflexivity. cbn [fillp at_path]. rewrite dget_kmap. destruct (dget k d) as [w|] eqn:D; [|reflexivity]. cbn [option_map]. now rewrite (IH k w (dget_in _ _ _ D)).
Qed.
Lemma fillp_wf v : forall f, wf_dval v -> wf_dval (fillp f v).
Proof.
  induction v as [x|x|d IH] using dval_ind2; intros f W; [exact Logic.I|exact Logic.I|]. apply wf_inv in W as [N W]. cbn [fillp]. apply wf_inv. split; [now rewrite dkeys_kmap|]. intros k w Hin.
  assert (D : dget k (kmap (fun k w => fillp (fun q => f (k :: q)) w) d) = Some w) by (apply get_in; [now rewrite dkeys_kmap|exact Hin]). rewrite dget_kmap in D. destruct (dget k d) as [u|] eqn:Du; [|discriminate]. injection D as <-. apply dget_in in Du. apply (IH k u Du). eapply W, Du.
Qed.
End Fill.

Section Flat.
Context {V Sp M W0 : Type} (spec : V -> Sp) (compatible : Sp -> V -> bool) (is_none : V -> bool) (none : V) (shape_of : V -> V).
Notation dval := (dval V).
Notation aenc := (aenc V M W0).
Notation W := (list string -> W0).
Hypothesis E : forall x y, compatible (spec x) y = true <-> spec x = spec y.
Hypothesis Static : static_shapes spec is_none shape_of.
Hypothesis None_is_none : is_none none = true.
Context (e : aenc) (zeros : V).
Notation sp := (spec zeros).
Notation core := (core_of is_none none shape_of e).
Hypothesis BK : every_stage stage_by_key e.
Hypothesis FT : fixed_tree spec is_none shape_of e sp.

Lemma B : by_key core. Proof. now apply tree_by_key. Qed.
Lemma Cp x : compatible sp x = true <-> spec x = sp. Proof. rewrite E. split; congruence. Qed.
Lemma frame_ex : exists f, fixed_structure spec compatible core sp f /\ fixed_simple spec compatible core sp f /\
    (forall enc dp sh, alike spec (f_enc f) enc -> alike spec (f_dp f) dp -> alike spec (f_sh f) sh -> (exists y, k_decode core enc dp sh = Ok y /\ spec y = sp) /\ forall enc', alike spec (f_enc f) enc' -> uni spec is_none e enc enc' dp sh).
Proof. exact (tree_fixed spec is_none none shape_of Static None_is_none compatible e sp sp zeros FT eq_refl Cp). Qed.
Lemma Z0 : compatible sp zeros = true. Proof. now apply Cp. Qed.

Section G.
Context (f : @frame V) (g : @gather V Sp M W).
Hypothesis F : fixed_structure spec compatible core sp f.
Hypothesis FX : fixed_simple spec compatible core sp f.
Hypothesis FD : forall enc dp sh, alike spec (f_enc f) enc -> alike spec (f_dp f) dp -> alike spec (f_sh f) sh -> (exists y, k_decode core enc dp sh = Ok y /\ spec y = sp) /\ forall enc', alike spec (f_enc f) enc' -> uni spec is_none e enc enc' dp sh.
Hypothesis Bu : built spec core sp zeros f g.

Lemma reached_lists fs : reached compatible g fs -> exists st, alike spec (f_st f) st /\ lists st fs.
Proof.
  induction 1 as [|fs us fs' _ (st & A & L) U].
  - destruct (initial_ok spec compatible core sp zeros f F g Bu) as [L A]. eauto.
  - destruct (rejects_updates spec compatible core sp zeros f F g Bu fs us) as [(u & Ar & Lu)|R]; [|congruence].
    destruct (update_ok spec compatible E core sp zeros f B F g Bu st fs u us A L Ar Lu) as (st' & fs2 & _ & U2 & L2 & A2). assert (fs2 = fs') as -> by congruence. eauto.
Qed.
(** Shapes are Python values. *)
Lemma shapes_known (e0 : aenc) : forall w x p enc upd sh, c_encode is_none none shape_of e0 w x p = Ok (enc, upd, sh) -> forall q t, at_path q sh <> ATf t.
Proof.
  induction e0 as [s kids IH] using aenc_ind2. intros w x p enc upd sh H. cbn [c_encode] in H. apply bind_ok in H as (p0 & _ & H). apply bind_ok in H as (p1 & _ & H). apply bind_ok in H as ([en up] & _ & H). apply bind_ok in H as (cs & E3 & H). injection H as _ _ <-.
  intros [|k q] t; [discriminate|]. cbn [at_path dget]. destruct (String.eqb k SHAPE); [destruct (a_needs_shape s), q; discriminate|]. destruct (String.eqb k CHILDREN); [|discriminate]. destruct q as [|k2 q]; [discriminate|]. cbn [at_path]. rewrite dget_kmap. pose proof (kmapM_get _ _ _ E3 k2) as G.
  destruct (dget k2 kids) as [c|] eqn:D; [|rewrite G; discriminate]. destruct G as ([[en2 up2] sh2] & G1 & ->). cbn [option_map snd]. apply bind_ok in G1 as (y & _ & G1). apply bind_ok in G1 as (pk & _ & G1). eapply (IH k2 c); [apply dget_in, D|exact G1].
Qed.
Lemma known_same (v w : dval) : alike spec v w -> (forall q t, at_path q v <> ATf t) -> same v w.
Proof. intros (W1 & W2 & H) K. split; [exact W1|]. split; [exact W2|]. intros q. specialize (H q). specialize (K q). destruct (at_path q v) eqn:Ev, (at_path q w) eqn:Ew; cbn in H; try tauto; try congruence; exfalso; eapply K; reflexivity. Qed.

Lemma encode_all w x ep fs : reached compatible g fs -> forall w0 bp ap, g_get_params compatible g w0 fs = Ok (ep, bp, ap) -> spec x = sp ->
  exists d u q y, g_encode compatible g w x ep = Ok (d, u) /\ g_decode_before_sum compatible g d bp = Ok q /\ (forall n, exists y, g_decode_after_sum compatible g q ap n = Ok y /\ spec y = sp) /\ g_update_state compatible g fs u = Ok y.
Proof.
  intros R w0 bp ap GP Sx. destruct (reached_lists fs R) as (st & A & L). destruct (get_params_ok spec compatible E core sp zeros f B F Z0 g Bu w0 st fs A L) as (ep0 & bp0 & ap0 & sha & e1 & b1 & a1 & _ & GP2 & L1 & L2 & L3 & A1 & A2 & A3 & A4).
  rewrite GP in GP2. injection GP2 as <- <- <-.
  destruct (encode_ok spec compatible E core sp zeros f B F g Bu w x ep0 ep ltac:(now apply Cp) A1 L1) as (enc & upd & shb & d & u & _ & GE & H1 & Lu & B1 & B2 & B3).
  destruct (before_ok spec compatible E core sp zeros f B F g Bu enc shb bp0 d bp B1 B3 A2 H1 L2) as (p & q & _ & GB & PO & AP).
  destruct (update_ok spec compatible E core sp zeros f B F g Bu st fs upd u A L (alike_arranged spec _ _ B2 (proj1 (proj2 (fs_tensors _ _ _ _ _ F)))) Lu) as (st' & fs' & _ & GU & _).
  exists d, u, q, fs'. split; [exact GE|]. split; [exact GB|]. split; [|exact GU]. intros n. destruct (after_ok spec compatible E core sp zeros f B F g Bu p q ap0 sha ap n AP A3 A4 PO L3) as (y & _ & GA & C). exists y. split; [exact GA|now apply Cp].
Qed.

(** ** Sums *)
Context (tsum : list V -> V).
Hypothesis PS : proper_sum spec tsum.
Hypothesis CS : every_stage (commutes_with_sum spec tsum) e.

Section Clients.
Context {I : Type} (is : list I) (i0 : I).
Hypothesis I0 : In i0 is.
Context (cw : I -> W) (cx : I -> V) (q : I -> @part V) (Q : @part V).
Lemma sum_exists (p : I -> dval) : (forall i, In i is -> alike spec (f_part f) (p i)) -> (forall i, In i is -> part_of (p i) (q i)) -> part_sum tsum (map q is) Q ->
  exists P, sums tsum is p P /\ alike spec (f_part f) P /\ part_of P Q.
Proof.
  intros A PO SU. pose proof (proj2 (proj2 (fs_tensors _ _ _ _ _ F))) as OT.
  pose (at_i := fun path x i => match at_path path (p i) with ATf t => t | _ => x end). exists (fillp (fun path x => tsum (map (at_i path x) is)) (p i0)).
  assert (W1 : forall i, In i is -> wf_dval (p i)). { intros i Ii. apply (A i Ii). }
  assert (SM : sums tsum is p (fillp (fun path x => tsum (map (at_i path x) is)) (p i0))).
  { split; [apply fillp_wf; auto|]. split; [exact W1|]. intros path. rewrite fillp_at. destruct (A i0 I0) as (_ & _ & A0). specialize (A0 path).
    destruct (at_path path (p i0)) as [| |x|x] eqn:Ep; destruct (at_path path (f_part f)) as [| |z|z] eqn:Ef; cbn in A0; try tauto.
    - intros i Ii. destruct (A i Ii) as (_ & _ & Ai). specialize (Ai path). rewrite Ef in Ai. now destruct (at_path path (p i)).
    - intros i Ii. destruct (A i Ii) as (_ & _ & Ai). specialize (Ai path). rewrite Ef in Ai. now destruct (at_path path (p i)).
    - now apply (OT path z).
    - exists (at_i path x). split; [|reflexivity]. intros i Ii. destruct (A i Ii) as (_ & _ & Ai). specialize (Ai path). rewrite Ef in Ai. unfold at_i. destruct (at_path path (p i)); cbn in Ai; try tauto. }
  split; [exact SM|]. set (P := fillp _ (p i0)) in *. split.
  - split; [apply (A i0 I0)|]. split; [apply SM|]. intros path. destruct SM as (_ & _ & SM). specialize (SM path). destruct (A i0 I0) as (_ & _ & A0). specialize (A0 path). destruct (at_path path P) as [| |x|t].
    + now rewrite (SM i0 I0) in A0. + now rewrite (SM i0 I0) in A0. + destruct SM.
    + destruct SM as (ts & T & ->). rewrite (T i0 I0) in A0. destruct (at_path path (f_part f)) as [| |z|z] eqn:Ef; cbn in A0; try tauto. cbn. symmetry. apply PS; [intros X; apply map_eq_nil in X; rewrite X in I0; destruct I0|].
      intros t Ht. apply in_map_iff in Ht as (i & <- & Ii). destruct (A i Ii) as (_ & _ & Ai). specialize (Ai path). rewrite Ef, (T i Ii) in Ai. now cbn in Ai.
  - destruct SM as (_ & _ & SM). destruct Q as [t|D]; cbn [part_sum part_of] in SU |- *.
    + destruct SU as (ts & S1 & ->). assert (X : forall i, In i is -> exists y, q i = PT y /\ at_path [] (p i) = ATf y).
      { intros i Ii. assert (In (q i) (map PT ts)) as Hq by (rewrite <- S1; now apply in_map). apply in_map_iff in Hq as (y & Ey & _). exists y. split; [now symmetry|]. specialize (PO i Ii). rewrite <- Ey in PO. exact PO. }
      specialize (SM []). destruct (X i0 I0) as (y0 & Q0 & P0). destruct (at_path [] P) as [| |x|t].
      * specialize (SM i0 I0). congruence. * specialize (SM i0 I0). congruence. * destruct SM.
      * destruct SM as (us & T & ->). f_equal. f_equal. clear -S1 X T. revert ts S1 X T. induction is as [|i l IHl]; intros [|t ts] S1 X T; try discriminate; [reflexivity|]. cbn in S1. injection S1 as S1 S2. cbn. f_equal.
        -- destruct (X i (or_introl eq_refl)) as (y & Q1 & P1). rewrite (T i (or_introl eq_refl)) in P1. congruence.
        -- apply IHl; [exact S2| |]; intros j Hj; [apply X|apply T]; now right.
    + destruct SU as (ds & S1 & ND & SU). assert (X : forall i, In i is -> exists d, q i = PD d /\ at_path [] (p i) = ADict /\ holds (p i) d).
      { intros i Ii. assert (In (q i) (map PD ds)) as Hq by (rewrite <- S1; now apply in_map). apply in_map_iff in Hq as (d & Ed & _). exists d. split; [now symmetry|]. specialize (PO i Ii). rewrite <- Ed in PO. exact PO. }
      assert (AD : at_path [] P = ADict). { pose proof (SM []) as S0. destruct (X i0 I0) as (d0 & _ & P0 & _). destruct (at_path [] P) as [| |x|t]; [specialize (S0 i0 I0); congruence|reflexivity|destruct S0|]. destruct S0 as (us & T & _). rewrite (T i0 I0) in P0. discriminate. }
      split; [exact AD|]. split; [exact ND|]. intros k t. rewrite SU. split.
      * intros (ts & F2 & ->). destruct (X i0 I0) as (d0 & Q0 & _ & H0).
        assert (Y : forall i, In i is -> exists d x, q i = PD d /\ In (k, x) d).
        { clear -S1 F2. revert is S1. induction F2 as [|d x ds ts H F2 IH]; intros [|i l] S1; try discriminate; [intros i []|]. cbn in S1. injection S1 as S1 S2. intros j [<-|Hj]; [eauto|]. now apply (IH l S2). }
        destruct (Y i0 I0) as (d0' & x0 & Q0' & In0). assert (d0' = d0) as -> by congruence. apply H0 in In0 as (path & -> & Pp). exists path. split; [reflexivity|]. specialize (SM path). destruct (at_path path P) as [| |z|t] eqn:EP.
        -- specialize (SM i0 I0). congruence. -- specialize (SM i0 I0). congruence. -- destruct SM.
        -- destruct SM as (us & T & ->). f_equal. f_equal.
           clear -S1 F2 X T. revert is S1 X T. induction F2 as [|d x ds ts H F2 IH]; intros [|i l] S1 X T; try discriminate; [reflexivity|]. cbn in S1. injection S1 as S1 S2. cbn. f_equal.
           ++ destruct (X i (or_introl eq_refl)) as (d' & Q1 & _ & [N1 H1]). assert (d' = d) as -> by congruence. assert (K : In (slash_path path, us i) d) by (apply H1; exists path; auto using in_eq).
              clear -N1 K H. induction d as [|[k0 v0] d IHd]; [destruct H|]. cbn in N1. inversion N1 as [|? ? N2 N3]; subst. destruct K as [K|K], H as [H|H].
              ** congruence. ** injection K as -> ->. destruct N2. now apply (in_map fst) in H. ** injection H as -> ->. destruct N2. now apply (in_map fst) in K. ** now apply IHd.
           ++ apply (IH l S2); intros j Hj; [apply X|apply T]; now right.
      * intros (path & -> & Pp). specialize (SM path). rewrite Pp in SM. destruct SM as (us & T & ->). exists (map us is). split; [|reflexivity].
        clear -S1 X T. revert ds S1. induction is as [|i l IHl]; intros [|d ds] S1; try discriminate; [constructor|]. cbn in S1. injection S1 as S1 S2. cbn. constructor.
        -- destruct (X i (or_introl eq_refl)) as (d' & Q1 & _ & [N1 H1]). assert (d' = d) as -> by congruence. apply H1. exists path. auto using in_eq.
        -- apply IHl; [| |exact S2]; intros j Hj; [apply T|apply X]; now right.
Qed.

Hypothesis CX : forall i, In i is -> spec (cx i) = sp.
(** [y i]: what the Encoder itself makes of client [i]'s encoding. *)
Lemma sum_flat w0 fs ep bp ap : reached compatible g fs -> g_get_params compatible g w0 fs = Ok (ep, bp, ap) ->
  (forall i, In i is -> exists d u, g_encode compatible g (cw i) (cx i) ep = Ok (d, u) /\ g_decode_before_sum compatible g d bp = Ok (q i)) -> part_sum tsum (map q is) Q ->
  forall st, alike spec (f_st f) st -> lists st fs ->
  exists ep0 dp0, k_params core w0 st = Ok (ep0, dp0) /\ exists y : I -> V, (forall i, In i is -> exists enc upd sh, k_encode core (cw i) (cx i) ep0 = Ok (enc, upd, sh) /\ k_decode core enc dp0 sh = Ok (y i)) /\
  g_decode_after_sum compatible g Q ap (Z.of_nat (List.length is)) = Ok (tsum (map y is)).
Proof.
  intros R GP CL SU st A L. destruct (get_params_ok spec compatible E core sp zeros f B F Z0 g Bu w0 st fs A L) as (ep0 & bp0 & ap0 & sha & e1 & b1 & a1 & CPa & GP2 & L1 & L2 & L3 & A1 & A2 & A3 & A4).
  rewrite GP in GP2. injection GP2 as <- <- <-. destruct CPa as (dp0 & enc0 & upd0 & sh0 & shb0 & K1 & K2 & K3 & K4). exists ep0, dp0. split; [exact K1|].
  assert (Adp : alike spec (f_dp f) dp0). { destruct (fs_params _ _ _ _ _ F w0 st A) as (e' & d' & X & _ & Y). rewrite K1 in X. injection X as <- <-. exact Y. }
  assert (Ash0 : alike spec (f_sh f) sh0). { destruct (fs_encode _ _ _ _ _ F w0 zeros ep0 Z0 A1) as (e' & u' & s' & X & _ & _ & Y). rewrite K3 in X. injection X as <- <- <-. exact Y. }
  assert (Known : forall t, alike spec (f_sh f) t -> same sh0 t). { intros t At. apply known_same; [eapply alike_trans; [apply alike_sym, Ash0|exact At]|]. exact (shapes_known e w0 zeros ep0 enc0 upd0 sh0 K3). }
  set (cenc := fun i => match k_encode core (cw i) (cx i) ep0 with Ok (en, _, _) => en | Err _ => DPy zeros end).
  set (cp := fun i => match k_before core (cenc i) bp0 shb0 with Ok r => r | Err _ => DPy zeros end).
  set (y := fun i => match k_decode core (cenc i) dp0 sh0 with Ok r => r | Err _ => zeros end).
  assert (X : forall i, In i is -> (exists upd sh, k_encode core (cw i) (cx i) ep0 = Ok (cenc i, upd, sh) /\ same sh0 sh) /\ alike spec (f_enc f) (cenc i) /\ k_before core (cenc i) bp0 shb0 = Ok (cp i) /\ alike spec (f_part f) (cp i) /\ part_of (cp i) (q i) /\ k_decode core (cenc i) dp0 sh0 = Ok (y i)).
  { intros i Ii. destruct (CL i Ii) as (d & u & GE & GB). destruct (encode_ok spec compatible E core sp zeros f B F g Bu (cw i) (cx i) ep0 ep ltac:(apply Cp; auto) A1 L1) as (enc & upd & shb & d' & u' & CE & GE' & H1 & Lu & B1 & B2 & B3).
    rewrite GE in GE'. injection GE' as <- <-. destruct CE as (sh & sha' & CE1 & CE2). destruct (before_ok spec compatible E core sp zeros f B F g Bu enc shb bp0 d bp B1 B3 A2 H1 L2) as (p & q' & KB & GB' & PO & AP). rewrite GB in GB'. injection GB' as <-.
    assert (Ce : cenc i = enc) by (unfold cenc; now rewrite CE1). rewrite Ce. assert (Ash : alike spec (f_sh f) sh). { destruct (fs_encode _ _ _ _ _ F (cw i) (cx i) ep0 ltac:(apply Cp; auto) A1) as (e' & u' & s' & X' & _ & _ & Y'). rewrite CE1 in X'. injection X' as <- <- <-. exact Y'. }
    split; [exists upd, sh; auto|]. split; [exact B1|].
    assert (Sb : same shb shb0). { pose proof (bk_split_shapes _ B _ _ (same_sym _ _ (Known sh Ash))) as BS. rewrite CE2, K4 in BS. apply BS. }
    assert (We : wf_dval enc) by (apply B1). assert (Wb : wf_dval bp0) by (apply A2). pose proof (bk_before _ B enc enc bp0 bp0 shb shb0 (same_refl _ We) (same_refl _ Wb) Sb) as BB. rewrite KB in BB. unfold cp. rewrite Ce. destruct (k_before core enc bp0 shb0) as [p'|]; [|destruct BB]. cbn in BB.
    split; [reflexivity|]. split; [eapply alike_same; [exact AP|exact BB]|]. split.
    - destruct BB as (_ & _ & BB). destruct (q i) as [t|dd]; cbn [part_of] in PO |- *; [now rewrite <- BB|]. destruct PO as [P1 [P2 P3]]. split; [now rewrite <- BB|]. split; [exact P2|]. intros k t. rewrite P3. split; intros (pa & Ek & Ep); exists pa; (split; [exact Ek|]); [now rewrite <- BB|now rewrite BB].
    - destruct (proj1 (FD enc dp0 sh0 B1 Adp Ash0)) as (yy & KD & _). unfold y. rewrite Ce. now rewrite KD. }
  exists y. split.
  - intros i Ii. destruct (X i Ii) as ((upd & sh & X1 & X2) & X3 & _ & _ & _ & X6). exists (cenc i), upd, sh. split; [exact X1|]. assert (We : wf_dval (cenc i)) by (apply X3). assert (Wd : wf_dval dp0) by (apply Adp). pose proof (bk_decode _ B (cenc i) (cenc i) dp0 dp0 sh0 sh (same_refl _ We) (same_refl _ Wd) X2) as BD. rewrite X6 in BD. destruct (k_decode core (cenc i) dp0 sh) as [z|]; [|destruct BD]. cbn in BD. now subst z.
  - destruct (sum_exists cp) as (P & SM & AP & PO); [intros i Ii; apply (X i Ii)|intros i Ii; apply (X i Ii)|exact SU|].
    destruct (after_ok spec compatible E core sp zeros f B F g Bu P Q ap0 sha ap (Z.of_nat (List.length is)) AP A3 A4 PO L3) as (Y & KA & GA & _). rewrite GA. f_equal.
    assert (SA : c_after is_none e P ap0 (Z.of_nat (List.length is)) sha = Ok (DTf (tsum (map y is)))).
    { apply (sum_after spec is_none none tsum is i0 I0 e CS w0 st ep0 dp0 bp0 ap0 sh0 shb0 sha cenc cp P y K1 K2 K4); [| exact SM| |].
      - intros i Ii. destruct (X i Ii) as (_ & _ & X3 & _). exact X3.
      - intros i Ii. destruct (X i Ii) as (_ & _ & _ & _ & _ & X6). cbn [core_of k_decode] in X6. apply bind_ok in X6 as (r & X6 & X7). destruct (forced_tensor is_none e (cenc i) dp0 sh0 r X6) as [t ->]. cbn in X7. injection X7 as <-. exact X6.
      - intros i j Ii Ij. destruct (X i Ii) as (_ & Xi & _). destruct (X j Ij) as (_ & Xj & _). exact (proj2 (FD (cenc i) dp0 sh0 Xi Adp Ash0) (cenc j) Xj). }
    cbn [core_of k_after] in KA. rewrite SA in KA. cbn in KA. now injection KA.
Qed.
End Clients.

Lemma one_sum (q : @part V) : (match q with PD d => NoDup (map fst d) | PT _ => True end) -> part_sum tsum [q] q.
Proof.
  destruct PS as [P1 _]. destruct q as [t|D]; cbn [part_sum]; intros N; [exists [t]; now rewrite P1|]. exists [D]. split; [reflexivity|]. split; [exact N|]. intros k t. split.
  - intros H. exists [t]. rewrite P1. auto.
  - intros (ts & F2 & ->). inversion F2 as [|d x ds l H F3]; subst. inversion F3; subst. now rewrite P1.
Qed.
Lemma before_nodup w0 fs ep bp ap w x d u q : reached compatible g fs -> g_get_params compatible g w0 fs = Ok (ep, bp, ap) -> spec x = sp -> g_encode compatible g w x ep = Ok (d, u) -> g_decode_before_sum compatible g d bp = Ok q ->
  match q with PD d => NoDup (map fst d) | PT _ => True end.
Proof.
  intros R GP Sx GE GB. destruct (reached_lists fs R) as (st & A & L). destruct (get_params_ok spec compatible E core sp zeros f B F Z0 g Bu w0 st fs A L) as (ep0 & bp0 & ap0 & sha & e1 & b1 & a1 & _ & GP2 & L1 & L2 & L3 & A1 & A2 & A3 & A4).
  rewrite GP in GP2. injection GP2 as <- <- <-.
  destruct (encode_ok spec compatible E core sp zeros f B F g Bu w x ep0 ep ltac:(now apply Cp) A1 L1) as (enc & upd & shb & d2 & u2 & _ & GE2 & H1 & Lu & B1 & B2 & B3). rewrite GE in GE2. injection GE2 as <- <-.
  destruct (before_ok spec compatible E core sp zeros f B F g Bu enc shb bp0 d bp B1 B3 A2 H1 L2) as (p & q2 & _ & GB2 & PO & AP). rewrite GB in GB2. injection GB2 as <-. destruct q as [t|D]; [exact Logic.I|]. apply PO.
Qed.
(** One client: its own decoding. *)
Lemma one_client w0 fs ep bp ap w x d u q : reached compatible g fs -> g_get_params compatible g w0 fs = Ok (ep, bp, ap) -> spec x = sp -> g_encode compatible g w x ep = Ok (d, u) -> g_decode_before_sum compatible g d bp = Ok q ->
  forall st, alike spec (f_st f) st -> lists st fs ->
  exists ep0 dp0 enc upd sh y, k_params core w0 st = Ok (ep0, dp0) /\ k_encode core w x ep0 = Ok (enc, upd, sh) /\ k_decode core enc dp0 sh = Ok y /\ g_decode_after_sum compatible g q ap 1 = Ok y.
Proof.
  intros R GP Sx GE GB st A L. pose proof (before_nodup _ _ _ _ _ _ _ _ _ _ R GP Sx GE GB) as N.
  destruct (sum_flat [tt] tt (or_introl eq_refl) (fun _ => w) (fun _ => x) (fun _ => q) q (fun _ _ => Sx) w0 fs ep bp ap R GP) with (st := st) as (ep0 & dp0 & K1 & y & Y & GA); [intros i _; eauto|now apply one_sum|exact A|exact L|].
  destruct (Y tt (or_introl eq_refl)) as (enc & upd & sh & Y1 & Y2). exists ep0, dp0, enc, upd, sh, (y tt). cbn [map] in GA. rewrite (proj1 PS) in GA. auto.
Qed.
Lemma many_clients w0 fs ep bp ap (cl : list (W * V)) qs Q : reached compatible g fs -> g_get_params compatible g w0 fs = Ok (ep, bp, ap) -> cl <> [] -> (forall c, In c cl -> spec (snd c) = sp) ->
  Forall2 (fun c q => exists d u, g_encode compatible g (fst c) (snd c) ep = Ok (d, u) /\ g_decode_before_sum compatible g d bp = Ok q) cl qs -> part_sum tsum qs Q ->
  exists ys, Forall2 (fun q y => g_decode_after_sum compatible g q ap 1 = Ok y) qs ys /\ g_decode_after_sum compatible g Q ap (Z.of_nat (List.length cl)) = Ok (tsum ys).
Proof.
  intros R GP NE SX F2 SU. destruct (reached_lists fs R) as (st & A & L).
  set (is := combine cl qs). assert (Len : List.length cl = List.length qs) by (clear -F2; induction F2; cbn; congruence).
  assert (M1 : map fst is = cl). { unfold is. clear -Len. revert qs Len. induction cl as [|c cl IH]; intros [|q qs] Len; try discriminate; [reflexivity|]. cbn in *. f_equal. apply IH. congruence. }
  assert (M2 : map snd is = qs). { unfold is. clear -Len. revert qs Len. induction cl as [|c cl IH]; intros [|q qs] Len; try discriminate; [reflexivity|]. cbn in *. f_equal. apply IH. congruence. }
  assert (CL : forall i, In i is -> exists d u, g_encode compatible g (fst (fst i)) (snd (fst i)) ep = Ok (d, u) /\ g_decode_before_sum compatible g d bp = Ok (snd i)).
  { unfold is. clear -F2. induction F2 as [|c q cl qs H F2 IH]; [intros i []|]. intros i [<-|Hi]; [exact H|now apply IH]. }
  assert (SXi : forall i, In i is -> spec (snd (fst i)) = sp). { intros i Ii. apply SX. rewrite <- M1. now apply in_map. }
  destruct is as [|i0 l] eqn:Eis. { destruct NE. now rewrite <- M1. } rewrite <- Eis in *. assert (I0 : In i0 is) by (rewrite Eis; now left).
  destruct (sum_flat is i0 I0 (fun i => fst (fst i)) (fun i => snd (fst i)) snd Q SXi w0 fs ep bp ap R GP CL) with (st := st) as (ep0 & dp0 & K1 & y & Y & GA); [now rewrite M2|exact A|exact L|].
  exists (map y is). split.
  - rewrite <- M2. assert (X : forall i, In i is -> g_decode_after_sum compatible g (snd i) ap 1 = Ok (y i)).
    { intros i Ii. destruct (CL i Ii) as (d & u & C1 & C2). destruct (one_client w0 fs ep bp ap _ _ d u (snd i) R GP (SXi i Ii) C1 C2 st A L) as (ep1 & dp1 & enc & upd & sh & z & Z1 & Z2 & Z3 & Z4). rewrite K1 in Z1. injection Z1 as <- <-.
      destruct (Y i Ii) as (enc' & upd' & sh' & Y1 & Y2). rewrite Y1 in Z2. injection Z2 as <- <- <-. rewrite Y2 in Z3. injection Z3 as <-. exact Z4. }
    clear -X. induction is as [|i is' IH]; cbn; constructor; [apply X; now left|]. apply IH. intros j Hj. apply X. now right.
  - rewrite <- M1, map_length. exact GA.
Qed.

(** SimpleEncoder with the same draws. *)
Context (m : @simple V Sp M W) (x0 : V) (wm : W).
Hypothesis X0 : spec x0 = sp.
Hypothesis MS : make_simple core sp x0 wm = Ok m.
Lemma simple_lists fs : reached_simple compatible m fs -> exists st, alike spec (f_st f) st /\ lists st fs.
Proof.
  induction 1 as [|fs w x d fs' _ (st & A & L) U].
  - destruct (fx_initial _ _ _ _ _ FX) as [A O]. exists (tensors (k_initial core)). split; [exact A|]. apply lists_values; [apply A|now apply (alike_only spec _ _ A)|]. unfold make_simple in MS. apply bind_ok in MS as ([full st'] & _ & Hm). injection Hm as <-. reflexivity.
  - assert (C : compatible sp x = true). { unfold m_encode in U. unfold make_simple in MS. apply bind_ok in MS as ([full st'] & _ & Hm). injection Hm as <-. cbn [m_tspec] in U. destruct (compatible sp x); [reflexivity|discriminate]. }
    destruct (simple_encode_ok spec compatible core sp f B FX m x0 wm (proj2 (Cp x0) X0) MS w x st fs C A L) as (ep & dp & enc & upd & sh & st' & d2 & fs2 & _ & _ & _ & U2 & _ & L2 & A2 & _). rewrite U in U2. injection U2 as <- <-. eauto.
Qed.
Lemma simple_total w x fs : reached_simple compatible m fs -> spec x = sp -> exists d fs' y, m_encode compatible m w x fs = Ok (d, fs') /\ m_decode m d = Ok y /\ spec y = sp.
Proof.
  intros R Sx. destruct (simple_lists fs R) as (st & A & L). destruct (simple_encode_ok spec compatible core sp f B FX m x0 wm (proj2 (Cp x0) X0) MS w x st fs (proj2 (Cp x) Sx) A L) as (ep & dp & enc & upd & sh & st' & d & fs' & K1 & K2 & _ & U & H & _ & _ & D).
  destruct (fx_params _ _ _ _ _ FX w st A) as (ep' & dp' & K1' & A1 & A2). rewrite K1 in K1'. injection K1' as <- <-. destruct (fx_encode _ _ _ _ _ FX w x ep (proj2 (Cp x) Sx) A1) as (en' & up' & sh' & K2' & B1 & B2 & B3). rewrite K2 in K2'. injection K2' as <- <- <-.
  destruct (proj1 (FD enc dp sh B1 A2 B3)) as (y & KD & Sy). specialize (D d H). rewrite KD in D. destruct (m_decode m d) as [z|] eqn:MD; [|destruct D]. cbn in D. subst z. exists d, fs', y. auto.
Qed.
Lemma simple_is_gather w x fs ep bp ap d u q : reached compatible g fs -> g_get_params compatible g w fs = Ok (ep, bp, ap) -> spec x = sp -> g_encode compatible g w x ep = Ok (d, u) -> g_decode_before_sum compatible g d bp = Ok q ->
  exists d' fs' y, m_encode compatible m w x fs = Ok (d', fs') /\ m_decode m d' = Ok y /\ g_decode_after_sum compatible g q ap 1 = Ok y /\ g_update_state compatible g fs u = Ok fs'.
Proof.
  intros R GP Sx GE GB. destruct (reached_lists fs R) as (st & A & L).
  destruct (one_client w fs ep bp ap w x d u q R GP Sx GE GB st A L) as (ep0 & dp0 & enc & upd & sh & y & K1 & K2 & K3 & GA).
  destruct (simple_encode_ok spec compatible core sp f B FX m x0 wm (proj2 (Cp x0) X0) MS w x st fs (proj2 (Cp x) Sx) A L) as (ep1 & dp1 & enc1 & upd1 & sh1 & st' & d' & fs' & K1' & K2' & K4 & U & H & L' & A' & D).
  rewrite K1 in K1'. injection K1' as <- <-. rewrite K2 in K2'. injection K2' as <- <- <-. exists d', fs', y. split; [exact U|]. split; [|split; [exact GA|]].
  - specialize (D d' H). rewrite K3 in D. destruct (m_decode m d') as [z|]; [|destruct D]. cbn in D. now subst z.
  - destruct (get_params_ok spec compatible E core sp zeros f B F Z0 g Bu w st fs A L) as (ep2 & bp2 & ap2 & sha & e1 & b1 & a1 & CPa & GP2 & L1 & L2 & L3 & A1 & A2 & A3 & A4). rewrite GP in GP2. injection GP2 as <- <- <-.
    destruct CPa as (dp2 & ? & ? & ? & ? & K1' & _). rewrite K1 in K1'. injection K1' as <- <-.
    destruct (encode_ok spec compatible E core sp zeros f B F g Bu w x ep0 ep (proj2 (Cp x) Sx) A1 L1) as (enc3 & upd3 & shb & d3 & u3 & CE & GE2 & H1 & Lu & B1 & B2 & B3). rewrite GE in GE2. injection GE2 as <- <-. destruct CE as (sh3 & sha3 & CE1 & _). rewrite K2 in CE1. injection CE1 as <- <- <-.
    destruct (update_ok spec compatible E core sp zeros f B F g Bu st fs upd u A L (alike_arranged spec _ _ B2 (proj1 (proj2 (fs_tensors _ _ _ _ _ F)))) Lu) as (st3 & fs3 & KU & GU & L4 & A4'). rewrite K4 in KU. injection KU as <-.
    rewrite GU. f_equal. assert (O : only_tensors st') by (apply (alike_only spec _ _ A'); apply (fs_initial _ _ _ _ _ F)). assert (Wst : wf_dval st') by (apply A'). apply lists_values in L4; [|exact Wst|exact O]. apply lists_values in L'; [|exact Wst|exact O]. congruence.
Qed.
End G.
End Flat.
