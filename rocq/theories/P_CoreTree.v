(** C139, C140: GatherEncoder and SimpleEncoder around any encoder tree. *)
From Coq Require Import Lia.
From Verif Require Import Base M_Encoder M_Dicts S_Dicts M_Gather S_Gather M_CoreTree S_CoreTree L_Encoder L_Gather3 L_Gather5 L_Gather6 L_CoreTree L_CoreTree4 L_CoreTree5 L_CoreTree6 L_CoreTree7 P_Gather.
Open Scope nat_scope.

Section C139.
Context {V Sp M W0 : Type} (spec : V -> Sp) (compatible : Sp -> V -> bool) (is_none : V -> bool) (none : V) (shape_of : V -> V).
Notation core e := (core_of is_none none shape_of e).
Notation well_behaved := (well_behaved spec is_none shape_of compatible none).
Notation draws := (list string -> W0).

(** Both encoders can be created, whatever is drawn at random. *)
Theorem C139_created (e : aenc V M W0) zeros w x : well_behaved e zeros -> spec x = spec zeros ->
  (exists g, from_encoder spec compatible (core e) (spec zeros) zeros w = Ok g) /\ exists m, make_simple (core e) (spec zeros) x w = Ok m.
Proof.
  intros (E & Static & NN & BK & FT) Sx. destruct (frame_ex spec compatible is_none none shape_of E Static NN e zeros FT) as (f & F & FX & _). pose proof (B is_none none shape_of e BK) as BB. split.
  - destruct (creates spec compatible E (core e) (spec zeros) zeros f BB F) with (w := w) as (g & H & _); [now apply E|eauto].
  - apply (simple_creates spec compatible (core e) (spec zeros) f BB FX). apply E. congruence.
Qed.

(** No call of a GatherEncoder fails: in every state it can be in, for every client input of the declared shape and dtype, the
    parameters, the encoding, the two halves of the decoding and the state update succeed, and the decoded value has the shape and
    dtype of the input. *)
Theorem C139_every_call_succeeds (e : aenc V M W0) zeros w0 g : well_behaved e zeros -> from_encoder spec compatible (core e) (spec zeros) zeros w0 = Ok g ->
  forall fs, reached compatible g fs -> forall w : draws, exists ep bp ap, g_get_params compatible g w fs = Ok (ep, bp, ap) /\
  forall (wc : draws) x, spec x = spec zeros -> exists d u q fs', g_encode compatible g wc x ep = Ok (d, u) /\ g_decode_before_sum compatible g d bp = Ok q /\
    (forall n, exists y, g_decode_after_sum compatible g q ap n = Ok y /\ spec y = spec zeros) /\ g_update_state compatible g fs u = Ok fs'.
Proof.
  intros (E & Static & NN & BK & FT) G fs R w. destruct (frame_ex spec compatible is_none none shape_of E Static NN e zeros FT) as (f & F & FX & FD). pose proof (B is_none none shape_of e BK) as BB.
  assert (Z : compatible (spec zeros) zeros = true) by now apply E. pose proof (is_built spec compatible (core e) (spec zeros) zeros f g w0 E BB F Z G) as Bu.
  destruct (reached_lists spec compatible is_none none shape_of E e zeros BK f g F Bu fs R) as (st & A & L).
  destruct (get_params_ok spec compatible E (core e) (spec zeros) zeros f BB F Z g Bu w st fs A L) as (_ & _ & _ & _ & ep & bp & ap & _ & GP & _). exists ep, bp, ap. split; [exact GP|]. intros wc x Sx.
  exact (encode_all spec compatible is_none none shape_of E e zeros BK f g F Bu wc x ep fs R w bp ap GP Sx).
Qed.
(** ... nor of a SimpleEncoder: whatever it encodes it decodes again to that shape and dtype. *)
Theorem C139_simple_round_trip (e : aenc V M W0) zeros x0 w0 m : well_behaved e zeros -> spec x0 = spec zeros -> make_simple (core e) (spec zeros) x0 w0 = Ok m ->
  forall fs, reached_simple compatible m fs -> forall (w : draws) x, spec x = spec zeros ->
  exists d fs' y, m_encode compatible m w x fs = Ok (d, fs') /\ m_decode m d = Ok y /\ spec y = spec zeros.
Proof.
  intros (E & Static & NN & BK & FT) X0 G fs R w x Sx. destruct (frame_ex spec compatible is_none none shape_of E Static NN e zeros FT) as (f & F & FX & FD).
  exact (simple_total spec compatible is_none none shape_of E e zeros BK f FX FD m x0 w0 X0 G w x fs R Sx).
Qed.
(** The aggregation modes are those of the update tensors, in order. *)
Theorem C139_modes (e : aenc V M W0) zeros w0 g : well_behaved e zeros -> every_stage modes_match e -> from_encoder spec compatible (core e) (spec zeros) zeros w0 = Ok g ->
  forall fs w ep bp ap, reached compatible g fs -> g_get_params compatible g w fs = Ok (ep, bp, ap) -> forall wc x d us, spec x = spec zeros -> g_encode compatible g wc x ep = Ok (d, us) ->
  List.length (g_modes g) = List.length us /\
  exists ep' enc upd sh, c_encode is_none none shape_of e wc x ep' = Ok (enc, upd, sh) /\
    forall i m u, nth_error (g_modes g) i = Some m -> nth_error us i = Some u -> exists p, at_path p (c_modes e) = APy m /\ at_path p upd = ATf u.
Proof.
  intros (E & Static & NN & BK & FT) MM G fs w ep bp ap R GP wc x d us Sx GE. destruct (frame_ex spec compatible is_none none shape_of E Static NN e zeros FT) as (f & F & FX & FD). pose proof (B is_none none shape_of e BK) as BB.
  assert (Z : compatible (spec zeros) zeros = true) by now apply E. pose proof (is_built spec compatible (core e) (spec zeros) zeros f g w0 E BB F Z G) as Bu.
  destruct (reached_lists spec compatible is_none none shape_of E e zeros BK f g F Bu fs R) as (st & A & L).
  destruct (get_params_ok spec compatible E (core e) (spec zeros) zeros f BB F Z g Bu w st fs A L) as (ep0 & bp0 & ap0 & sha & e1 & b1 & a1 & _ & GP2 & L1 & _ & _ & A1 & _). rewrite GP in GP2. injection GP2 as <- <- <-.
  destruct (encode_ok spec compatible E (core e) (spec zeros) zeros f BB F g Bu wc x ep0 ep ltac:(apply E; congruence) A1 L1) as (enc & upd & shb & d2 & u2 & (sh & sha2 & CE & _) & GE2 & _ & Lu & _ & Au & _). rewrite GE in GE2. injection GE2 as <- <-.
  cbn [core_of k_encode] in CE.
  destruct (C125_modes_belong_to_their_tensors spec compatible (core e) (spec zeros) zeros f g w0 E BB F Z G (modes_wf is_none none shape_of e MM)) with (upd := upd) (us := us) as [Len X].
  - cbn [core_of k_modes]. intros q. rewrite (modes_paths is_none none shape_of e MM wc x ep0 enc upd sh CE q). destruct Au as (_ & _ & Au). specialize (Au q). pose proof (proj1 (proj2 (fs_tensors _ _ _ _ _ F))) as OT. split; intros [u Hu].
    + rewrite Hu in Au. destruct (at_path q (f_upd f)); cbn in Au; try tauto; eauto.
    + rewrite Hu in Au. destruct (at_path q upd); cbn in Au; try tauto; eauto.
  - cbn [core_of k_modes]. apply modes_py.
  - exact Au.
  - exact Lu.
  - split; [exact Len|]. exists ep0, enc, upd, sh. split; [exact CE|exact X].
Qed.

(** C140: adding up the part-decoded values of several clients and decoding the sum gives the sum of what decoding every client's
    value alone gives - for every tree whose stages commute with sums where they declare it. *)
Context (tsum : list V -> V).
Theorem C140_sum_of_clients (e : aenc V M W0) zeros w0 g : well_behaved e zeros -> proper_sum spec tsum -> every_stage (commutes_with_sum spec tsum) e ->
  from_encoder spec compatible (core e) (spec zeros) zeros w0 = Ok g ->
  forall fs w ep bp ap, reached compatible g fs -> g_get_params compatible g w fs = Ok (ep, bp, ap) ->
  forall (clients : list (draws * V)) parts total, clients <> [] -> (forall c, In c clients -> spec (snd c) = spec zeros) ->
  Forall2 (fun c q => exists d u, g_encode compatible g (fst c) (snd c) ep = Ok (d, u) /\ g_decode_before_sum compatible g d bp = Ok q) clients parts -> part_sum tsum parts total ->
  exists ys, Forall2 (fun q y => g_decode_after_sum compatible g q ap 1 = Ok y) parts ys /\ g_decode_after_sum compatible g total ap (Z.of_nat (List.length clients)) = Ok (tsum ys).
Proof.
  intros (E & Static & NN & BK & FT) PS CS G fs w ep bp ap R GP clients parts total NE SX F2 SU. destruct (frame_ex spec compatible is_none none shape_of E Static NN e zeros FT) as (f & F & FX & FD). pose proof (B is_none none shape_of e BK) as BB.
  assert (Z : compatible (spec zeros) zeros = true) by now apply E. pose proof (is_built spec compatible (core e) (spec zeros) zeros f g w0 E BB F Z G) as Bu.
  exact (many_clients spec compatible is_none none shape_of E e zeros BK f g F FD Bu tsum PS CS w fs ep bp ap clients parts total R GP NE SX F2 SU).
Qed.
(** ... and for one client that is what a SimpleEncoder around the same tree makes of the same draws, its state included. *)
Theorem C140_one_client_is_simple_encoder (e : aenc V M W0) zeros w0 g x0 wm m : well_behaved e zeros -> proper_sum spec tsum -> every_stage (commutes_with_sum spec tsum) e ->
  from_encoder spec compatible (core e) (spec zeros) zeros w0 = Ok g -> spec x0 = spec zeros -> make_simple (core e) (spec zeros) x0 wm = Ok m ->
  forall fs (w : draws) x ep bp ap d u q, reached compatible g fs -> spec x = spec zeros -> g_get_params compatible g w fs = Ok (ep, bp, ap) ->
  g_encode compatible g w x ep = Ok (d, u) -> g_decode_before_sum compatible g d bp = Ok q ->
  exists d' fs' y, m_encode compatible m w x fs = Ok (d', fs') /\ m_decode m d' = Ok y /\ g_decode_after_sum compatible g q ap 1 = Ok y /\ g_update_state compatible g fs u = Ok fs'.
Proof.
  intros (E & Static & NN & BK & FT) PS CS G X0 Gm fs w x ep bp ap d u q R Sx GP GE GB. destruct (frame_ex spec compatible is_none none shape_of E Static NN e zeros FT) as (f & F & FX & FD). pose proof (B is_none none shape_of e BK) as BB.
  assert (Z : compatible (spec zeros) zeros = true) by now apply E. pose proof (is_built spec compatible (core e) (spec zeros) zeros f g w0 E BB F Z G) as Bu.
  exact (simple_is_gather spec compatible is_none none shape_of E e zeros BK f g F FX FD Bu tsum PS CS m x0 wm X0 Gm w x fs ep bp ap d u q R GP Sx GE GB).
Qed.
End C139.

(** ** A concrete tree: an adaptive stage that multiplies by a factor kept in its state, whose decoding commutes with sums, and under
    it a plain stage that does not commute and needs the shape.  Tensors are lists of integers; the empty list plays None. *)
Module TreeToy.
Notation V := (list Z) (only parsing).
Definition sp (v : V) : nat := List.length v.
Definition comp (s : nat) (v : V) : bool := Nat.eqb s (List.length v).
Definition isnone (v : V) : bool := match v with [] => true | _ => false end.
Definition shp (v : V) : V := [Z.of_nat (List.length v)].
Definition add2 (a b : V) : V := map (fun p => (fst p + snd p)%Z) (combine a b).
Definition tsum (l : list V) : V := match l with [] => [] | t :: r => fold_left add2 r t end.
Definition scale : astage V string Z := mkAStage true false [("n", "SUM")] [("factor", (true, [2%Z]))]
  (fun st u => do f <- dindex "factor" st ;; do n <- dindex "n" u ;; Ok [("factor", map (Z.add (hd 0%Z n)) f)])
  (fun w st => do f <- dindex "factor" st ;; Ok ([("factor", (true, f))], [("factor", (true, f)); ("unit", (false, [1%Z]))]))
  (fun w x p => do f <- dindex "factor" p ;; Ok ([("values", map (fun a => (a + w * hd 0 f)%Z) x)], [("n", [1%Z])]))
  (fun d p n sh => do v <- dindex "values" d ;; do f <- dindex "factor" p ;; Ok (map (Z.mul (hd 0%Z f)) v)).
Definition reverse : pstage V Z := mkPStage false true (fun w => Ok ([], []))
  (fun w x p => Ok [("bits", rev x)])
  (fun d p n sh => match sh with Some _ => do b <- dindex "bits" d ;; Ok (rev b) | None => Err ValueError end).
Definition tree : aenc V string Z := AEnc scale [("values", AEnc (as_adaptive reverse) [])].
Definition zeros : V := [0; 0; 0]%Z.

Lemma nd1 (a : string) : NoDup [a]. Proof. repeat constructor; cbn; tauto. Qed.
Lemma nd2 (a b : string) : a <> b -> NoDup [a; b]. Proof. intros N. repeat constructor; cbn; intuition congruence. Qed.
Lemma si1 {A} k (a : A) : same_items [(k, a)] [(k, a)]. Proof. apply same_items_refl, nd1. Qed.
Lemma get_same {A} (d d' : dict A) k : same_items d d' -> dindex k d = dindex k d'.
Proof. intros (_ & _ & H). unfold dindex. now rewrite H. Qed.
Lemma items_get {A B} (R : A -> B -> Prop) d d' k a : items R d d' -> dget k d = Some a -> exists b, dindex k d' = Ok b /\ R a b.
Proof. intros (_ & _ & H) D. specialize (H k). rewrite D in H. unfold dindex. destruct (dget k d') as [b|]; [|destruct H]. eauto. Qed.
Lemma it1 {A B} (R : A -> B -> Prop) k a b : R a b -> items R [(k, a)] [(k, b)].
Proof. intros H. split; [apply nd1|]. split; [apply nd1|]. intros k'. cbn. now destruct (String.eqb k' k). Qed.
Lemma it2 {A B} (R : A -> B -> Prop) k a b k2 a2 b2 : k <> k2 -> R a b -> R a2 b2 -> items R [(k, a); (k2, a2)] [(k, b); (k2, b2)].
Proof. intros N H H2. split; [now apply nd2|]. split; [now apply nd2|]. intros k'. cbn. destruct (String.eqb k' k); [exact H|]. now destruct (String.eqb k' k2). Qed.
Lemma it0 {A B} (R : A -> B -> Prop) : items R [] []. Proof. repeat split; constructor. Qed.

Lemma scale_by_key : stage_by_key scale.
Proof.
  constructor; cbn [scale a_update a_params a_encode a_decode].
  - intros st st' u u' S1 S2. rewrite (get_same _ _ "factor" S1), (get_same _ _ "n" S2). destruct (dindex "factor" st') as [f|]; [|exact Logic.I]. cbn [bind]. destruct (dindex "n" u') as [n|]; [|exact Logic.I]. apply si1.
  - intros w st st' S1. rewrite (get_same _ _ "factor" S1). destruct (dindex "factor" st') as [f|]; [|exact Logic.I]. split; [apply si1|]. apply same_items_refl. now apply nd2.
  - intros w x p p' S1. rewrite (get_same _ _ "factor" S1). destruct (dindex "factor" p') as [f|]; [|exact Logic.I]. split; apply si1.
  - intros d d' p p' n sh S1 S2. rewrite (get_same _ _ "values" S1), (get_same _ _ "factor" S2). destruct (dindex "values" d') as [v|]; [|exact Logic.I]. cbn [bind]. destruct (dindex "factor" p'); [reflexivity|exact Logic.I].
Qed.
Lemma reverse_by_key : stage_by_key (as_adaptive reverse : astage V string Z).
Proof.
  constructor; cbn [reverse as_adaptive a_update a_params a_encode a_decode p_params p_encode p_decode].
  - intros. cbn. apply same_items_refl. constructor.
  - intros. split; apply same_items_refl; constructor.
  - intros. split; [apply si1|apply same_items_refl; constructor].
  - intros d d' p p' n [s|] S1 S2; [|exact Logic.I]. rewrite (get_same _ _ "bits" S1). destruct (dindex "bits" d'); [reflexivity|exact Logic.I].
Qed.
Lemma tree_by_key : every_stage stage_by_key tree.
Proof.
  constructor; [exact scale_by_key|apply nd1|]. intros k e [H|[]]. injection H as <- <-. constructor; [exact reverse_by_key|constructor|intros k e []].
Qed.
Lemma scale_fixed : stage_fixed sp isnone shp scale 3 (mkSF [("factor", [0%Z])] [("factor", (true, [0%Z]))] [("factor", (true, [0%Z])); ("unit", (false, [1%Z]))] [("values", zeros)] [("n", [0%Z])]).
Proof.
  constructor; cbn [scale sf_st sf_ep sf_dp sf_enc sf_upd a_initial a_update a_params a_encode a_decode a_needs_shape].
  - repeat split; try apply nd1. now apply nd2.
  - now apply it1.
  - intros w st H. destruct (items_get _ _ _ "factor" _ H eq_refl) as (f & -> & Hf). cbn [bind]. do 2 eexists. split; [reflexivity|]. split; [now apply it1|now apply it2].
  - split; intros k x H; cbn in H; [destruct (String.eqb k "factor"); discriminate|]. destruct (String.eqb k "factor"); [discriminate|]. destruct (String.eqb k "unit"); [|discriminate]. injection H as <-. reflexivity.
  - intros w x p Sx H. destruct (items_get _ _ _ "factor" _ H eq_refl) as (f & -> & Hf). cbn [bind]. do 2 eexists. split; [reflexivity|]. split; apply it1; [|reflexivity]. unfold same_spec, sp in *. now rewrite map_length, Sx.
  - intros d p n x H1 H2 Sx. destruct (items_get _ _ _ "values" _ H1 eq_refl) as (v & -> & Hv). destruct (items_get _ _ _ "factor" _ H2 eq_refl) as (f & -> & Hf). cbn [bind]. eexists. split; [reflexivity|]. unfold same_spec, sp in *. now rewrite map_length, <- Hv.
  - intros st u H1 H2. destruct (items_get _ _ _ "factor" _ H1 eq_refl) as (f & -> & Hf). destruct (items_get _ _ _ "n" _ H2 eq_refl) as (n & -> & _). cbn [bind]. eexists. split; [reflexivity|]. apply it1. unfold same_spec, sp in *. now rewrite map_length, <- Hf.
Qed.
Lemma reverse_fixed : stage_fixed sp isnone shp (as_adaptive reverse : astage V string Z) 3 (mkSF [] [] [] [("bits", zeros)] []).
Proof.
  constructor; cbn [reverse as_adaptive p_commutes p_needs_shape p_params p_encode p_decode sf_st sf_ep sf_dp sf_enc sf_upd a_initial a_update a_params a_encode a_decode a_needs_shape].
  - repeat split; constructor; cbn; try tauto. constructor.
  - apply it0.
  - intros. do 2 eexists. split; [reflexivity|]. split; apply it0.
  - split; intros k x H; discriminate.
  - intros w x p Sx _. do 2 eexists. split; [reflexivity|]. split; [|apply it0]. apply it1. unfold same_spec, sp in *. now rewrite rev_length, Sx.
  - intros d p n x H _ Sx. destruct (items_get _ _ _ "bits" _ H eq_refl) as (v & -> & Hv). cbn [bind]. eexists. split; [reflexivity|]. unfold same_spec, sp in *. now rewrite rev_length, <- Hv.
  - intros. eexists. split; [reflexivity|apply it0].
Qed.
Lemma behaved : well_behaved sp isnone shp comp [] tree zeros.
Proof.
  split; [|split; [|split; [reflexivity|split; [exact tree_by_key|]]]].
  - intros x y. unfold comp, sp. rewrite Nat.eqb_eq. reflexivity.
  - split; [intros x y H; unfold shp, sp in *; now rewrite H|reflexivity].
  - eapply FT with (at_key := fun _ => zeros); [exact scale_fixed|apply nd1| | |].
    + intros k e [H|[]]. injection H as <- <-. reflexivity.
    + intros k e [H|[]]. injection H as <- <-. eapply FT with (at_key := fun _ => zeros); [exact reverse_fixed|constructor|intros ? ? []|intros ? ? []|intros ? ? ? ? []].
    + intros k k' ch r [<-|[]] [<-|[]] H. vm_compute in H. discriminate H.
Qed.
Lemma scale_modes : every_stage modes_match tree.
Proof.
  constructor; [|apply nd1|].
  - split; [apply nd1|]. intros w x p enc upd H k. cbn [scale a_encode] in H. destruct (dindex "factor" p) as [f|]; [|discriminate]. injection H as _ <-. reflexivity.
  - intros k e [H|[]]. injection H as <- <-. constructor; [|constructor|intros ? ? []]. split; [constructor|]. intros w x p enc upd H k. cbn in H. injection H as _ <-. reflexivity.
Qed.
Lemma add2_length a b n : List.length a = n -> List.length b = n -> List.length (add2 a b) = n.
Proof. intros Ha Hb. unfold add2. rewrite map_length, combine_length. lia. Qed.
Lemma add2_scale k a : forall b, map (Z.mul k) (add2 a b) = add2 (map (Z.mul k) a) (map (Z.mul k) b).
Proof. unfold add2. induction a as [|x a IH]; intros [|y b]; try reflexivity. cbn. rewrite IH. f_equal. lia. Qed.
Lemma sum_scale k l : map (Z.mul k) (tsum l) = tsum (map (map (Z.mul k)) l).
Proof. destruct l as [|t l]; [reflexivity|]. cbn. revert t. induction l as [|x l IH]; intros t; [reflexivity|]. cbn. now rewrite IH, add2_scale. Qed.
Lemma sum_proper : proper_sum sp tsum.
Proof.
  split; [reflexivity|]. intros [|t l] n NE H; [congruence|]. cbn. assert (Ht : sp t = n) by (apply H; now left). assert (Hl : forall x, In x l -> sp x = n) by (intros x Hx; apply H; now right). clear NE H. revert t Ht. induction l as [|x l IH]; intros t Ht; [exact Ht|]. cbn. apply IH.
  - intros y Hy. apply Hl. now right. - apply add2_length; [exact Ht|]. apply Hl. now left.
Qed.
Lemma tree_commutes : every_stage (commutes_with_sum sp tsum) tree.
Proof.
  constructor; [|apply nd1|].
  - intros _ ds ys D p sh NE _ _ (ND & NDs & K) F2. cbn [scale a_decode] in *. specialize (K "values"). unfold dindex at 1. destruct (dget "values" D) as [t|].
    + cbn [bind]. destruct K as (ts & K & ->). destruct (dindex "factor" p) as [f|] eqn:Ef.
      * cbn [bind]. f_equal. rewrite sum_scale. f_equal. clear -K F2. revert ts K. induction F2 as [|d y ds ys H F2 IH]; intros [|t ts] K; try discriminate; [reflexivity|]. cbn in K. injection K as K1 K2. unfold dindex at 1 in H. rewrite K1 in H. cbn in H. injection H as <-. cbn. f_equal. now apply IH.
      * exfalso. destruct F2 as [|d y ds ys H F2]; [congruence|]. destruct (dindex "values" d); discriminate.
    + exfalso. destruct F2 as [|d y ds ys H F2]; [congruence|]. unfold dindex at 1 in H. rewrite (K d (or_introl eq_refl)) in H. discriminate.
  - intros k e [H|[]]. injection H as <- <-. constructor; [|constructor|intros ? ? []]. intros H. discriminate.
Qed.
(** Two clients through the flat interface: [1;2;3] and [10;20;30], factor 2; their decoded values add up. *)
Definition w0 : list string -> Z := fun _ => 0%Z.
Definition w1 : list string -> Z := fun _ => 5%Z.
Definition flat := do g <- from_encoder sp comp (core_of isnone [] shp tree) 3 zeros w0 ;;
  do (eb, ap) <- g_get_params comp g w0 (g_initial_state g) ;; let '(ep, bp) := eb in
  do (d1, u1) <- g_encode comp g w0 [1; 2; 3]%Z ep ;; do (d2, u2) <- g_encode comp g w1 [10; 20; 30]%Z ep ;;
  do q1 <- g_decode_before_sum comp g d1 bp ;; do q2 <- g_decode_before_sum comp g d2 bp ;;
  match q1, q2 with
  | PD [(k, t1)], PD [(_, t2)] => do y <- g_decode_after_sum comp g (PD [(k, tsum [t1; t2])]) ap 2 ;; do y1 <- g_decode_after_sum comp g q1 ap 1 ;; do y2 <- g_decode_after_sum comp g q2 ap 1 ;;
      do fs <- g_update_state comp g (g_initial_state g) u1 ;; Ok (t1, y, y1, y2, (fs, g_modes g))
  | _, _ => Err TypeError end.
End TreeToy.
Import TreeToy.
Example C139_ex : well_behaved sp isnone shp comp [] tree zeros /\ every_stage modes_match tree. Proof. exact (conj behaved scale_modes). Qed.
Example C140_ex : proper_sum sp tsum /\ every_stage (commutes_with_sum sp tsum) tree /\ flat = Ok ([1; 2; 3], [42; 64; 86], [2; 4; 6], [40; 60; 80], ([[3]], ["SUM"]))%Z.
Proof. split; [exact sum_proper|]. split; [exact tree_commutes|]. vm_compute. reflexivity. Qed.

Print Assumptions C139_created.
Print Assumptions C139_every_call_succeeds.
Print Assumptions C139_simple_round_trip.
Print Assumptions C139_modes.
Print Assumptions C140_sum_of_clients.
Print Assumptions C140_one_client_is_simple_encoder.
