(** The ready-made encoders behind GatherEncoder and SimpleEncoder. *)
From Coq Require Import Reals.
From Verif Require Import Base M_Tensor L_Tensor M_Bitpack L_Bitpack M_Hadamard S_Hadamard L_Hadamard L_Kashin M_Encoder S_Encoder L_Encoder M_Composer S_Composer M_CommonEncoders S_CommonEncoders L_CommonEncoders L_CommonEncoders2 L_CommonEncoders3 L_CommonEncoders4
  M_Dicts S_Dicts M_Gather S_Gather L_Gather3 L_Gather5 L_Gather6 M_CoreTree S_CoreTree L_CoreTree L_CoreTree4 L_CoreTree5 L_CoreTree6 P_Gather P_CoreTree M_CommonFlat S_CommonFlat L_CommonFlat L_CommonFlat2 L_CommonFlat3 L_CommonFlat4.
From Coq Require Import Lra Psatz.
Open Scope R_scope.
Open Scope list_scope.
Local Notation lib k := (as_adaptive (lib_stage k) : astage fval string (nat -> R)).
Local Notation zshape z := (fspec_of z).

(** ** What the library composes *)
Definition uq_chain bits mm st : list (skind * string) := [(KFlatten, "flattened_values"%string); (KUniform bits mm st, "quantized_values"%string)].
Definition had_chain bits : list (skind * string) := [(KFlatten, "flattened_values"%string); (KHadamard, "hadamard_values"%string); (KUniform bits None true, "quantized_values"%string)].
Lemma flat_uniform_eq bits mml st static e : flat_uniform bits mml st static = Ok e -> (1 <= bits <= 16)%nat /\ exists mm, valid_mm mm /\
  mml = match mm with Some (a, b) => Some [a; b] | None => None end /\ e = chain_f (uq_chain bits mm st) (KBitpack bits static) /\
  uniform_quantization bits mml st static = Ok (chain_c (uq_chain bits mm st) (KBitpack bits static)).
Proof.
  unfold flat_uniform, uniform_quantization, compose_uniform. unfold new_bitpack. destruct ((1 <=? bits) && (bits <=? 16))%nat; cbn [bind new_composer]; [|discriminate].
  destruct (new_uniform bits mml st) as [k|] eqn:E; cbn [bind]; [|discriminate]. destruct (new_uniform_inv _ _ _ _ E) as (B & mm & V & -> & M).
  cbn. intros [= <-]. split; [exact B|]. exists mm. auto.
Qed.
Lemma flat_hadamard_eq bits static e : flat_hadamard bits static = Ok e -> (1 <= bits <= 16)%nat /\ e = chain_f (had_chain bits) (KBitpack bits static) /\
  hadamard_quantization bits static = Ok (chain_c (had_chain bits) (KBitpack bits static)).
Proof.
  unfold flat_hadamard, hadamard_quantization, compose_hadamard. unfold new_bitpack. destruct ((1 <=? bits) && (bits <=? 16))%nat; cbn [bind new_composer]; [|discriminate].
  destruct (new_uniform bits None true) as [k|] eqn:E; cbn [bind]; [|discriminate]. destruct (new_uniform_inv _ _ _ _ E) as (B & mm & V & -> & M).
  assert (mm = None) as -> by (destruct mm as [[? ?]|]; [discriminate|reflexivity]). cbn. intros [= <-]. auto.
Qed.
Lemma flat_uniform_ok bits mml st static : (1 <= bits <= 16)%nat -> mml = None \/ (exists a b, mml = Some [a; b] /\ a < b) -> exists e, flat_uniform bits mml st static = Ok e.
Proof.
  intros B M. unfold flat_uniform, compose_uniform, new_bitpack, new_uniform. assert ((1 <=? bits) && (bits <=? 16) = true)%nat as -> by lia. cbn [bind new_composer negb].
  destruct M as [->|(a & b & -> & L)]; [|destruct (Rle_dec b a); [lra|]]; cbn; eauto.
Qed.
Lemma flat_hadamard_ok bits static : (1 <= bits <= 16)%nat -> exists e, flat_hadamard bits static = Ok e.
Proof. intros B. unfold flat_hadamard, compose_hadamard, new_bitpack, new_uniform. assert ((1 <=? bits) && (bits <=? 16) = true)%nat as -> by lia. cbn. eauto. Qed.

Inductive chain_fits : list (skind * string) -> skind -> list nat -> Prop :=
| CF0 kl sh : accepts kl sh -> chain_fits [] kl sh
| CF1 k key ks kl sh : accepts k sh -> In key (compressible k) -> chain_fits ks kl (passes_on k sh) -> chain_fits ((k, key) :: ks) kl sh.
Lemma chain_tree ks kl sh : chain_fits ks kl sh -> lib_tree (chain_f ks kl) sh /\ good_chain ks.
Proof.
  induction 1 as [kl sh A|k key ks kl sh A I1 C [IH G]]; cbn [chain_f].
  - split; [|constructor]. constructor; [exact A|constructor|intros ? ? []].
  - split; [|constructor; assumption]. constructor; [exact A|apply nd1|]. intros key' c [H|[]]. injection H as <- <-. split; [exact I1|exact IH].
Qed.
Lemma uq_fits bits mm st static sh : (1 <= bits <= 16)%nat -> chain_fits (uq_chain bits mm st) (KBitpack bits static) sh.
Proof. intros B. unfold uq_chain. constructor; [exact Logic.I|now left|]. constructor; [exact B|now left|]. constructor. exact B. Qed.
Lemma had_fits bits static sh : (1 <= bits <= 16)%nat -> prod sh <> O -> chain_fits (had_chain bits) (KBitpack bits static) sh.
Proof.
  intros B N. unfold had_chain. constructor; [exact Logic.I|now left|]. constructor; [left; exists (prod sh); auto|now left|]. constructor; [exact B|now left|]. constructor. exact B.
Qed.
Lemma id_tree e sh : flat_identity = Ok e -> lib_tree e sh.
Proof. cbn. intros [= <-]. constructor; [exact Logic.I|constructor|intros ? ? []]. Qed.

Lemma chain_s_fits ks kl : forall w wc, fits (chain_s ks kl w wc) (chain_c ks kl).
Proof. induction ks as [|[k key] ks IH]; intros w wc; cbn [chain_s chain_c]; constructor; [intros ? ? []|]. intros k' c [H|[]]. injection H as <- <-. eexists. split; [cbn; now rewrite String.eqb_refl|apply IH]. Qed.
Lemma chain_s_draws ks kl : forall w wc, unit_draws w -> unit_draws wc -> draws_ok (chain_s ks kl w wc).
Proof.
  induction ks as [|[k key] ks IH]; intros w wc W C; cbn [chain_s]; constructor.
  - destruct kl; cbn; intros i; (apply W || apply C).
  - constructor.
  - destruct k; cbn; intros i; (apply W || apply C).
  - constructor; [|constructor]. cbn [snd]. apply IH; intros p i; [apply W|apply C].
Qed.

(** ** One client's value *)
Section Client.
Context (e : ftree) (ks : list (skind * string)) (kl : skind) (sh : list nat).
Hypothesis Ee : e = chain_f ks kl.
Hypothesis CF : chain_fits ks kl sh.
(** What the typed encoder makes of [x] with the server's draws [w] and the client's draws [wc]. *)
Definition alone (w wc : list string -> nat -> R) (x : fval) (y : fval) : Prop :=
  exists t ep dp sent shs t', x = FV (F t) /\ y = FV t' /\ get_params (chain_c ks kl) (chain_s ks kl w wc) = Ok (ep, dp) /\ encode ten_shape (chain_c ks kl) (F t) ep = Ok (sent, shs) /\
    decode (chain_c ks kl) (ED sent) (full dp) (full shs) = Ok t'.
Lemma core_alone w wc st x ep dp enc upd shp y : fspec_of x = SFloat sh (prod sh) ->
  k_params (fcore e) w st = Ok (ep, dp) -> k_encode (fcore e) wc x ep = Ok (enc, upd, shp) -> k_decode (fcore e) enc dp shp = Ok y -> alone w wc x y.
Proof.
  intros Sx H1 H2 H3. apply spec_float in Sx as (t & -> & _ & _). cbn [fcore core_of k_params k_encode k_decode] in *. apply bind_ok in H3 as (r & H3 & H4). subst e.
  destruct (chain_refines ks kl (proj2 (chain_tree _ _ _ CF)) w wc st (F t) ep dp enc upd shp r H1 H2 H3) as (ep' & dp' & sent & shs & y' & P1 & P2 & P3 & ->). cbn in H4. injection H4 as <-.
  exists t, ep', dp', sent, shs, y'. auto 6.
Qed.
Context (zeros : fval) (Z : float_of sh zeros).
Lemma tree_ok : lib_tree e sh. Proof. subst e. apply (chain_tree _ _ _ CF). Qed.
Lemma zspec : fspec_of zeros = SFloat sh (prod sh). Proof. now apply spec_float. Qed.

Lemma gather_clients w0 g : from_encoder fspec_of fcompatible (fcore e) (fspec_of zeros) zeros w0 = Ok g ->
  forall fs w ep bp ap, reached fcompatible g fs -> g_get_params fcompatible g w fs = Ok (ep, bp, ap) ->
  forall (clients : list ((list string -> nat -> R) * fval)) parts total, clients <> [] -> (forall c, In c clients -> float_of sh (snd c)) ->
  Forall2 (fun c q => exists d u, g_encode fcompatible g (fst c) (snd c) ep = Ok (d, u) /\ g_decode_before_sum fcompatible g d bp = Ok q) clients parts -> part_sum fsum parts total ->
  exists ys, Forall2 (fun c y => alone w (fst c) (snd c) y) clients ys /\ g_decode_after_sum fcompatible g total ap (Z.of_nat (List.length clients)) = Ok (fsum ys).
Proof.
  intros G fs w ep bp ap R GP clients parts total NE SX F2 SU. pose proof (lib_behaved e sh zeros tree_ok Z) as WB. pose proof f_proper as PS. pose proof (lib_tree_every _ e sh lib_commutes tree_ok) as CS.
  assert (SX' : forall c, In c clients -> fspec_of (snd c) = fspec_of zeros) by (intros c Hc; rewrite zspec; apply spec_float, SX, Hc).
  destruct (C140_sum_of_clients fspec_of fcompatible fis_none FNone fshape_of fsum e zeros w0 g WB PS CS G fs w ep bp ap R GP clients parts total NE SX' F2 SU) as (ys & Y & GA). exists ys. split; [|exact GA].
  destruct WB as (E & Static & NN & BK & FTr). destruct (frame_ex fspec_of fcompatible fis_none FNone fshape_of E Static NN e zeros FTr) as (f & F & FX & FD). pose proof (B fis_none FNone fshape_of e BK) as BB.
  assert (Zc : fcompatible (fspec_of zeros) zeros = true) by now apply E. pose proof (is_built fspec_of fcompatible (fcore e) (fspec_of zeros) zeros f g w0 E BB F Zc G) as Bu.
  destruct (reached_lists fspec_of fcompatible fis_none FNone fshape_of E e zeros BK f g F Bu fs R) as (st & A & L).
  clear SU GA NE SX. revert ys Y SX'. induction F2 as [|c q cl qs (d & u & GE & GB) F2 IH]; intros ys Y SX'; [inversion Y; constructor|]; destruct ys as [|y ys]; [inversion Y|]; inversion_clear Y as [|? ? ? ? Y1 Y2]; constructor.
  - destruct (one_client fspec_of fcompatible fis_none FNone fshape_of E e zeros BK f g F FD Bu fsum PS CS w fs ep bp ap (fst c) (snd c) d u q R GP (SX' c (or_introl eq_refl)) GE GB st A L) as (ep0 & dp0 & enc & upd & shp & y' & K1 & K2 & K3 & GA).
    rewrite Y1 in GA. injection GA as <-. eapply core_alone; [rewrite (SX' c (or_introl eq_refl)); exact zspec|exact K1|exact K2|exact K3].
  - apply IH; [exact Y2|]. intros c' Hc. apply SX'. now right.
Qed.
Lemma simple_client x0 w0 m : float_of sh x0 -> make_simple (fcore e) (fspec_of zeros) x0 w0 = Ok m ->
  forall fs, reached_simple fcompatible m fs -> forall w x, float_of sh x ->
  exists d fs' y, m_encode fcompatible m w x fs = Ok (d, fs') /\ m_decode m d = Ok y /\ alone w w x y.
Proof.
  intros X0 G fs R w x Sx. pose proof (lib_behaved e sh zeros tree_ok Z) as (E & Static & NN & BK & FTr). destruct (frame_ex fspec_of fcompatible fis_none FNone fshape_of E Static NN e zeros FTr) as (f & F & FX & FD). pose proof (B fis_none FNone fshape_of e BK) as BB.
  apply spec_float in X0, Sx. rewrite <- zspec in X0, Sx. assert (Cp : forall v, fcompatible (fspec_of zeros) v = true <-> fspec_of v = fspec_of zeros) by (intros v; rewrite E; split; congruence).
  destruct (simple_lists fspec_of fcompatible fis_none FNone fshape_of E e zeros BK f FX m x0 w0 X0 G fs R) as (st & A & L).
  destruct (simple_encode_ok fspec_of fcompatible (fcore e) (fspec_of zeros) f BB FX m x0 w0 (proj2 (Cp x0) X0) G w x st fs (proj2 (Cp x) Sx) A L) as (ep & dp & enc & upd & shp & st' & d & fs' & K1 & K2 & _ & U & H & _ & _ & D).
  change (fcore e) with (core_of fis_none FNone fshape_of e) in *.
  destruct (fx_params _ _ _ _ _ FX w st A) as (ep' & dp' & K1' & A1 & A2). rewrite K1 in K1'. injection K1' as <- <-. destruct (fx_encode _ _ _ _ _ FX w x ep (proj2 (Cp x) Sx) A1) as (en' & up' & sh' & K2' & B1 & B2 & B3). rewrite K2 in K2'. injection K2' as <- <- <-.
  destruct (proj1 (FD enc dp shp B1 A2 B3)) as (y & KD & Sy). specialize (D d H). rewrite KD in D. destruct (m_decode m d) as [z|] eqn:MD; [|destruct D]. cbn in D. subst z.
  exists d, fs', y. split; [exact U|]. split; [exact MD|]. rewrite zspec in Sx. eapply core_alone; eassumption.
Qed.
End Client.

(** ** What one client's value decodes to *)
Lemma alone_uniform bits mml st static e mm w wc x y sh : (1 <= bits <= 16)%nat -> uniform_quantization bits mml st static = Ok e -> e = chain_c (uq_chain bits mm st) (KBitpack bits static) ->
  unit_draws w -> unit_draws wc -> float_of sh x -> prod sh <> O -> alone (uq_chain bits mm st) (KBitpack bits static) w wc x y -> quantized bits st mml x y.
Proof.
  intros Bb UQ Ee Dw Dc (tx & -> & Es & W) N (t & ep & dp & sent & shs & t' & [= <-] & -> & P1 & P2 & P3). subst e.
  destruct (uniform_main bits mml st static _ (chain_s (uq_chain bits mm st) (KBitpack bits static) w wc) tx UQ (chain_s_fits _ _ w wc) (chain_s_draws _ _ w wc Dw Dc) W) as (sent' & ty & lo & hi & (ep' & dp' & shs' & Q1 & Q2 & Q3) & Sy & Wy & WR & Bd).
  { intros H. unfold wf in W. rewrite H, Es in W. cbn in W. congruence. }
  rewrite P1 in Q1. injection Q1 as <- <-. rewrite P2 in Q2. injection Q2 as <- <-. rewrite P3 in Q3. injection Q3 as ->. exists tx, ty, lo, hi. auto 6.
Qed.
Lemma alone_hadamard bits static e w wc x y sh : hadamard_quantization bits static = Ok e -> e = chain_c (had_chain bits) (KBitpack bits static) ->
  unit_draws w -> unit_draws wc -> (forall i, (i < prod sh)%nat -> w ["flattened_values"%string] i <> 1/2) -> float_of sh x -> prod sh <> O -> alone (had_chain bits) (KBitpack bits static) w wc x y -> quantized_rotated bits x y.
Proof.
  intros UQ Ee Dw Dc NH (tx & -> & Es & W) N (t & ep & dp & sent & shs & t' & [= <-] & -> & P1 & P2 & P3). subst e.
  destruct (hadamard_main bits static _ (chain_s (had_chain bits) (KBitpack bits static) w wc) tx UQ (chain_s_fits _ _ w wc) (chain_s_draws _ _ w wc Dw Dc)) as (sent' & ty & (ep' & dp' & shs' & Q1 & Q2 & Q3) & Sy & Wy & Bd).
  { intros u Hu i Hi. cbn in Hu. injection Hu as <-. rewrite Es in Hi. exact (NH i Hi). }
  { exact W. } { intros H. unfold wf in W. rewrite H, Es in W. cbn in W. congruence. }
  rewrite P1 in Q1. injection Q1 as <- <-. rewrite P2 in Q2. injection Q2 as <- <-. rewrite P3 in Q3. injection Q3 as ->. exists tx, ty. auto 6.
Qed.
Lemma F2_and_impl {A B} (P Q : A -> B -> Prop) (l : list A) m : (forall a b, In a l -> P a b -> Q a b) -> Forall2 P l m -> Forall2 Q l m.
Proof. intros H F. induction F as [|a b l m Hab F IH]; constructor; [apply H; [now left|exact Hab]|]. apply IH. intros a' b' I1. apply H. now right. Qed.

(** Sums of quantized values. *)
Lemma quantized_sum bits st lo hi sh (cl : list ((list string -> nat -> R) * fval)) ys : lo < hi -> cl <> [] -> (forall c, In c cl -> float_of sh (snd c)) -> Forall2 (fun c y => quantized bits st (Some [lo; hi]) (snd c) y) cl ys ->
  exists Y, fsum ys = FV (F Y) /\ shape Y = sh /\ wf Y /\ forall i, (i < prod sh)%nat -> exists cs,
    Forall2 (fun c v => exists t, snd c = FV (F t) /\ clipped_toR lo hi (nth i (data t) 0) v) cl cs /\
    Rabs (nth i (data Y) 0 - sumR cs) < INR (List.length cl) * ((hi - lo) / IZR (2 ^ Z.of_nat bits - 1)) /\
    (st = false -> Rabs (nth i (data Y) 0 - sumR cs) <= INR (List.length cl) * (1/2 * ((hi - lo) / IZR (2 ^ Z.of_nat bits - 1)))).
Proof.
  intros LH NE SX F2. set (step := (hi - lo) / IZR (2 ^ Z.of_nat bits - 1)).
  assert (TY : exists ts, ys = map (fun t => FV (F t)) ts /\ (forall t, In t ts -> shape t = sh /\ wf t) /\ Forall2 (fun c t => exists tx, snd c = FV (F tx) /\ forall i, (i < prod sh)%nat -> exists v, clipped_toR lo hi (nth i (data tx) 0) v /\ Rabs (nth i (data t) 0 - v) < step /\ (st = false -> Rabs (nth i (data t) 0 - v) <= 1/2 * step)) cl ts).
  { clear NE. induction F2 as [|c y cl ys (tx & ty & l & h & E1 & E2 & E3 & E4 & E5 & E6) F2 IH]; [exists []; split; [reflexivity|]; split; [intros ? []|constructor]|]. destruct IH as (ts & -> & A & Bb); [intros c' Hc; apply SX; now right|]. cbn [working_rangeR] in E5. injection E5 as <- <-.
    assert (Etx : shape tx = sh). { destruct (SX c (or_introl eq_refl)) as (t0 & E0 & S0 & _). rewrite E1 in E0. injection E0 as <-. exact S0. }
    exists (ty :: ts). split; [cbn; now rewrite E2|]. split; [intros t [<-|Ht]; [split; [congruence|exact E4]|now apply A]|]. constructor; [|exact Bb]. exists tx. split; [exact E1|]. intros i Hi. rewrite <- Etx in Hi. destruct (E6 i Hi) as (v & V1 & V2 & V3 & _). exists v. auto. }
  destruct TY as (ts & -> & A & Bb). destruct ts as [|t ts]; [inversion Bb; congruence|]. assert (W : shape t = sh /\ wf t) by (apply A; now left).
  destruct (sum_float t ts (proj2 W)) as (Y & EY & FS). { intros z Hz. destruct (A z (or_intror Hz)). split; [destruct W; congruence|assumption]. }
  destruct FS as (xs & y0 & Exs & [= <-] & WY & FY & SY). assert (xs = t :: ts) as -> by (revert Exs; generalize (t :: ts); clear; intros l; revert xs; induction l as [|a l IH]; intros [|b m]; cbn; try discriminate; [reflexivity|]; intros [= -> E]; f_equal; now apply IH).
  assert (SHY : shape Y = sh) by (pose proof (Forall_inv FY) as [E2 _]; destruct W; congruence).
  exists Y. split; [exact EY|]. split; [exact SHY|]. split; [exact WY|]. intros i Hi. rewrite SY by (now rewrite SHY). clear - Bb Hi LH NE.
  assert (IND : exists cs, Forall2 (fun c v => exists t, snd c = FV (F t) /\ clipped_toR lo hi (nth i (data t) 0) v) cl cs /\
     (cl = [] -> sumR (map (fun x => nth i (data x) 0) (t :: ts)) - sumR cs = 0) /\ (cl <> [] -> Rabs (sumR (map (fun x => nth i (data x) 0) (t :: ts)) - sumR cs) < INR (List.length cl) * step) /\
     (st = false -> Rabs (sumR (map (fun x => nth i (data x) 0) (t :: ts)) - sumR cs) <= INR (List.length cl) * (1/2 * step))).
  { clear NE. revert Bb. generalize (t :: ts) as l. intros l Bb. induction Bb as [|c y cl l (tx & E & H) _ (cs & F2 & IH0 & IH1 & IH2)].
    - exists []. split; [constructor|]. cbn. rewrite Rminus_0_r, Rabs_R0. split; [reflexivity|]. split; [congruence|]. intros _. lra.
    - destruct (H i Hi) as (v & V1 & V2 & V3). exists (v :: cs). split; [constructor; [exists tx; auto|exact F2]|]. cbn [map sumR]. change (List.length (c :: cl)) with (S (List.length cl)). rewrite S_INR. set (a := nth i (data y) 0) in *. set (s := sumR (map (fun x => nth i (data x) 0) l)) in *. set (q := sumR cs) in *.
      assert (TI : Rabs (a + s - (v + q)) <= Rabs (a - v) + Rabs (s - q)) by (replace (a + s - (v + q)) with ((a - v) + (s - q)) by lra; apply Rabs_triang). split; [discriminate|]. split.
      + intros _. destruct cl as [|c0 cl]; [|specialize (IH1 ltac:(discriminate)); lra]. rewrite (IH0 eq_refl), Rabs_R0 in TI. change (INR (List.length (@nil ((list string -> nat -> R) * fval)))) with 0. lra.
      + intros Es. specialize (IH2 Es). specialize (V3 Es). lra. }
  destruct IND as (cs & F2 & _ & H1 & H2). exists cs. auto.
Qed.
