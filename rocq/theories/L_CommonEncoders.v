(** Lemmas about the ready-made encoders. *)
From Coq Require Import Reals Lra Psatz.
From Verif Require Import Base M_Tensor L_Tensor M_Bitpack L_Bitpack M_Hadamard S_Hadamard L_Hadamard L_Kashin M_Encoder S_Encoder M_Composer M_CommonEncoders S_CommonEncoders.
From Coq Require Import Lra Psatz.
Open Scope R_scope.

(** * Chains of stages *)
Section Chain.
Context {T P Sh St : Type} (tshape : T -> Sh).
Notation encoder := (@encoder T P Sh St).
Lemma encode_leaf (s : @stage T P Sh St) x p : encode tshape (Enc s []) x (Node p []) =
  do d <- s_encode s x p ;; Ok (map (fun kt => (fst kt, ET (snd kt))) d, Node (if s_needs_shape s then Some (tshape x) else None) []).
Proof. cbn [encode troot]. destruct (s_encode s x p); reflexivity. Qed.
Lemma encode_chain (s : @stage T P Sh St) k (c : encoder) x p pk t rest : s_encode s x p = Ok ((k, t) :: rest) ->
  encode tshape (Enc s [(k, c)]) x (Node p [(k, pk)]) =
  do (ek, sk) <- encode tshape c t pk ;;
  Ok ((k, ED ek) :: map (fun kt => (fst kt, ET (snd kt))) rest, Node (if s_needs_shape s then Some (tshape x) else None) [(k, sk)]).
Proof.
  intros E. cbn [encode troot tkids]. rewrite E. cbn [bind map fst snd dindex dget]. unfold dindex. cbn [dget]. rewrite String.eqb_refl. cbn [bind].
  destruct (encode tshape c t pk) as [[ek sk]|]; cbn [bind dset]; [|reflexivity]. now rewrite String.eqb_refl.
Qed.
Lemma as_tensors_map (d : dict T) : as_tensors (map (fun kt => (fst kt, ET (snd kt))) d) = Ok d.
Proof. unfold as_tensors. induction d as [|[k t] d IH]; [reflexivity|]. cbn [map mapM fst snd as_tensor bind]. rewrite IH. reflexivity. Qed.
Lemma mapM_id {A} (l : list A) (f : A -> res A) : (forall a, In a l -> f a = Ok a) -> mapM f l = Ok l.
Proof. induction l as [|a l IH]; intros H; [reflexivity|]. cbn [mapM]. rewrite (H a (or_introl eq_refl)). cbn [bind]. rewrite IH; [reflexivity|]. intros; apply H; now right. Qed.
Lemma decode_leaf (s : @stage T P Sh St) d p sh : decode (Enc s []) (ED (map (fun kt => (fst kt, ET (snd kt))) d)) (full (Node p [])) (full (Node sh [])) = s_decode s d p None sh.
Proof.
  unfold decode. cbn [decode_before_sum_impl orb full as_dict bind troot need]. rewrite mapM_id by (intros; reflexivity). cbn [bind]. rewrite as_tensors_map. cbn [bind].
  destruct (s_decode s d p None sh); reflexivity.
Qed.
Lemma decode_chain (s : @stage T P Sh St) k (c : encoder) ek rest p pk sh shk : ~ In k (dkeys rest) ->
  decode (Enc s [(k, c)]) (ED ((k, ED ek) :: map (fun kt => (fst kt, ET (snd kt))) rest)) (full (Node p [(k, pk)])) (full (Node sh [(k, shk)])) =
  do t <- decode c (ED ek) (full pk) (full shk) ;; s_decode s ((k, t) :: rest) p None sh.
Proof.
  intros N. unfold decode. cbn [decode_before_sum_impl orb full as_dict bind troot tkids need mapM fst snd]. rewrite String.eqb_refl. unfold dindex. cbn [dget]. rewrite String.eqb_refl. cbn [bind].
  destruct (decode_before_sum_impl true c (ED ek) (full pk) (full shk)) as [w|]; cbn [bind]; [|reflexivity].
  rewrite mapM_id.
  - cbn [bind]. unfold as_tensors. cbn [mapM fst snd]. destruct (as_tensor w) as [t|]; cbn [bind]; [|reflexivity].
    fold (@as_tensors T (map (fun kt => (fst kt, ET (snd kt))) rest)). change (mapM _ _) with (@as_tensors T (map (fun kt => (fst kt, ET (snd kt))) rest)). rewrite as_tensors_map. cbn [bind].
    destruct (s_decode s ((k, t) :: rest) p None sh); reflexivity.
  - intros [k' w'] I. cbn [fst snd]. destruct (String.eqb k' k) eqn:E; [|reflexivity]. exfalso. apply String.eqb_eq in E. subst k'. apply N.
    apply in_map_iff in I. destruct I as ([a b] & E & I). cbn [fst snd] in E. injection E as E _. subst a. apply in_map_iff. exists (k, b). auto.
Qed.
End Chain.

(** * Uniform quantization, one element *)
Lemma floor_spec x : IZR (floorR x) <= x < IZR (floorR x) + 1.
Proof. unfold floorR. destruct (base_Int_part x). lra. Qed.
Lemma IZR_lt_le a b : IZR a < IZR b -> (a + 1 <= b)%Z.
Proof. intros H. apply lt_IZR in H. lia. Qed.
Lemma floor_IZR z : floorR (IZR z) = z.
Proof.
  destruct (floor_spec (IZR z)) as [A B]. apply le_IZR in A. rewrite <- plus_IZR in B. apply lt_IZR in B. lia.
Qed.
Lemma quantize1_spec st u x M : 0 <= u < 1 -> 0 <= x <= IZR M -> exists z, quantize1 st u x = IZR z /\ (0 <= z <= M)%Z /\
  Rabs (IZR z - x) < 1 /\ (st = false -> Rabs (IZR z - x) <= 1/2) /\ (forall k, x = IZR k -> z = k).
Proof.
  intros U [X0 X1]. destruct (floor_spec x) as [A B]. set (f := floorR x) in *.
  assert (F0 : (0 <= f)%Z). { destruct (Z.le_gt_cases 0 f); [auto|]. exfalso. assert (IZR f <= IZR (-1)) by (apply IZR_le; lia). cbn in *. lra. }
  assert (FM : (f <= M)%Z) by (apply le_IZR; lra).
  assert (FM' : IZR f < x -> (f + 1 <= M)%Z) by (intros; apply IZR_lt_le; lra).
  assert (K0 : forall k, x = IZR k -> f = k) by (intros k ->; apply floor_IZR).
  unfold quantize1. fold f. destruct st.
  - destruct (Rlt_dec u (x - IZR f)) as [L|L].
    + exists (f + 1)%Z. rewrite plus_IZR. split; [reflexivity|]. split; [split; [lia|apply FM'; lra]|]. split; [apply Rabs_def1; lra|]. split; [discriminate|].
      intros k E. exfalso. rewrite (K0 k E) in L. rewrite E in L. lra.
    + exists f. rewrite Rplus_0_r. split; [reflexivity|]. split; [lia|]. split; [apply Rabs_def1; lra|]. split; [discriminate|]. exact K0.
  - unfold round_even. fold f.
    assert (T1 : x - IZR f <= 1/2 -> exists z, IZR f = IZR z /\ (0 <= z <= M)%Z /\ Rabs (IZR z - x) < 1 /\ (false = false -> Rabs (IZR z - x) <= 1/2) /\ (forall k, x = IZR k -> z = k)).
    { intros L. exists f. split; [reflexivity|]. split; [lia|]. split; [apply Rabs_def1; lra|]. split; [intros _; apply Rabs_le; lra|exact K0]. }
    assert (T2 : 1/2 <= x - IZR f -> exists z, IZR (f + 1) = IZR z /\ (0 <= z <= M)%Z /\ Rabs (IZR z - x) < 1 /\ (false = false -> Rabs (IZR z - x) <= 1/2) /\ (forall k, x = IZR k -> z = k)).
    { intros L. exists (f + 1)%Z. split; [reflexivity|]. rewrite plus_IZR. split; [split; [lia|apply FM'; lra]|]. split; [apply Rabs_def1; lra|]. split; [intros _; apply Rabs_le; lra|].
      intros k E. exfalso. rewrite (K0 k E), E in L. lra. }
    destruct (Rlt_dec (x - IZR f) (1/2)); [apply T1; lra|]. destruct (Rlt_dec (1/2) (x - IZR f)); [apply T2; lra|]. destruct (Z.even f); [apply T1|apply T2]; lra.
Qed.
Definition top (bits : nat) : Z := (2 ^ Z.of_nat bits - 1)%Z.
Lemma top_pos bits : (1 <= bits)%nat -> 1 <= IZR (top bits).
Proof. intros H. apply IZR_le. unfold top. assert (2 ^ 1 <= 2 ^ Z.of_nat bits)%Z by (apply Z.pow_le_mono_r; lia). lia. Qed.
Lemma uq_oneR st u bits lo hi v : (1 <= bits)%nat -> 0 <= u < 1 -> lo <= v <= hi ->
  exists z, quantize1 st u (div_no_nanR (v - lo) (hi - lo) * IZR (top bits)) = IZR z /\ (0 <= z <= top bits)%Z /\
   let y := IZR z / IZR (top bits) * (hi - lo) + lo in
   (lo < hi -> Rabs (y - v) < (hi - lo) / IZR (top bits)) /\ (st = false -> Rabs (y - v) <= 1/2 * ((hi - lo) / IZR (top bits))) /\ (v = lo \/ v = hi -> y = v).
Proof.
  intros B U V. pose proof (top_pos bits B) as TP. set (m := IZR (top bits)) in *.
  unfold div_no_nanR. destruct (Req_EM_T (hi - lo) 0) as [E|E].
  - rewrite Rmult_0_l. assert (v = lo) by lra. assert (hi = lo) by lra. subst v hi.
    destruct (quantize1_spec st u 0 (top bits) U ltac:(fold m; lra)) as (z & Q & R1 & _ & _ & K). exists z. split; [exact Q|]. split; [exact R1|].
    rewrite (K 0%Z eq_refl). cbn zeta. replace (lo - lo) with 0 by lra. split; [lra|].
    assert (Y : 0 / m * 0 + lo = lo) by (field; lra). split; [intros _|auto]. rewrite Y. replace (lo - lo) with 0 by lra. rewrite Rabs_R0. unfold Rdiv. nra.
  - assert (P : 0 < hi - lo) by lra. set (w := (v - lo) / (hi - lo) * m).
    assert (Wv : v = w / m * (hi - lo) + lo) by (unfold w; field; lra).
    assert (W : 0 <= w <= m).
    { unfold w. assert (0 <= (v - lo) / (hi - lo) <= 1). { split; [apply Rmult_le_pos; [lra|left; now apply Rinv_0_lt_compat]|]. apply Rmult_le_reg_r with (hi - lo); [lra|]. unfold Rdiv. rewrite Rmult_assoc, Rinv_l by lra. lra. } nra. }
    destruct (quantize1_spec st u w (top bits) U W) as (z & Q & R1 & R2 & R3 & K). exists z. split; [exact Q|]. split; [exact R1|]. cbn zeta. fold m.
    assert (D : IZR z / m * (hi - lo) + lo - v = (IZR z - w) * ((hi - lo) / m)) by (rewrite Wv at 1; field; lra).
    assert (S0 : 0 < (hi - lo) / m) by (apply Rdiv_lt_0_compat; lra). rewrite D, Rabs_mult, (Rabs_pos_eq ((hi - lo) / m)) by lra.
    split; [intros _; nra|]. split; [intros Es; specialize (R3 Es); nra|]. intros [E1|E1].
    + assert (z = 0%Z) as ->. { apply K. unfold w. rewrite E1. replace (lo - lo) with 0 by lra. cbn. field. lra. } rewrite E1. field. lra.
    + assert (z = top bits) as ->. { apply K. fold m. unfold w. rewrite E1. field. lra. } fold m. rewrite E1. field. lra.
Qed.
Lemma fold_min l : forall a, fold_left Rmin l a <= a /\ (forall v, In v l -> fold_left Rmin l a <= v) /\ In (fold_left Rmin l a) (a :: l).
Proof.
  induction l as [|b l IH]; intros a; cbn [fold_left]; [split; [lra|split; [intros v []|now left]]|]. destruct (IH (Rmin a b)) as (A & B & C).
  pose proof (Rmin_l a b). pose proof (Rmin_r a b). split; [lra|]. split; [intros v [<-|I]; [lra|auto]|]. destruct C as [C|C]; [|now right; right].
  rewrite <- C. unfold Rmin at 1. destruct (Rle_dec a b); [now left|right; now left].
Qed.
Lemma fold_max l : forall a, a <= fold_left Rmax l a /\ (forall v, In v l -> v <= fold_left Rmax l a) /\ In (fold_left Rmax l a) (a :: l).
Proof.
  induction l as [|b l IH]; intros a; cbn [fold_left]; [split; [lra|split; [intros v []|now left]]|]. destruct (IH (Rmax a b)) as (A & B & C).
  pose proof (Rmax_l a b). pose proof (Rmax_r a b). split; [lra|]. split; [intros v [<-|I]; [lra|auto]|]. destruct C as [C|C]; [|now right; right].
  rewrite <- C. unfold Rmax at 1. destruct (Rle_dec a b); [right; now left|now left].
Qed.
Lemma min_max_range x : x <> [] -> In (minR x) x /\ In (maxR x) x /\ forall v, In v x -> minR x <= v <= maxR x.
Proof.
  intros N. destruct x as [|a l]; [congruence|]. unfold minR, maxR. destruct (fold_min l a) as (A & B & C), (fold_max l a) as (A' & B' & C').
  split; [exact C|]. split; [exact C'|]. intros v [<-|I]; [lra|]. split; auto.
Qed.
Lemma clip_clipped lo hi a : lo < hi -> clipped_toR lo hi a (clip_by_value lo hi a) /\ lo <= clip_by_value lo hi a <= hi.
Proof.
  intros L. unfold clip_by_value, clipped_toR, Rmin, Rmax. destruct (Rle_dec hi a); destruct (Rle_dec lo _); split; try lra; auto; try (right; left; lra); try (right; right; lra); try (left; lra).
Qed.
(** * The quantization stage on a tensor *)
Definition uq_range (mm : option (R * R)) (x : list R) : R * R := match mm with Some r => r | None => (minR x, maxR x) end.
Definition uq_pre (mm : option (R * R)) (v : R) : R := match mm with Some (lo, hi) => clip_by_value lo hi v | None => v end.
Definition valid_mm (mm : option (R * R)) : Prop := match mm with Some (lo, hi) => lo < hi | None => True end.
Definition uq_extra (mm : option (R * R)) (x : list R) : dict ten := match mm with Some _ => [] | None => [("min_max"%string, F (mkT [2%nat] [minR x; maxR x]))] end.
Lemma nth_map_combine (f : nat * R -> R) (l : list R) i : (i < List.length l)%nat -> nth i (map f (combine (seq 0 (List.length l)) l)) 0 = f (i, nth i l 0).
Proof.
  intros H. rewrite (nth_indep _ 0 (f (O, 0))) by (rewrite map_length, combine_length, seq_length; lia). rewrite map_nth. rewrite combine_nth by apply seq_length. now rewrite seq_nth.
Qed.
Lemma uq_stage_codes bits mm st u x : (1 <= bits)%nat -> valid_mm mm -> (forall i, 0 <= u i < 1) -> data x <> [] ->
  exists zs, s_encode (uniform_stage bits mm st) (F x) (fst (s_params (uniform_stage bits mm st) u)) = Ok (("quantized_values"%string, F (mkT (shape x) (map IZR zs))) :: uq_extra mm (data x)) /\
    List.length zs = List.length (data x) /\ (forall z, In z zs -> (0 <= z <= top bits)%Z) /\
    exists lo hi, (lo, hi) = uq_range mm (data x) /\
    s_decode (uniform_stage bits mm st) (("quantized_values"%string, F (mkT (shape x) (map IZR zs))) :: uq_extra mm (data x)) (snd (s_params (uniform_stage bits mm st) u)) None None
      = Ok (F (mkT (shape x) (map (fun z => IZR z / IZR (top bits) * (hi - lo) + lo) zs))) /\
    forall i, (i < List.length (data x))%nat -> let y := IZR (nth i zs 0%Z) / IZR (top bits) * (hi - lo) + lo in let c := uq_pre mm (nth i (data x) 0) in
      lo <= c <= hi /\ (lo < hi -> Rabs (y - c) < (hi - lo) / IZR (top bits)) /\ (st = false -> Rabs (y - c) <= 1/2 * ((hi - lo) / IZR (top bits))) /\ (c = lo \/ c = hi -> y = c).
Proof.
  intros B V U N. destruct (uq_range mm (data x)) as [lo hi] eqn:ER.
  assert (IN : forall i, (i < List.length (data x))%nat -> lo <= uq_pre mm (nth i (data x) 0) <= hi).
  { intros i Hi. destruct mm as [[a b]|]; cbn in *.
    - injection ER as <- <-. exact (proj2 (clip_clipped a b _ V)).
    - injection ER as <- <-. apply (proj2 (proj2 (min_max_range _ N))). now apply nth_In. }
  set (sc := fun v => div_no_nanR (uq_pre mm v - lo) (hi - lo) * IZR (top bits)).
  assert (Z : exists zs, List.length zs = List.length (data x) /\ forall i, (i < List.length (data x))%nat ->
     quantize1 st (u i) (sc (nth i (data x) 0)) = IZR (nth i zs 0%Z) /\ (0 <= nth i zs 0%Z <= top bits)%Z /\
     let y := IZR (nth i zs 0%Z) / IZR (top bits) * (hi - lo) + lo in let c := uq_pre mm (nth i (data x) 0) in
      (lo < hi -> Rabs (y - c) < (hi - lo) / IZR (top bits)) /\ (st = false -> Rabs (y - c) <= 1/2 * ((hi - lo) / IZR (top bits))) /\ (c = lo \/ c = hi -> y = c)).
  { clear ER N. assert (G : forall n, (n <= List.length (data x))%nat -> exists zs, List.length zs = n /\ forall i, (i < n)%nat ->
     quantize1 st (u i) (sc (nth i (data x) 0)) = IZR (nth i zs 0%Z) /\ (0 <= nth i zs 0%Z <= top bits)%Z /\
     let y := IZR (nth i zs 0%Z) / IZR (top bits) * (hi - lo) + lo in let c := uq_pre mm (nth i (data x) 0) in
      (lo < hi -> Rabs (y - c) < (hi - lo) / IZR (top bits)) /\ (st = false -> Rabs (y - c) <= 1/2 * ((hi - lo) / IZR (top bits))) /\ (c = lo \/ c = hi -> y = c)).
    { induction n as [|n IH]; intros L; [exists []; split; [reflexivity|intros; lia]|]. destruct (IH ltac:(lia)) as (zs & Lz & Hz).
      destruct (uq_oneR st (u n) bits lo hi (uq_pre mm (nth n (data x) 0)) B (U n) (IN n ltac:(lia))) as (z & Q1 & Q2 & Q3).
      exists (zs ++ [z]). split; [rewrite app_length; cbn; lia|]. intros i Hi. destruct (Nat.eq_dec i n) as [->|NE].
      - rewrite app_nth2 by lia. rewrite Lz, Nat.sub_diag. cbn [nth]. split; [exact Q1|]. split; [exact Q2|exact Q3].
      - rewrite app_nth1 by lia. apply Hz. lia. }
    apply G. lia. }
  destruct Z as (zs & Lz & Hz). exists zs. split; [|split; [exact Lz|split]].
  - cbn [s_encode uniform_stage float bind s_params fst]. unfold uq_encode. cbn [p_dict p_draws]. unfold uq_params. cbn [dindex dget]. unfold dindex. cbn [dget String.eqb Ascii.eqb Bool.eqb].
    assert (D : map (fun iv => quantize1 st (u (fst iv)) (snd iv)) (combine (seq 0 (List.length (map sc (data x)))) (map sc (data x))) = map IZR zs).
    { apply (nth_ext0 _ _ (List.length (data x))).
      - rewrite map_length, combine_length, seq_length, map_length. lia.
      - now rewrite map_length.
      - intros i Hi. rewrite nth_map_combine by (rewrite map_length; lia). cbn [fst snd]. rewrite (nth_indep (map sc (data x)) 0 (sc 0)) by (rewrite map_length; lia). rewrite map_nth.
        rewrite (map_nth IZR zs 0%Z i). now apply Hz. }
    destruct mm as [[a b]|]; cbn in ER; injection ER as <- <-; cbn [bind String.eqb Ascii.eqb Bool.eqb dget nth data tmap uq_extra].
    + rewrite map_map. change (map (fun x0 => div_no_nanR (clip_by_value a b x0 - a) (b - a) * IZR (2 ^ Z.of_nat bits - 1)) (data x)) with (map sc (data x)). now rewrite D.
    + change (map (fun v => div_no_nanR (v - minR (data x)) (maxR (data x) - minR (data x)) * IZR (2 ^ Z.of_nat bits - 1)) (data x)) with (map sc (data x)). now rewrite D.
  - intros z I. apply (In_nth _ _ 0%Z) in I. destruct I as (i & Hi & <-). apply Hz. lia.
  - exists lo, hi. split; [reflexivity|]. split.
    + cbn [s_decode uniform_stage s_params snd]. unfold uq_decode, uq_params. cbn [p_dict]. unfold dindex. cbn [dget String.eqb Ascii.eqb Bool.eqb bind float].
      destruct mm as [[a b]|]; cbn in ER; injection ER as <- <-; cbn [bind String.eqb Ascii.eqb Bool.eqb dget nth data tmap uq_extra float shape]; unfold tmap, dindex; cbn [bind String.eqb Ascii.eqb Bool.eqb dget nth data tmap uq_extra float shape]; unfold top; rewrite ?map_map; reflexivity.
    + intros i Hi. cbn zeta. split; [now apply IN|]. apply Hz. exact Hi.
Qed.
(** The bit packing stage on integers in range. *)
Lemma trunc_IZR z : (0 <= z)%Z -> truncR (IZR z) = z.
Proof. intros H. unfold truncR. destruct (Rle_dec 0 (IZR z)) as [L|L]; [apply floor_IZR|]. exfalso. apply L. now apply IZR_le. Qed.
Lemma bitpack_rt bits static s zs u u' : (1 <= bits <= 16)%nat -> List.length zs = prod s -> (forall z, In z zs -> (0 <= z <= top bits)%Z) ->
  s_encode (bitpack_stage bits static) (F (mkT s (map IZR zs))) u = Ok [("bitpacked_values"%string, I (pack_into_int static zs bits 28))] /\
  s_decode (bitpack_stage bits static) [("bitpacked_values"%string, I (pack_into_int static zs bits 28))] u' None (Some s) = Ok (F (mkT s (map IZR zs))).
Proof.
  intros B L R1. assert (TT : tmap truncR (mkT s (map IZR zs)) = mkT s zs).
  { unfold tmap. cbn [shape data]. f_equal. rewrite map_map. rewrite <- (map_id zs) at 2. apply map_ext_in. intros z Iz. apply trunc_IZR. now apply R1. }
  assert (E : bitpack_encode bits static (mkT s zs) = Ok (pack_into_int static zs bits 28)).
  { unfold bitpack_encode. assert ((1 <=? bits) && (bits <=? 16) = true)%nat as -> by lia. reflexivity. }
  split.
  - cbn [s_encode bitpack_stage float bind]. rewrite TT, E. reflexivity.
  - cbn [s_decode bitpack_stage]. unfold dindex. cbn [dget String.eqb Ascii.eqb Bool.eqb bind ints need].
    assert (D : bitpack_decode bits (pack_into_int static zs bits 28) (shape (mkT s zs)) = Ok (mkT s zs)).
    { apply (L_Bitpack.bitpack_stage bits static (mkT s zs)); [|exact L|exact E]. cbn [data]. intros v Iv. specialize (R1 v Iv). unfold top in R1. lia. }
    cbn [shape] in D. rewrite D. reflexivity.
Qed.
