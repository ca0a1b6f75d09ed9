(** Summing values that were encoded by the uniform quantizer with a given range. *)
From Coq Require Import Reals Lra Psatz.
From Verif Require Import Base M_Tensor L_Tensor M_Bitpack L_Bitpack M_Hadamard S_Hadamard L_Hadamard L_Kashin M_Encoder S_Encoder M_Composer S_Composer M_CommonEncoders S_CommonEncoders L_CommonEncoders L_CommonEncoders2 L_CommonEncoders3 L_CommonEncoders4.
From Coq Require Import Lra Psatz.
Open Scope R_scope.
Open Scope list_scope.

Lemma after_chain (s : cstage) k (c : cencoder) w p pk n sh shk : s_commutes s = true ->
  decode_after_sum_impl (Enc s [(k, c)]) (ED [(k, w)]) (Node (Some p) [(k, pk)]) n (Node (Some sh) [(k, shk)]) =
  do w' <- decode_after_sum_impl c w pk n shk ;; do t <- as_tensor w' ;; do y <- s_decode s [(k, t)] p (Some n) sh ;; Ok (ET y).
Proof.
  intros C. cbn [decode_after_sum_impl]. rewrite C. cbn [negb as_dict bind mapM fst snd tkids]. rewrite String.eqb_refl. unfold dindex. cbn [dget]. rewrite String.eqb_refl. cbn [bind].
  destruct (decode_after_sum_impl c w pk n shk) as [w'|]; cbn [bind]; [|reflexivity]. unfold as_tensors. cbn [mapM fst snd]. destruct (as_tensor w') as [t|]; reflexivity.
Qed.
Lemma before_chain (s : cstage) k (c : cencoder) w p pk sh shk : s_commutes s = true ->
  decode_before_sum_impl false (Enc s [(k, c)]) (ED [(k, w)]) (Node p [(k, pk)]) (Node sh [(k, shk)]) =
  do w' <- decode_before_sum_impl false c w pk shk ;; Ok (ED [(k, w')]).
Proof.
  intros C. cbn [decode_before_sum_impl]. rewrite C. cbn [negb orb as_dict bind mapM fst snd tkids]. rewrite String.eqb_refl. unfold dindex. cbn [dget]. rewrite String.eqb_refl. cbn [bind].
  destruct (decode_before_sum_impl false c w pk shk) as [w'|]; reflexivity.
Qed.
Lemma before_leaf (s : cstage) d p sh : s_commutes s = false ->
  decode_before_sum_impl false (Enc s []) (ED (leaf_dict d)) (Node (Some p) []) (Node (Some sh) []) = do y <- s_decode s d p None sh ;; Ok (ET y).
Proof.
  intros C. cbn [decode_before_sum_impl]. rewrite C. cbn [negb orb as_dict bind troot need]. rewrite mapM_id by (intros; reflexivity). cbn [bind]. unfold leaf_dict. rewrite as_tensors_map. reflexivity.
Qed.
Lemma sum_close {I} (is : list I) (f g : I -> R) d : is <> [] -> 0 < d -> (forall i, In i is -> Rabs (f i - g i) < d) -> Rabs (sumR (map f is) - sumR (map g is)) < INR (List.length is) * d.
Proof.
  intros N D. induction is as [|i r IH]; [congruence|]. intros H. cbn [map sumR List.length]. rewrite S_INR. pose proof (H i (or_introl eq_refl)) as Hi.
  replace (f i + sumR (map f r) - (g i + sumR (map g r))) with ((f i - g i) + (sumR (map f r) - sumR (map g r))) by ring.
  eapply Rle_lt_trans; [apply Rabs_triang|]. destruct r as [|j r]; [cbn [map sumR List.length INR]; rewrite Rminus_0_r, Rabs_R0; lra|].
  assert (Rabs (sumR (map f (j :: r)) - sumR (map g (j :: r))) < INR (List.length (j :: r)) * d) by (apply IH; [discriminate|intros; apply H; now right]). lra.
Qed.
Theorem uniform_sum {I} (is : list I) bits lo hi st static e (s : I -> tree (nat -> R)) (x : I -> tensor R) sh :
  uniform_quantization bits (Some [lo; hi]) st static = Ok e -> is <> [] -> prod sh <> 0%nat ->
  (forall i, In i is -> fits (s i) e /\ draws_ok (s i) /\ shape (x i) = sh /\ wf (x i)) ->
  exists (codes : I -> list Z) (sent : I -> dict evalue) shapes dp dpb dpa shb sha Y,
    split_by_commuting_structure dp (commuting_structure e) = Ok (dpb, dpa) /\ split_by_commuting_structure shapes (commuting_structure e) = Ok (shb, sha) /\
    (forall i, In i is -> (exists ep, get_params e (s i) = Ok (ep, dp) /\ encode ten_shape e (F (x i)) ep = Ok (sent i, shapes)) /\
       Forall (fun z => 0 <= z <= 2 ^ Z.of_nat bits - 1)%Z (codes i) /\ List.length (codes i) = prod sh /\
       decode_before_sum e (ED (sent i)) dpb shb = Ok (ED [("flattened_values"%string, ED [("quantized_values"%string, ET (F (mkT [prod sh] (map IZR (codes i)))))])])) /\
    let total := map (fun j => sumR (map (fun i => IZR (nth j (codes i) 0%Z)) is)) (seq 0 (prod sh)) in
    decode_after_sum e (ED [("flattened_values"%string, ED [("quantized_values"%string, ET (F (mkT [prod sh] total)))])]) dpa (Z.of_nat (List.length is)) sha = Ok (F Y) /\
    shape Y = sh /\ wf Y /\
    forall j, (j < prod sh)%nat -> exists c : I -> R, (forall i, In i is -> clipped_toR lo hi (nth j (data (x i)) 0) (c i)) /\
      Rabs (nth j (data Y) 0 - sumR (map c is)) < INR (List.length is) * ((hi - lo) / IZR (2 ^ Z.of_nat bits - 1)).
Proof.
  intros E NE NZ H. destruct (uniform_eq _ _ _ _ _ E) as (B & mm & V & M & ->). destruct mm as [[a b]|]; [|discriminate]. injection M as <- <-. cbn [valid_mm] in V. clear E.
  set (n := prod sh) in *. set (m := IZR (top bits)). pose proof (top_pos bits ltac:(lia)) as TP. fold m in TP.
  set (fu := ("flattened_values"%string)). set (qv := ("quantized_values"%string)).
  set (P0 := mkPrm [] no_draws). set (PU := mkPrm (uq_params bits (Some (lo, hi))) no_draws).
  set (codes := fun i => match dget fu (tkids (s i)) with
    | Some sf => match s_encode (uniform_stage bits (Some (lo, hi)) st) (F (mkT [n] (data (x i)))) (fst (s_params (uniform_stage bits (Some (lo, hi)) st) (troot sf))) with
                 | Ok ((_, F q) :: _) => map truncR (data q) | _ => [] end
    | None => [] end).
  set (sent := fun i => [(fu, ED [(qv, ED (leaf_dict [("bitpacked_values"%string, M_CommonEncoders.I (pack_into_int static (codes i) bits 28))]))])]).
  set (e := Enc flatten_stage [(fu, Enc (uniform_stage bits (Some (lo, hi)) st) [(qv, Enc (bitpack_stage bits static) [])])] : cencoder).
  assert (H1 : forall i, In i is -> (exists ep, get_params e (s i) = Ok (ep, Node P0 [(fu, Node PU [(qv, Node P0 [])])])
     /\ encode ten_shape e (F (x i)) ep = Ok (sent i, Node (Some sh) [(fu, Node None [(qv, Node (Some [n]) [])])]))
     /\ List.length (codes i) = n /\ (forall z, In z (codes i) -> (0 <= z <= top bits)%Z) /\
     s_decode (bitpack_stage bits static) [("bitpacked_values"%string, M_CommonEncoders.I (pack_into_int static (codes i) bits 28))] P0 None (Some [n]) = Ok (F (mkT [n] (map IZR (codes i)))) /\
     forall j, (j < n)%nat -> Rabs (IZR (nth j (codes i) 0%Z) / m * (hi - lo) + lo - clip_by_value lo hi (nth j (data (x i)) 0)) < (hi - lo) / m).
  { intros i Hi. destruct (H i Hi) as (Fi & Dr & Sh & W).
    destruct (fits_child Fi) as (sf & Df & Ff). destruct (fits_child Ff) as (sq & Dq & _). unfold wf in W. rewrite Sh in W. fold n in W.
    assert (N : data (x i) <> []) by (intros Z; rewrite Z in W; cbn in W; lia).
    set (xf := mkT [n] (data (x i)) : tensor R).
    destruct (uq_stage_codes bits (Some (lo, hi)) st (troot sf) xf ltac:(lia) V (draws_root sf (draws_child _ _ _ Dr Df)) N) as (zs & En & Lz & Rz & lo' & hi' & ER & _ & Bd). cbn [uq_range] in ER. injection ER as -> ->. cbn [uq_extra data xf shape] in *.
    assert (Ec : codes i = zs).
    { unfold codes. fold fu in Df. rewrite Df. fold xf. rewrite En. cbn [data]. rewrite map_map. rewrite <- (map_id zs) at 2. apply map_ext_in. intros z Iz. apply trunc_IZR. now apply Rz. }
    unfold sent. rewrite Ec.
    destruct (bitpack_rt bits static [n] zs (fst (s_params (bitpack_stage bits static) (troot sq))) P0 B) as (E2 & D2); [rewrite Lz, W; unfold prod; cbn; lia|exact Rz|].
    split; [|split; [congruence|split; [exact Rz|split; [exact D2|]]]].
    - eexists. split; [unfold e; exact (params_chain flatten_stage _ _ _ _ _ _ Df (params_chain (uniform_stage bits (Some (lo, hi)) st) _ _ _ _ _ _ Dq (params_leaf (bitpack_stage bits static) _)))|].
      unfold e. rewrite (encode_chain ten_shape flatten_stage fu _ (F (x i)) _ _ (F xf) []) by (cbn [s_encode flatten_stage float bind]; rewrite W; reflexivity).
      refine (eq_trans (f_equal (fun r => bind r _) (encode_chain ten_shape _ qv _ (F xf) _ _ _ _ En)) _). rewrite encode_leaf.
      rewrite E2. cbn [bind map fst snd leaf_dict s_needs_shape flatten_stage uniform_stage bitpack_stage ten_shape shape]. rewrite Sh. reflexivity.
    - intros j Hj. destruct (Bd j ltac:(lia)) as (_ & A & _). cbn [uq_pre] in A. auto. }
  set (total := map (fun j => sumR (map (fun i => IZR (nth j (codes i) 0%Z)) is)) (seq 0 n)).
  set (f := fun v => v / m * (hi - lo) + lo * IZR (Z.of_nat (List.length is))).
  exists codes, sent, (Node (Some sh) [(fu, Node None [(qv, Node (Some [n]) [])])]), (Node P0 [(fu, Node PU [(qv, Node P0 [])])]). 
  exists (Node None [(fu, Node None [(qv, Node (Some P0) [])])]), (Node (Some P0) [(fu, Node (Some PU) [(qv, Node None [])])]).
  exists (Node None [(fu, Node None [(qv, Node (Some (Some [n])) [])])]), (Node (Some (Some sh)) [(fu, Node (Some None) [(qv, Node None [])])]). exists (mkT sh (map f total)).
  split; [reflexivity|]. split; [reflexivity|]. split; [|cbn zeta; fold total; split; [|split; [reflexivity|split]]].
  - intros i Hi. destruct (H1 i Hi) as (A1 & A2 & A3 & A4 & _). split; [exact A1|]. split; [apply Forall_forall; exact A3|]. split; [exact A2|].
    unfold decode_before_sum, sent, e. rewrite before_chain by reflexivity. rewrite before_chain by reflexivity. rewrite before_leaf by reflexivity.
    refine (eq_trans (f_equal (fun r => bind (bind (bind r _) _) _) A4) _). reflexivity.
  - unfold decode_after_sum, e. rewrite after_chain by reflexivity. rewrite after_chain by reflexivity.
    assert (DU : s_decode (uniform_stage bits (Some (lo, hi)) st) [(qv, F (mkT [n] total))] PU (Some (Z.of_nat (List.length is))) None = Ok (F (mkT [n] (map f total)))) by reflexivity.
    assert (DF : s_decode flatten_stage [(fu, F (mkT [n] (map f total)))] P0 (Some (Z.of_nat (List.length is))) (Some sh) = Ok (F (mkT sh (map f total)))).
    { cbn [s_decode flatten_stage]. change (dindex "flattened_values" [(fu, F (mkT [n] (map f total)))]) with (Ok (F (mkT [n] (map f total)))). cbn [bind float need]. unfold reshape. cbn [data].
      rewrite map_length. unfold total at 1. rewrite map_length, seq_length. fold n. rewrite Nat.eqb_refl. reflexivity. }
    change (decode_after_sum_impl (Enc (bitpack_stage bits static) []) _ _ _ _) with (@Ok (@evalue ten) (ET (F (mkT [n] total)))). cbn [bind as_tensor].
    refine (eq_trans (f_equal (fun r => bind (bind (bind r _) _) _) DU) _). cbn [bind as_tensor].
    refine (eq_trans (f_equal (fun r => bind (bind r _) _) DF) _). reflexivity.
  - unfold wf. cbn [data shape]. unfold total. rewrite !map_length, seq_length. reflexivity.
  - intros j Hj. exists (fun i => clip_by_value lo hi (nth j (data (x i)) 0)). split; [intros i Hi; now apply clip_clipped|]. cbn [data].
    rewrite (nth_indep (map f total) 0 (f 0)) by (unfold total; rewrite !map_length, seq_length; exact Hj). rewrite map_nth. unfold total.
    set (g := fun j => sumR (map (fun i => IZR (nth j (codes i) 0%Z)) is)). rewrite (nth_indep (map g _) 0 (g O)) by (rewrite map_length, seq_length; exact Hj). rewrite map_nth, seq_nth by exact Hj. cbn [plus]. unfold f, g.
    assert (S1 : sumR (map (fun i => IZR (nth j (codes i) 0%Z)) is) / m * (hi - lo) + lo * IZR (Z.of_nat (List.length is)) = sumR (map (fun i => IZR (nth j (codes i) 0%Z) / m * (hi - lo) + lo) is)).
    { rewrite sumR_shift, sumR_lin. reflexivity. }
    cbn [Nat.add]. rewrite S1. change (IZR (2 ^ Z.of_nat bits - 1)) with m. apply sum_close; [exact NE|apply Rdiv_lt_0_compat; lra|]. intros i Hi. now apply (H1 i Hi).
Qed.
