(** Properties C53 (uniform quantization), C57 (sparse splitting, differencing), C63 (shared-seed quantization),
    C72 (the quantization stage really commutes with sums when it says so).  Statements only. *)
From Verif Require Import Base M_Num M_Stages S_Stages L_Stages.
Open Scope Q_scope.

(** For every constructible stage, non-empty tensor and random draws in [0,1): decoding succeeds, and each decoded value
    [b] is within one step of the clipped input [c], within half a step when rounding is deterministic, and exact at the
    ends of the range (hence exact on constant tensors, whose range is a point). *)
Theorem C53_error_bound : forall bits min_max stochastic s u x,
  mk_uq bits min_max stochastic = Ok s -> x <> [] -> (forall i, 0 <= u i < 1) ->
  exists y lo hi, uq_decode s (uq_encode s u x) None = Ok y /\ length y = length x /\ working_range min_max x lo hi /\
  let step := (hi - lo) / (inject_Z (2 ^ Z.of_nat bits - 1)) in
  forall i a, nth_error x i = Some a -> exists b c, nth_error y i = Some b /\ clipped_to lo hi a c /\
    (lo < hi -> Qabs (b - c) < step) /\ (stochastic = false -> Qabs (b - c) <= (1#2) * step) /\
    (c == lo \/ c == hi -> b == c).
Proof. exact uq_main. Qed.
Print Assumptions C53_error_bound.
Theorem C53_codes_fit : forall bits min_max stochastic s u x,
  mk_uq bits min_max stochastic = Ok s -> x <> [] -> (forall i, 0 <= u i < 1) ->
  length (fst (uq_encode s u x)) = length x /\
  forall q, In q (fst (uq_encode s u x)) -> exists z, q == inject_Z z /\ (0 <= z <= 2 ^ Z.of_nat bits - 1)%Z.
Proof. exact uq_codes. Qed.
Print Assumptions C53_codes_fit.
Theorem C53_accepted_iff : forall bits min_max stochastic, (exists s, mk_uq bits min_max stochastic = Ok s) <->
  (1 <= bits <= 16)%nat /\ (min_max = None \/ exists a b, min_max = Some [a; b] /\ a < b).
Proof.
  intros bits mm st. unfold mk_uq. destruct ((1 <=? bits) && (bits <=? 16))%nat eqn:E; cbn [negb].
  - assert (1 <= bits <= 16)%nat by lia. destruct mm as [[|a [|b [|c l]]]|].
    1, 2, 4: split; [intros (s & K); discriminate|intros (_ & [K|(a' & b' & K & _)]); discriminate].
    + destruct (Qle_bool b a) eqn:L.
      * split; [intros (s & K); discriminate|]. intros (_ & [K|(a' & b' & K & M)]); [discriminate|]. injection K as <- <-. apply Qle_bool_iff in L. exfalso. lra.
      * split; [|eauto]. intros _. split; [auto|]. right. exists a, b. split; [auto|]. destruct (Qlt_le_dec a b) as [K|K]; [auto|]. apply Qle_bool_iff in K. congruence.
    + split; [auto|eauto].
  - split; [intros (s & K); discriminate|]. lia.
Qed.
Print Assumptions C53_accepted_iff.
(** Every other argument combination is a ValueError, and an accepted one is kept as given. *)
Theorem C53_refused : forall bits min_max stochastic,
  ~ ((1 <= bits <= 16)%nat /\ (min_max = None \/ exists a b, min_max = Some [a; b] /\ a < b)) -> mk_uq bits min_max stochastic = Err ValueError.
Proof.
  intros bits mm st N. pose proof (proj1 (C53_accepted_iff bits mm st)) as A. unfold mk_uq in *. destruct (negb _); [reflexivity|].
  destruct mm as [[|a [|b [|c l]]]|]; try reflexivity; [destruct (Qle_bool b a); [reflexivity|]|]; exfalso; apply N, A; eauto.
Qed.
Print Assumptions C53_refused.
Theorem C53_kept : forall bits min_max stochastic s, mk_uq bits min_max stochastic = Ok s ->
  uq_bits s = bits /\ uq_stochastic s = stochastic /\ option_map (fun p => [fst p; snd p]) (uq_min_max s) = min_max.
Proof.
  intros bits mm st s H. unfold mk_uq in H. destruct (negb _); [discriminate|]. destruct mm as [[|a [|b [|c l]]]|]; try discriminate.
  - destruct (Qle_bool b a); [discriminate|]. injection H as <-. repeat split.
  - injection H as <-. repeat split.
Qed.
Print Assumptions C53_kept.
Example C53_ex : exists s, mk_uq 2 (Some [(-1); 1]) false = Ok s /\
  uq_encode s (fun _ => 0) [(-3); (-1#2); (1#4); 1] = ([inject_Z 0; inject_Z 1; inject_Z 2; inject_Z 3], None) /\
  exists y, uq_decode s (uq_encode s (fun _ => 0) [(-3); (-1#2); (1#4); 1]) None = Ok y /\ map Qred y = [(-1); (-1#3); (1#3); 1].
Proof. eexists. split; [reflexivity|]. split; [reflexivity|]. eexists. split; reflexivity. Qed.

Theorem C57_split_exact : forall threshold x, exists y,
  split_decode (split_encode threshold x) (length x) = Ok y /\
  y = map (fun a => if qltb threshold (Qabs a) then a else 0) x.
Proof. exact split_main. Qed.
Print Assumptions C57_split_exact.
Theorem C57_difference_exact : forall w x, (1 <= w)%nat ->
  Forall (fun z => - 2 ^ (Z.of_nat w - 1) <= z < 2 ^ (Z.of_nat w - 1))%Z x -> diff_decode w (diff_encode w x) = x.
Proof. exact diff_main. Qed.
Print Assumptions C57_difference_exact.
(** Differencing is exact even where the difference overflows (127 - (-128) in int8). *)
Example C57_ex : diff_encode 8 [-128; 127; 3]%Z = [-128; -1; -124]%Z /\ diff_decode 8 [-128; -1; -124]%Z = [-128; 127; 3]%Z.
Proof. split; reflexivity. Qed.
Example C57_ex_split : split_encode (1#10) [0; (1#20); (-1#2); (1#10); 3] = ([2; 4]%nat, [(-1#2); 3]).
Proof. reflexivity. Qed.

Theorem C63_half_step : forall bits u x, (1 <= bits)%nat -> x <> [] -> (forall i, 0 <= u i < 1) ->
  exists lo hi, working_range None x lo hi /\
  let y := prng_decode bits u (prng_encode bits u x) in
  length y = length x /\ forall i a, nth_error x i = Some a -> exists b, nth_error y i = Some b /\
    Qabs (b - a) <= (1#2) * ((hi - lo) / inject_Z (2 ^ Z.of_nat bits - 1)).
Proof. exact prng_main. Qed.
Print Assumptions C63_half_step.
Example C63_ex : map Qred (prng_decode 1 (fun _ => 1#4) (prng_encode 1 (fun _ => 1#4) [0; 1; (1#2)])) = [(-1#4); (3#4); (3#4)].
Proof. reflexivity. Qed.

(** Encodings [es] (with their unused side information [ms]) of any tensors by a stage that declares it commutes: decoding
    the sum of the codes with the number of summands equals the sum of the decodings. *)
Theorem C72_uniform_quantization_commutes : forall bits min_max stochastic s n es ms v,
  mk_uq bits min_max stochastic = Ok s -> uq_commutes s = true ->
  Forall (fun e => length e = n) es -> length ms = length es -> is_vector_sum n es v -> forall m,
  exists y ys, uq_decode s (v, m) (Some (Z.of_nat (length es))) = Ok y /\
    mapM (fun e => uq_decode s e None) (combine es ms) = Ok ys /\ is_vector_sum n ys y.
Proof. exact uq_sum. Qed.
Print Assumptions C72_uniform_quantization_commutes.
Example C72_ex : exists s, mk_uq 2 (Some [1; 4]) true = Ok s /\ uq_commutes s = true /\
  exists y, uq_decode s ([5; 1], None) (Some 2%Z) = Ok y /\ map Qred y = [7; 3].
Proof. eexists. repeat split. eexists. split; reflexivity. Qed.
