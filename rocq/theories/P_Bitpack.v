(** Property C52: bit packing is lossless, in range and of minimal size. Statements only. *)
From Verif Require Import Base M_Tensor M_Bitpack L_Bitpack.
Open Scope Z_scope.

(** [static]: whether the number of elements is statically known. Any positive widths b, t. *)
Theorem C52_unpack_pack : forall static value b t shape, (0 < b)%nat -> (0 < t)%nat ->
  Forall (fun x => 0 <= x < 2 ^ Z.of_nat b) value -> prod shape = length value ->
  unpack_from_int (pack_into_int static value b t) b t shape = Ok (mkT shape value).
Proof. exact pack_roundtrip. Qed.
Print Assumptions C52_unpack_pack.
Theorem C52_packed_in_range : forall static value b, (0 < b)%nat ->
  Forall (fun x => 0 <= x < 2 ^ Z.of_nat b) value ->
  Forall (fun x => 0 <= x < 2 ^ 28) (pack_into_int static value b 28).
Proof. exact pack_bound. Qed.
Print Assumptions C52_packed_in_range.
Theorem C52_packed_size : forall value b, (0 < b)%nat -> Forall (fun x => 0 <= x < 2 ^ Z.of_nat b) value ->
  length (pack_into_int true value b 28) = ((b * length value + 27) / 28)%nat.
Proof. exact pack_count. Qed.
Print Assumptions C52_packed_size.
Theorem C52_stage_lossless : forall b static x p, (forall v, In v (data x) -> 0 <= v < 2 ^ Z.of_nat b) -> wf x ->
  bitpack_encode b static x = Ok p -> bitpack_decode b p (shape x) = Ok x.
Proof. exact bitpack_stage. Qed.
Print Assumptions C52_stage_lossless.
Theorem C52_accepted_bits : forall b static x, (1 <= b <= 16)%nat <-> is_ok (bitpack_encode b static x) = true.
Proof. intros b st x. unfold bitpack_encode. destruct ((1 <=? b) && (b <=? 16))%nat eqn:E; cbn; split; intros H; try discriminate; try lia; auto. Qed.
Print Assumptions C52_accepted_bits.
Example C52_ex6 : pack_into_int true [63; 1; 0; 17; 42; 5; 6; 7; 8; 9; 10; 11; 12; 13; 14] 6 28 <> [] /\
  unpack_from_int (pack_into_int true [63; 1; 0; 17; 42; 5; 6; 7; 8; 9; 10; 11; 12; 13; 14] 6 28) 6 28 [3; 5]%nat
  = Ok (mkT [3; 5]%nat [63; 1; 0; 17; 42; 5; 6; 7; 8; 9; 10; 11; 12; 13; 14]).
Proof. split; [discriminate|reflexivity]. Qed.
Example C52_ex_values : pack_into_int true [1; 2; 3; 4; 5] 8 28 = [67305985; 80] /\
  pack_into_int true [1; 0; 1; 1] 1 28 = [13] /\ pack_into_int true [5; 3] 3 28 = [29].
Proof. repeat split; reflexivity. Qed.
