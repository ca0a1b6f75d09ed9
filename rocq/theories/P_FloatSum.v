(** C149: decoding a sum of uniformly quantized tensors in float32. *)
From Coq Require Import Qabs Qpower Permutation.
From Flocq Require Import Core BinarySingleNaN.
From Verif Require Import Base M_Float32 S_Float32 M_FloatQuant S_FloatQuant M_FloatSum S_FloatSum L_FloatSum2.
Open Scope Q_scope.

Notation at_ l i := (nth i l (f_of_int 0)).

Section Stage.
  (** Clients: their random draws and their vectors, of [d] values each.  All quantize in the same given range. *)
  Context (bits : nat) (lo hi : f32) (stochastic : bool) (clients : list ((nat -> f32) * list f32)) (d : nat).
  Notation n := (length clients).
  Definition usable : Prop := (1 <= bits <= 16)%nat /\ (1 <= n)%nat /\ (Z.of_nat n * (2 ^ Z.of_nat bits - 1) <= 2 ^ 24)%Z /\ room n lo hi /\
    forall c, In c clients -> (forall i, is_draw (fst c i)) /\ Forall moderate (snd c) /\ length (snd c) = d.
  Notation encoded c := (fst (uqf_encode bits (Some (lo, hi)) stochastic (fst c) (snd c))).
  (** While the greatest possible sum of codes is at most 2^24, adding up the codes is exact, whatever the order... *)
  Theorem C149_codes_add_up_partial : usable -> forall i s, (i < d)%nat -> added_up (map (fun c => at_ (encoded c) i) clients) s ->
    finite s /\ number s == total (map (fun c => number (at_ (encoded c) i)) clients).
  Proof. intros (B & N & F & R & C). now apply sum_exact. Qed.
  (** ... and decoding the sum with the number of clients returns numbers within one step per client (half a step if
      deterministic), and per client a relative 3/4194304 of the range, of the sum of the clipped values. *)
  Theorem C149_decoded_partial : usable -> forall sums, length sums = d -> (forall i, (i < d)%nat -> added_up (map (fun c => at_ (encoded c) i) clients) (at_ sums i)) ->
    exists ys, uqf_decode_sum bits (Some (lo, hi)) (Some (Z.of_nat n)) (sums, None) = Ok ys /\ length ys = d /\
      forall i, (i < d)%nat -> finite (at_ ys i) /\
        Qabs (number (at_ ys i) - total (map (fun c => clamp (number lo) (number hi) (number (at_ (snd c) i))) clients)) <=
          inject_Z (Z.of_nat n) * ((if stochastic then 1 else 1#2) * step bits lo hi + 3 * eps * (Qabs (number lo) + Qabs (number hi))) + tiny.
  Proof. intros (B & N & F & R & C). now apply sum_decoded. Qed.
End Stage.
(** A single tensor, without a number of summands or with a range of its own, is decoded as in C146. *)
Theorem C149_single : forall bits min_max num_summands enc, (num_summands = None \/ min_max = None) ->
  uqf_decode_sum bits min_max num_summands enc = uqf_decode bits min_max enc.
Proof. intros bits [[lo hi]|] [n|] [q [[l h]|]] [E|E]; try discriminate E; reflexivity. Qed.

(** With more clients the sum of the codes depends on the order of the additions: 259 clients, 16 bits. *)
Definition no_draw : nat -> f32 := fun _ => f_of_int 0.
Definition many : list f32 := repeat (f_of_int 65535) 256 ++ [f_of_int 256; f_of_int 1; f_of_int 1].
Definition encode16 (v : f32) : f32 := at_ (fst (uqf_encode 16 (Some (f_of_int 0, f_of_int 65535)) false no_draw [v])) 0.
Theorem C149_order_refuted : exists vs s s', Forall moderate vs /\
  added_up (map encode16 vs) s /\ added_up (map encode16 vs) s' /\ finite s /\ finite s' /\ ~ number s == number s'.
Proof.
  set (f := fun l => match l with [] => f_of_int 0 | a :: r => fold_left f_add r a end).
  exists many, (f (map encode16 many)), (f_add (f (firstn 257 (map encode16 many))) (f (skipn 257 (map encode16 many)))).
  assert (A : forall l, l <> [] -> added_up l (f l)) by (intros [|a r] N; [congruence|apply fold_added]).
  split. { apply Forall_forall. intros v V. unfold many in V. apply in_app_or in V as [V|V]; [apply repeat_spec in V; subst v; split; vm_compute; congruence|]. cbn [In] in V. destruct V as [<- | [<- | [<- |[]]]]; split; vm_compute; congruence. }
  split; [apply A; discriminate|]. split. { eapply added_two; [apply A; discriminate|apply A; discriminate|]. rewrite firstn_skipn. apply Permutation_refl. }
  split; [vm_compute; reflexivity|]. split; [vm_compute; reflexivity|]. vm_compute. discriminate.
Qed.

(** Three clients, two values each, three bits, range -1 to 1; the first value of the last client is clipped. *)
Definition fl (m e : Z) : f32 := binary_normalize 24 128 prec24 emax128 mode_NE m e false.
Definition three : list ((nat -> f32) * list f32) := [(no_draw, [fl 1 (-1); fl (-1) 0]); (no_draw, [fl (-1) (-1); fl 3 (-2)]); (no_draw, [fl 5 0; fl 1 0])].
Example C149_hypotheses : usable 3 (f_of_int (-1)) (f_of_int 1) three 2.
Proof.
  split; [lia|]. split; [cbn; lia|]. split; [vm_compute; congruence|]. split; [repeat split; vm_compute; congruence|].
  intros c C. cbn [In three] in C. destruct C as [<- | [<- | [<- |[]]]]; (split; [intros i; split; vm_compute; congruence|]); (split; [repeat (apply Forall_cons; [split; vm_compute; congruence|]); apply Forall_nil|reflexivity]).
Qed.
Example C149_example :
  let codes := map (fun c => fst (uqf_encode 3 (Some (f_of_int (-1), f_of_int 1)) false (fst c) (snd c))) three in
  let sums := [f_add (f_add (at_ (nth 0 codes []) 0) (at_ (nth 1 codes []) 0)) (at_ (nth 2 codes []) 0); f_add (f_add (at_ (nth 0 codes []) 1) (at_ (nth 1 codes []) 1)) (at_ (nth 2 codes []) 1)] in
  map (fun s => Qred (number s)) sums = [14; 13] /\
  match uqf_decode_sum 3 (Some (f_of_int (-1), f_of_int 1)) (Some 3%Z) (sums, None) with Ok [a; b] => Qred (number a) = 1 /\ Qabs (number b - (3#4)) <= (1#20) | _ => False end.
Proof. vm_compute. repeat split; discriminate. Qed.

Print Assumptions C149_codes_add_up_partial.
Print Assumptions C149_decoded_partial.
Print Assumptions C149_single.
Print Assumptions C149_order_refuted.
