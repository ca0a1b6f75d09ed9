(** C146: uniform quantization in float32. *)
From Flocq Require Import Core BinarySingleNaN.
From Verif Require Import Base M_Float32 S_Float32 M_FloatQuant S_FloatQuant L_FloatQuant2.
From Coq Require Import Qabs Qpower.
Open Scope Q_scope.

Notation at_ l i := (nth i l (f_of_int 0)).

Section Stage.
  Context (bits : nat) (min_max : option (f32 * f32)) (stochastic : bool) (draw : nat -> f32) (x : list f32).
  (** A stage as constructed, random draws, and values (and a range) that are numbers of at most 2^126. *)
  Definition usable : Prop := (1 <= bits <= 16)%nat /\ good_range min_max /\ (forall i, is_draw (draw i)) /\ Forall moderate x /\ x <> [].
  Notation encoded := (uqf_encode bits min_max stochastic draw x).
  (** Every code is an integer that fits the declared bits... *)
  Theorem C146_codes_partial : usable -> length (fst encoded) = length x /\ Forall (is_code bits) (fst encoded).
  Proof. intros (B & G & D & X & N). now apply codes_ok. Qed.
  (** ... the least value gets code 0 and the greatest the greatest code... *)
  Theorem C146_ends_partial : usable -> exists lo hi, is_range min_max x lo hi /\ forall i, (i < length x)%nat ->
    (number (at_ x i) <= number lo -> number (at_ (fst encoded) i) == 0) /\
    (number lo < number hi -> number hi <= number (at_ x i) -> number (at_ (fst encoded) i) == inject_Z (2 ^ Z.of_nat bits - 1)).
  Proof. intros (B & G & D & X & N). now apply ends_ok. Qed.
  (** ... deterministic codes respect the order of the values... *)
  Theorem C146_order_partial : usable -> stochastic = false -> forall i j, (i < length x)%nat -> (j < length x)%nat ->
    number (at_ x i) <= number (at_ x j) -> number (at_ (fst encoded) i) <= number (at_ (fst encoded) j).
  Proof. intros (B & G & D & X & N). now apply order_ok. Qed.
  (** ... and decoding returns numbers within one step (half a step if deterministic) and a relative 3/4194304 of the range of the
      (clipped) values; the least value and constant tensors come back exactly. *)
  Theorem C146_roundtrip_partial : usable -> exists lo hi ys, is_range min_max x lo hi /\ uqf_decode bits min_max encoded = Ok ys /\ length ys = length x /\
    forall i, (i < length x)%nat -> finite (at_ ys i) /\
      Qabs (number (at_ ys i) - clamp (number lo) (number hi) (number (at_ x i))) <=
        (if stochastic then 1 else 1#2) * step bits lo hi + 3 * eps * (Qabs (number lo) + Qabs (number hi)) + tiny /\
      (number (at_ x i) <= number lo \/ number lo == number hi -> number (at_ ys i) == number lo).
  Proof. intros (B & G & D & X & N). now apply decode_ok_all. Qed.
End Stage.

(** The float32 number m * 2^e. *)
Definition fl (m e : Z) : f32 := binary_normalize 24 128 prec24 emax128 mode_NE m e false.
(** Beyond 2^126 the range overflows: the greatest value is encoded as NaN. *)
Theorem C146_overflow_refuted : exists x, x <> [] /\ Forall finite x /\ is_nan (nth 1 (fst (uqf_encode 8 None false (fun _ => f_of_int 0) x)) (f_of_int 0)) = true.
Proof.
  exists [fl (-1) 127; fl 1 127]. split; [discriminate|]. split; [|vm_compute; reflexivity].
  apply Forall_cons; [vm_compute; reflexivity|]. apply Forall_cons; [vm_compute; reflexivity|apply Forall_nil].
Qed.
(** And the greatest value need not come back exactly, unlike with exact arithmetic (C53). *)
Theorem C146_greatest_value_refuted : exists lo hi ys, usable 8 (Some (lo, hi)) (fun _ => f_of_int 0) [lo; hi] /\
  uqf_decode 8 (Some (lo, hi)) (uqf_encode 8 (Some (lo, hi)) false (fun _ => f_of_int 0) [lo; hi]) = Ok ys /\ ~ number (at_ ys 1) == number hi.
Proof.
  pose (lo := fl (-1) 0). pose (hi := fl 1 (-25)). exists lo, hi.
  assert (Ml : moderate lo) by (split; vm_compute; congruence). assert (Mh : moderate hi) by (split; vm_compute; congruence).
  assert (G : good_range (Some (lo, hi))) by (split; [exact Ml|split; [exact Mh|vm_compute; congruence]]).
  assert (D : forall i : nat, is_draw ((fun _ => f_of_int 0) i)) by (intros i; split; vm_compute; congruence).
  destruct (decode_nth 8 (Some (lo, hi)) false (fun _ => f_of_int 0) [lo; hi] ltac:(lia) G D lo hi eq_refl) as (ys & D1 & _ & D3). exists ys. split; [|split; [exact D1|]].
  - split; [lia|]. split; [exact G|]. split; [exact D|]. split; [|discriminate].
    apply Forall_cons; [exact Ml|]. apply Forall_cons; [exact Mh|apply Forall_nil].
  - rewrite (D3 1%nat) by (cbn; lia). vm_compute. discriminate.
Qed.

(** Three bits, deterministic and stochastic, and a given range that clips. *)
Definition xs : list f32 := [fl (-3) (-1); fl 1 0; fl 3 (-2); fl 1 (-3)].
Definition codes (l : list f32) : list Q := map (fun q => Qred (number q)) l.
Example C146_example :
  codes (fst (uqf_encode 3 None false (fun _ => f_of_int 0) xs)) = [0; 7; 6; 5] /\
  codes (fst (uqf_encode 3 None true (fun _ => fl 1 (-1)) xs)) = [0; 7; 6; 5] /\
  codes (fst (uqf_encode 3 (Some (f_of_int 0, f_of_int 1)) false (fun _ => f_of_int 0) xs)) = [0; 7; 5; 1].
Proof. vm_compute. repeat split. Qed.
Example C146_hypotheses : usable 3 None (fun _ => fl 1 (-1)) xs.
Proof.
  split; [lia|]. split; [exact Logic.I|]. split; [intros i; split; vm_compute; congruence|]. split; [|discriminate].
  repeat (apply Forall_cons; [split; vm_compute; congruence|]). apply Forall_nil.
Qed.

Print Assumptions C146_codes_partial.
Print Assumptions C146_ends_partial.
Print Assumptions C146_order_partial.
Print Assumptions C146_roundtrip_partial.
Print Assumptions C146_overflow_refuted.
Print Assumptions C146_greatest_value_refuted.
