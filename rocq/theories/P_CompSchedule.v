(** C64: the scheduler of the weight-compression framework. *)
From Verif Require Import Base M_Schedule M_CompSchedule L_CompSchedule.
From Coq Require Import Reals Qreals.
Open Scope Z_scope.

(** Floating dtype: [decay_steps = n > 0], [exponent = ex > 0]; [s], [e] the start and end value, [b] the begin step. *)
Theorem C64_float : forall s e n b ex, 0 < n -> (0 < ex)%Q ->
  exists v : Z -> R,
    (forall t, cdecay_call (mkDecay s n e b ex DFloat) t = Ok (Fin (v t))) /\
    (forall t, t <= b -> v t = Q2R s) /\
    (forall t, b + n <= t -> v t = Q2R e) /\
    (forall t, b <= t < b + n ->
       v t = (Q2R e + (Q2R s - Q2R e) * Rpower (1 - IZR (t - b) / IZR n) (Q2R ex))%R) /\
    (forall t, Rmin (Q2R s) (Q2R e) <= v t <= Rmax (Q2R s) (Q2R e))%R /\
    (forall t1 t2, t1 <= t2 -> (s <= e)%Q -> (v t1 <= v t2)%R) /\
    (forall t1 t2, t1 <= t2 -> (e <= s)%Q -> (v t2 <= v t1)%R).
Proof. exact decay_float. Qed.
Print Assumptions C64_float.
(** Integer dtype, integer start and end: the same, the distance to the end value being rounded towards zero. *)
Theorem C64_int : forall (s e n b : Z) ex, 0 < n -> (0 < ex)%Q ->
  exists v : Z -> Z,
    (forall t, cdecay_call (mkDecay (inject_Z s) n (inject_Z e) b ex DInt) t = Ok (Fin (IZR (v t)))) /\
    (forall t, t <= b -> v t = s) /\
    (forall t, b + n <= t -> v t = e) /\
    (forall t, Z.min s e <= v t <= Z.max s e) /\
    (forall t1 t2, t1 <= t2 -> s <= e -> v t1 <= v t2) /\
    (forall t1 t2, t1 <= t2 -> e <= s -> v t2 <= v t1) /\
    (forall t, b <= t < b + n ->
       let exact := ((IZR s - IZR e) * Rpower (1 - IZR (t - b) / IZR n) (Q2R ex))%R in
       (Rabs (IZR (v t - e)) <= Rabs exact /\ Rabs (exact - IZR (v t - e)) < 1)%R).
Proof. exact decay_int. Qed.
Print Assumptions C64_int.
Example C64_ex : 0 < 1000 /\ (0 < 1)%Q /\
  cdecay_call (mkDecay (inject_Z 64) 1000 (inject_Z 16) 100 1 DFloat) 1101 = Ok (Fin (Q2R 16)) /\
  cdecay_call (mkDecay (inject_Z 64) 1000 (inject_Z 16) 100 1 DFloat) 99 = Ok (Fin (Q2R 64)).
Proof. repeat split. Qed.
