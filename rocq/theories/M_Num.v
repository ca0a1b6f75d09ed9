(** Numeric primitives of TensorFlow / NumPy used by several models (documented meaning, exact rationals). *)
From Verif Require Import Base.
From Coq Require Export Qround Qabs.
Open Scope Q_scope.

(** tf.round / np.round: nearest integer, ties to even. *)
Definition round_half_even (x : Q) : Z :=
  let f := Qfloor x in
  let r := x - inject_Z f in
  if negb (Qle_bool (1#2) r) then f
  else if negb (Qle_bool r (1#2)) then (f + 1)%Z
  else if Z.even f then f else (f + 1)%Z.

Definition qmax (a b : Q) : Q := if Qle_bool a b then b else a.
Definition qmin (a b : Q) : Q := if Qle_bool a b then a else b.
Definition qltb (a b : Q) : bool := negb (Qle_bool b a).

(** 0/1 value of a boolean (tf.cast of a bool tensor). *)
Definition b2q (b : bool) : Q := if b then 1 else 0.
