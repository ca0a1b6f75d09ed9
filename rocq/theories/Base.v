(** Common definitions: Python results with exceptions, list helpers.
    All citations in this development are relative to
    /repo/tensorflow_model_optimization/python/core/ unless they start with /repo. *)
From Coq Require Export List Arith ZArith QArith Bool Lia Lqa.
From Coq Require Export ZifyBool ZifyNat.
Export ListNotations.
Open Scope nat_scope.
Open Scope list_scope.

(** Python exception kinds that the modelled code raises (or that the TensorFlow op it calls raises:
    [InvalidArgument]). *)
Inductive exn : Type :=
| ValueError | TypeError | IndexError | KeyError | AssertionError | AttributeError
| NotImplementedError | RuntimeError | InvalidArgument | StepNotSet | NameError | ZeroDivisionError | OverflowError.

Inductive res (A : Type) : Type :=
| Ok (a : A)
| Err (e : exn).
Arguments Ok {A} a.
Arguments Err {A} e.

Definition bind {A B} (x : res A) (f : A -> res B) : res B :=
  match x with Ok a => f a | Err e => Err e end.
Notation "'do' x <- e1 ;; e2" := (bind e1 (fun x => e2)) (at level 200, x pattern, e1 at level 100, e2 at level 200).

Definition is_ok {A} (x : res A) : bool := match x with Ok _ => true | Err _ => false end.

(** [map] over a function that may raise: left to right, first error wins (a Python [for] loop). *)
Fixpoint mapM {A B} (f : A -> res B) (l : list A) : res (list B) :=
  match l with
  | [] => Ok []
  | a :: r => do b <- f a ;; do bs <- mapM f r ;; Ok (b :: bs)
  end.

(** Number of [true] entries. *)
Definition count_true (l : list bool) : nat := length (filter (fun b => b) l).

Definition lookup {A} (l : list A) (i : nat) : option A := nth_error l i.

(** Split a list into consecutive chunks of [n] elements ([n > 0]; the last may be shorter). *)
Fixpoint chunks_fuel {A} (fuel n : nat) (l : list A) : list (list A) :=
  match fuel with
  | O => []
  | S f => match l with
           | [] => []
           | _ => firstn n l :: chunks_fuel f n (skipn n l)
           end
  end.
Definition chunks {A} (n : nat) (l : list A) : list (list A) := chunks_fuel (length l) n l.

Fixpoint sumZ (l : list Z) : Z := match l with [] => 0%Z | a :: r => (a + sumZ r)%Z end.
Fixpoint sumQ (l : list Q) : Q := match l with [] => 0%Q | a :: r => (a + sumQ r)%Q end.
Fixpoint sumN (l : list nat) : nat := match l with [] => 0 | a :: r => a + sumN r end.
