(** EncoderComposer objects.  Source: internal/tensor_encoding/core/core_encoder.py:466-548, 121-190.
    Composer objects are mutable and shared (a node keeps growing after [add_parent] has put it below a parent), so they are
    modelled as indices into a heap of nodes. *)
From Verif Require Import Base M_Encoder.

Section Composer.
Context {S : Type} (compressible : S -> list string).
(** A node: its stage and the indices of its children by key (core_encoder.py:485-487). *)
Definition cnode := (S * dict nat)%type.
Definition heap := list cnode.
(** 477-488 [__init__]; the new object is the last of the heap. *)
Definition new_composer (h : heap) (s : S) : heap * nat := (h ++ [(s, [])], List.length h).
Fixpoint set_nth (i : nat) (n : cnode) (h : heap) : heap :=
  match h, i with [], _ => [] | _ :: r, O => n :: r | x :: r, Datatypes.S j => x :: set_nth j n r end.
(** 490-512 [add_child]; a failing call leaves the heap unchanged. *)
Definition add_child (h : heap) (i : nat) (s : S) (k : string) : res (heap * nat) :=
  match nth_error h i with
  | None => Err AttributeError
  | Some (s0, kids) =>
      if negb (existsb (String.eqb k) (compressible s0)) then Err KeyError
      else match dget k kids with
           | Some _ => Err KeyError
           | None => let '(h', j) := new_composer h s in Ok (set_nth i (s0, dset k j kids) h', j)
           end
  end.
(** 514-533 [add_parent]. *)
Definition add_parent (h : heap) (i : nat) (s : S) (k : string) : res (heap * nat) :=
  match nth_error h i with
  | None => Err AttributeError
  | Some _ =>
      if negb (existsb (String.eqb k) (compressible s)) then Err KeyError
      else Ok (h ++ [(s, [(k, i)])], List.length h)
  end.
(** The operations a program performs on composer objects; a failing one raises and changes nothing. *)
Inductive cop := New (s : S) | AddChild (i : nat) (s : S) (k : string) | AddParent (i : nat) (s : S) (k : string).
Definition cstep (h : heap) (o : cop) : heap :=
  match o with
  | New s => fst (new_composer h s)
  | AddChild i s k => match add_child h i s k with Ok (h', _) => h' | Err _ => h end
  | AddParent i s k => match add_parent h i s k with Ok (h', _) => h' | Err _ => h end
  end.
Definition crun (ops : list cop) : heap := fold_left cstep ops [].
End Composer.
Arguments cnode S : clear implicits. Arguments heap S : clear implicits. Arguments cop S : clear implicits.

Section Make.
Context {T P Sh St : Type}.
(** 535-548 [make]: recursion on the object graph; [fuel] bounds Python's recursion depth. *)
Fixpoint make (fuel : nat) (h : heap (@stage T P Sh St)) (i : nat) : res (@encoder T P Sh St) :=
  match fuel with
  | O => Err RuntimeError
  | Datatypes.S f =>
      match nth_error h i with
      | None => Err AttributeError
      | Some (s, kids) =>
          do cs <- mapM (fun kc => do c <- make f h (snd kc) ;; Ok (fst kc, c)) kids ;;
          Ok (Enc s cs)
      end
  end.
(** 155-165 [_initial_state_impl]. *)
Fixpoint initial_state (init : @stage T P Sh St -> St) (e : @encoder T P Sh St) : tree St :=
  match e with Enc s cs => Node (init s) ((fix go cs := match cs with [] => [] | (k, c) :: r => (k, initial_state init c) :: go r end) cs) end.
(** 191-206 [_update_state_impl]; [U]: the state-update tensors of one stage. *)
Fixpoint update_state {U} (upd : @stage T P Sh St -> St -> U -> St) (e : @encoder T P Sh St) (st : tree St) (u : tree U) : res (tree St) :=
  match e with Enc s cs =>
    do kids <- (fix go cs := match cs with
                | [] => Ok []
                | (k, c) :: r =>
                    do sk <- dindex k (tkids st) ;; do uk <- dindex k (tkids u) ;;
                    do n <- update_state upd c sk uk ;;
                    do rest <- go r ;; Ok ((k, n) :: rest)
                end) cs ;;
    Ok (Node (upd s (troot st) (troot u)) kids) end.
End Make.
