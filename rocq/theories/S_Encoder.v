(** Specification vocabulary for encoder trees. *)
From Verif Require Import Base M_Encoder.

Section Spec.
Context {T P Sh St : Type} (tshape : T -> Sh).
Notation stage := (@stage T P Sh St).
Notation encoder := (@encoder T P Sh St).
Notation evalue := (@evalue T).

(** Every stage of the tree satisfies [Q], and the children of every node have distinct keys (a Python dict). *)
Fixpoint every_stage (Q : stage -> Prop) (e : encoder) : Prop :=
  match e with Enc s cs =>
    Q s /\ NoDup (dkeys cs) /\ (fix go cs := match cs with [] => True | (_, c) :: r => every_stage Q c /\ go r end) cs end.

(** Number of stages of the tree; whether its root stage declares that it commutes. *)
Fixpoint num_stages (e : encoder) : nat :=
  match e with Enc _ cs => Datatypes.S ((fix go cs := match cs with [] => O | (_, c) :: r => num_stages c + go r end) cs)%nat end.
Definition root_commutes (e : encoder) : bool := match e with Enc s _ => s_commutes s end.

(** A stage is lossless: whatever it encodes to (a dict: distinct keys), with parameters drawn together, decodes to x. *)
Definition lossless_stage (s : stage) : Prop :=
  forall st x d, s_encode s x (fst (s_params s st)) = Ok d -> NoDup (dkeys d) /\
    s_decode s d (snd (s_params s st)) None (if s_needs_shape s then Some (tshape x) else None) = Ok x.

(** Sums of finitely many summands, indexed by the list [is] (of any type).  [Tsum ts t]: t is the sum of the tensors ts. *)
Context {I : Type} (is : list I) (Tsum : list T -> T -> Prop).
(** [esum w v]: the nested structures [w i] all have the structure of [v], whose leaves are the sums of their leaves. *)
Fixpoint esum (w : I -> evalue) (v : evalue) : Prop :=
  match v with
  | ET t => exists ts : I -> T, (forall i, In i is -> w i = ET (ts i)) /\ Tsum (map ts is) t
  | ED d => exists ds : I -> dict evalue, (forall i, In i is -> w i = ED (ds i)) /\
      (fix dsum (ds : I -> dict evalue) (d : dict evalue) : Prop :=
         match d with
         | [] => forall i, In i is -> ds i = []
         | (k, v) :: r => exists (ws : I -> evalue) (rs : I -> dict evalue),
             (forall i, In i is -> ds i = (k, ws i) :: rs i) /\ esum ws v /\ dsum rs r
         end) ds d
  end.
(** The same for dictionaries of tensors. *)
Fixpoint tdsum (ds : I -> dict T) (d : dict T) : Prop :=
  match d with
  | [] => forall i, In i is -> ds i = []
  | (k, t) :: r => exists (ts : I -> T) (rs : I -> dict T),
      (forall i, In i is -> ds i = (k, ts i) :: rs i) /\ Tsum (map ts is) t /\ tdsum rs r
  end.
(** If the stage declares that it commutes with sums then it does, for this number of summands and with the decoding
    parameters that the stage draws itself. *)
Definition declared_commutation (s : stage) : Prop :=
  s_commutes s = true ->
  forall (ds : I -> dict T) (d : dict T) st sh (ys : I -> T), let pr := snd (s_params s st) in
    tdsum ds d -> (forall i, In i is -> s_decode s (ds i) pr None sh = Ok (ys i)) ->
    exists y, s_decode s d pr (Some (Z.of_nat (List.length is))) sh = Ok y /\ Tsum (map ys is) y.
End Spec.
