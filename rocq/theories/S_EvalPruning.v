(** Specification vocabulary for C142: the flags of the pruning benchmark tool and what it leaves on disk. *)
From Coq Require Import String Ascii.
From Verif Require Import Base M_Tensor M_PruneWrapper S_Tools.
Open Scope string_scope.
Open Scope list_scope.
Open Scope Z_scope.

(** ** Python integer literals as int() reads them (ASCII) *)
Inductive digit_of : ascii -> Z -> Prop :=
| is0 : digit_of "0" 0 | is1 : digit_of "1" 1 | is2 : digit_of "2" 2 | is3 : digit_of "3" 3 | is4 : digit_of "4" 4
| is5 : digit_of "5" 5 | is6 : digit_of "6" 6 | is7 : digit_of "7" 7 | is8 : digit_of "8" 8 | is9 : digit_of "9" 9.
(** One or more digits, most significant first, an underscore allowed between two digits. *)
Inductive digits_of : string -> Z -> Prop :=
| one_digit : forall c d, digit_of c d -> digits_of (String c "") d
| more_digits : forall s n c d, digits_of s n -> digit_of c d -> digits_of (s ++ String c "")%string (10 * n + d)
| underscore : forall s n c d, digits_of s n -> digit_of c d -> digits_of (s ++ String "_" (String c ""))%string (10 * n + d).
(** Space, tab, line feed, vertical tab, form feed, carriage return. *)
Definition blanks : list ascii := [" "; "009"; "010"; "011"; "012"; "013"]%char.
Inductive blank_string : string -> Prop :=
| no_blank : blank_string ""
| more_blank : forall c s, In c blanks -> blank_string s -> blank_string (String c s).
Definition int_literal (s : string) (z : Z) : Prop :=
  exists left sign digits right n, s = (left ++ sign ++ digits ++ right)%string /\ blank_string left /\ blank_string right /\
    digits_of digits n /\ ((sign = "" /\ z = n) \/ (sign = "+" /\ z = n) \/ (sign = "-" /\ z = - n)).
(** "height,width" *)
Definition block_literal (s : string) (h w : Z) : Prop :=
  exists a b, s = (a ++ "," ++ b)%string /\ int_literal a h /\ int_literal b w.

(** Two paths hold the same in both file systems, for every path but those listed. *)
Definition same_but {B} (except : list string) (before after : string -> option B) : Prop :=
  forall p, ~ In p except -> after p = before p.

(** The weights of a model after one-shot pruning to [s] with [h] x [w] blocks (C97): element by element for 1 x 1, else in blocks. *)
Definition one_shot (s : Q) (h w : nat) (m m' : list (list (tensor Q))) : Prop :=
  Forall2 (Forall2 (fun t t' => exists v, ((h = 1 /\ w = 1)%nat -> pruned_to s t v) /\ (~ (h = 1 /\ w = 1)%nat -> pruned_in_blocks s h w t v) /\ t' = pv_w v)) m m'.
(** What such pruning needs: weights with at least one element; for blocks, matrices larger than a block both ways. *)
Definition block_size_fits (h w : nat) (m : list (list (tensor Q))) : Prop := forall ts t, In ts m -> In t ts ->
  ((h = 1 /\ w = 1)%nat -> (0 < List.length (data t))%nat) /\
  (~ (h = 1 /\ w = 1)%nat -> wf t /\ exists r c, shape t = [r; c] /\ (h < r)%nat /\ (w < c)%nat).
