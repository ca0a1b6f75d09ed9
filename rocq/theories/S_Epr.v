(** Specification vocabulary for the EPR algorithms: what is assumed of the operations, and what a quantization step is. *)
From Coq Require Import String Ascii.
From Verif Require Import Base M_Tensor M_Num M_Compress S_Compress M_Epr.
Open Scope string_scope.
Open Scope list_scope.
Open Scope nat_scope.

(** The two algorithms, and the training weights of a bias or dense kernel resp. of a convolution kernel in the form the
    algorithm keeps them (the plain EPR also has a log scale). *)
Definition algorithm (fast : bool) (o : epr_ops) : calg := if fast then fast_epr o else epr o.
Definition loss_of (fast : bool) (o : epr_ops) : list cv -> res Q := if fast then fast_loss o else epr_loss o.
Definition dense_weights (fast : bool) (w ls sc : tensor Q) : list cv := VF w :: VF ls :: if fast then [] else [VF sc].
Definition conv_weights (fast : bool) (r : tensor Q) (ks : list nat) (ls sc : tensor Q) : list cv :=
  VF r :: VI (mkT [List.length ks] (map Z.of_nat ks)) :: VF ls :: if fast then [] else [VF sc].

(** Shape of the transformed kernel: (in, out, spatial without the redundant half, re/im). *)
Definition rdft_shape (ks : list nat) : list nat :=
  match ks with
  | [k; i; o] => [i; o; k / 2 + 1; 2]
  | [h; w; i; o] => [i; o; h; w / 2 + 1; 2]
  | _ => []
  end.

(** exp and sqrt are positive. *)
Definition positive (o : epr_ops) : Prop := (forall x, (0 < o_exp o x)%Q) /\ (forall n, 0 < n -> (0 < o_sqrt o n)%Q).
(** exp is one-to-one (on numbers). *)
Definition one_to_one (o : epr_ops) : Prop := forall x y, (o_exp o x == o_exp o y)%Q -> (x == y)%Q.
(** The real FFT: documented shapes; the inverse undoes it and an error of at most [e] in every component becomes one of
    at most 3/2 e (the exact constant is the square root of 2). *)
Definition conv_shape (s : list nat) : Prop := (List.length s = 3 \/ List.length s = 4) /\ Forall (fun d => 0 < d) s.
Definition transform (o : epr_ops) : Prop :=
  (forall t, wf t -> (rank t = 3 \/ rank t = 4) -> shape (o_rfft o t) = rdft_shape (shape t) /\ wf (o_rfft o t)) /\
  (forall s r, conv_shape s -> shape r = rdft_shape s -> shape (o_irfft o (lead s) r) = s /\ wf (o_irfft o (lead s) r)) /\
  (forall t, wf t -> conv_shape (shape t) -> same_tensor (o_irfft o (lead (shape t)) (o_rfft o t)) t) /\
  (forall s r r' e, conv_shape s -> shape r = rdft_shape s -> shape r' = rdft_shape s -> (0 <= e)%Q ->
     (forall idx, valid (rdft_shape s) idx -> (Qabs (tget 0 r idx - tget 0 r' idx) <= e)%Q) ->
     forall idx, valid s idx -> (Qabs (tget 0 (o_irfft o (lead s) r) idx - tget 0 (o_irfft o (lead s) r') idx) <= (3 # 2) * e)%Q).
(** The entropy coder: decoding to the right shape gives back int32 symbols; decoding never gives another shape than
    asked for; the tables survive being stored in 16 bits. *)
Definition int32 (z : Z) : Prop := (- 2 ^ 31 <= z < 2 ^ 31)%Z.
Definition in_int16 (z : Z) : Prop := (- 32768 <= z < 32768)%Z.
Definition coder (o : epr_ops) : Prop :=
  (forall tb s, wf s -> Forall int32 (data s) -> o_decode o tb (shape s) (o_encode o tb s) = Ok s) /\
  (forall tb sh c s, o_decode o tb sh c = Ok s -> shape s = sh /\ wf s) /\
  (forall sc, Forall in_int16 (data (fst (o_tables o sc))) /\ Forall in_int16 (data (snd (o_tables o sc)))).

(** The quantization step of entry [idx] of the weight, for the variable [ls] holding logarithms (numpy broadcasting). *)
Definition step_at (o : epr_ops) (ls : tensor Q) (idx : list nat) : Q :=
  o_exp o (tget 0%Q ls (skipn (List.length idx - rank ls) idx)).
Definition stored_step_at (o : epr_ops) (ls : tensor Q) (idx : list nat) : Q :=
  o_exp o (o_half o (tget 0%Q ls (skipn (List.length idx - rank ls) idx))).
(** [v] is [w] rounded to a multiple of the step. *)
Definition quantized_to (step w v : Q) : Prop := exists z, (v == inject_Z z * step)%Q /\ (Qabs (v - w) <= (1 # 2) * step)%Q.
(** The multiples used fit in 32 bits. *)
Definition moderate (step w : Q) : Prop := (Qabs w <= (2 ^ 31 - 2) * step)%Q.
(** Half precision holds every entry exactly. *)
Definition representable (o : epr_ops) (ls : tensor Q) : Prop := Forall (fun x => o_half o x = x) (data ls).

(** Every dimension fits in 16 bits. *)
Definition small (s : list nat) : Prop := Forall (fun d => (Z.of_nat d < 65536)%Z) s.

(** A float weight EPR can reparameterize: kernel of rank 2 or 4, bias of rank 1. *)
Definition epr_layer (y : ylayer) (k b : lweight) : Prop :=
  kernel_and_bias y k b /\ exists tk tb, lw_value k = VF tk /\ lw_value b = VF tb /\ (rank tk = 2 \/ rank tk = 4) /\ rank tb = 1.
(** A Conv1D layer (with or without bias). *)
Definition conv1d_layer (y : ylayer) (k : lweight) : Prop :=
  proper y /\ y_kind y = KConv1D /\ lw_name k = "kernel" /\
  (y_weights y = [k] \/ exists b, y_weights y = [k; b] /\ lw_name b = "bias").

(** Attribute map: exactly the attributes that hold a placeholder, with its name. *)
Definition holds (placeholders : list (string * nat)) (attrs : list (string * option (option nat))) (a n : string) : Prop :=
  exists i, In (a, Some (Some i)) attrs /\ In (n, i) placeholders.
(** No unreadable attribute comes first or directly after one that holds a placeholder. *)
Fixpoint readable_after (placeholders : list (string * nat)) (attrs : list (string * option (option nat))) : Prop :=
  match attrs with
  | (_, Some (Some i)) :: (((_, None) :: _) as r) => ~ In i (map snd placeholders) /\ readable_after placeholders r
  | _ :: r => readable_after placeholders r
  | [] => True
  end.
(** The step sizes are representable in half precision and the quantized values fit in 32 bits. *)
Definition well_scaled (fast : bool) (o : epr_ops) (tw : list cv) : Prop :=
  forall w ls, (exists sc, tw = dense_weights fast w ls sc) \/ (exists ks sc, tw = conv_weights fast w ks ls sc) ->
    representable o ls /\ forall idx, valid (shape w) idx -> moderate (step_at o ls idx) (tget 0%Q w idx).

(** Number of parameters of a model. *)
Definition parameters (layers : list ylayer) : nat := sumN (map (fun w => prod (vshape (lw_value w))) (flat_map y_weights layers)).
(** Training weights in the form the algorithm keeps them, the step variable broadcasting along the last axes. *)
Definition reparameterized (fast : bool) (tw : list cv) : Prop :=
  exists w ls sc, wf ls /\ ((shape ls = [] /\ tw = dense_weights fast w ls sc) \/ (exists ks, shape ls = skipn 2 (shape w) /\ tw = conv_weights fast w ks ls sc)).
(** [l] is [weight] times the code length of the weight divided by its step (under the learned scales, unless fast). *)
Definition charged (fast : bool) (o : epr_ops) (weight : Q) (tw : list cv) (l : Q) : Prop :=
  exists w ls sc x, (tw = dense_weights fast w ls sc \/ exists ks, tw = conv_weights fast w ks ls sc) /\ shape x = shape w /\
    (forall idx, valid (shape w) idx -> (tget 0 x idx * step_at o ls idx == tget 0 w idx)%Q) /\
    (l == weight * o_bits o (if fast then None else Some (tmap (o_exp o) sc)) x)%Q.
