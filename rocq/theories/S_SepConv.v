(** Specification: what SeparableConv1D and SeparableConv2D compute (formula in the TensorFlow documentation). *)
From Coq Require Import String.
From Verif Require Import Base M_Tensor M_Num M_SepConv.
Open Scope nat_scope.

(** [o] output positions along an axis of [n] inputs, kernel extent [e], stride [s]; padding in front. *)
Definition positions (p : padding) (n e s o : nat) : Prop :=
  match p with
  | Valid => forall i, i < o <-> i * s + e <= n
  | Same => forall i, i < o <-> i * s < n
  | Causal => False
  end.
Definition front (p : padding) (n e s o : nat) : nat := match p with Same => ((o - 1) * s + e - n) / 2 | _ => 0 end.
(** Entry [i] (possibly outside) along an axis of size [n], zero outside. *)
Definition inside (i : Z) (n : nat) (v : nat -> Q) : Q := if (0 <=? i)%Z then if (i <? Z.of_nat n)%Z then v (Z.to_nat i) else 0%Q else 0%Q.
Definition tap (o s k d p : nat) : Z := (Z.of_nat (o * s) + Z.of_nat (k * d) - Z.of_nat p)%Z.
Definition total (n : nat) (f : nat -> Q) : Q := sumQ (map f (seq 0 n)).
Definition offset (bias : list (tensor Q)) (f : nat) : Q := match bias with b :: _ => tget 0%Q b [f] | [] => 0%Q end.
Definition place4 (last : bool) (b i j c : nat) : list nat := if last then [b; i; j; c] else [b; c; i; j].
Definition place3 (last : bool) (b i c : nat) : list nat := if last then [b; i; c] else [b; c; i].

(** y = SeparableConv2D(x). *)
Definition separable2d {R A} (act : A -> Q -> Q) (c : sepc R A (nat * nat)) (dk pk : tensor Q) (bias : list (tensor Q)) (x y : tensor Q) : Prop :=
  forall B H W C, shape x = place4 (s_last _ c) B H W C ->
  exists oh ow, let eh := (fst (s_kernel _ c) - 1) * fst (s_dilation _ c) + 1 in let ew := (snd (s_kernel _ c) - 1) * snd (s_dilation _ c) + 1 in
    positions (s_padding _ c) H eh (fst (s_strides _ c)) oh /\ positions (s_padding _ c) W ew (snd (s_strides _ c)) ow /\
    shape y = place4 (s_last _ c) B oh ow (s_filters _ c) /\
    forall b i j f, b < B -> i < oh -> j < ow -> f < s_filters _ c ->
    (tget 0 y (place4 (s_last _ c) b i j f) ==
     act (s_act _ c) (total (fst (s_kernel _ c)) (fun di => total (snd (s_kernel _ c)) (fun dj => total C (fun q => total (s_mult _ c) (fun r =>
       inside (tap i (fst (s_strides _ c)) di (fst (s_dilation _ c)) (front (s_padding _ c) H eh (fst (s_strides _ c)) oh)) H (fun i' =>
       inside (tap j (snd (s_strides _ c)) dj (snd (s_dilation _ c)) (front (s_padding _ c) W ew (snd (s_strides _ c)) ow)) W (fun j' =>
         tget 0 x (place4 (s_last _ c) b i' j' q))) * tget 0 dk [di; dj; q; r] * tget 0 pk [0; 0; q * s_mult _ c + r; f]%nat)))) + offset bias f))%Q.
(** y = SeparableConv1D(x). *)
Definition separable1d {R A} (act : A -> Q -> Q) (c : sepc R A nat) (dk pk : tensor Q) (bias : list (tensor Q)) (x y : tensor Q) : Prop :=
  forall B W C, shape x = place3 (s_last _ c) B W C ->
  exists ow, let ew := (s_kernel _ c - 1) * s_dilation _ c + 1 in
    positions (s_padding _ c) W ew (s_strides _ c) ow /\ shape y = place3 (s_last _ c) B ow (s_filters _ c) /\
    forall b j f, b < B -> j < ow -> f < s_filters _ c ->
    (tget 0 y (place3 (s_last _ c) b j f) ==
     act (s_act _ c) (total (s_kernel _ c) (fun dj => total C (fun q => total (s_mult _ c) (fun r =>
       inside (tap j (s_strides _ c) dj (s_dilation _ c) (front (s_padding _ c) W ew (s_strides _ c) ow)) W (fun j' =>
         tget 0 x (place3 (s_last _ c) b j' q)) * tget 0 dk [dj; q; r] * tget 0 pk [0; q * s_mult _ c + r; f]%nat))) + offset bias f))%Q.

(** A built layer: positive sizes, kernels of the documented shapes, a bias iff asked for. *)
Definition weights2d {R A} (c : sepc R A (nat * nat)) (C : nat) (dk pk : tensor Q) (bias : list (tensor Q)) : Prop :=
  wf dk /\ wf pk /\ shape dk = [fst (s_kernel _ c); snd (s_kernel _ c); C; s_mult _ c] /\ shape pk = [1; 1; C * s_mult _ c; s_filters _ c] /\
  0 < fst (s_strides _ c) /\ 0 < snd (s_strides _ c) /\ 0 < s_mult _ c /\ 0 < fst (s_kernel _ c) /\ 0 < snd (s_kernel _ c) /\
  (if s_bias _ c then exists b, bias = [b] /\ shape b = [s_filters _ c] else bias = []).
Definition weights1d {R A} (c : sepc R A nat) (C : nat) (dk pk : tensor Q) (bias : list (tensor Q)) : Prop :=
  wf dk /\ wf pk /\ shape dk = [s_kernel _ c; C; s_mult _ c] /\ shape pk = [1; C * s_mult _ c; s_filters _ c] /\
  0 < s_strides _ c /\ 0 < s_mult _ c /\ 0 < s_kernel _ c /\ (if s_bias _ c then exists b, bias = [b] /\ shape b = [s_filters _ c] else bias = []).
(** act respects equality of rationals. *)
Definition respects {A} (act : A -> Q -> Q) : Prop := forall a x y, (x == y)%Q -> (act a x == act a y)%Q.

(** The settings of a layer that concern training: initializers, regularizers and constraints of the depthwise kernel,
    the pointwise kernel, the bias and the output. *)
Definition depthwise_settings {R A T} (c : sepc R A T) : list R := [s_dinit _ c; s_dreg _ c; s_dcons _ c].
Definition pointwise_settings {R A T} (c : sepc R A T) : list R := [s_pinit _ c; s_preg _ c; s_pcons _ c; s_binit _ c; s_breg _ c; s_bcons _ c; s_areg _ c].
