(** Breaking up separable convolutions for quantization.
    Source: quantization/keras/default_8bit/default_8bit_transforms.py:345-470 and 473-564 (the n-bit copies,
    experimental/default_n_bit/default_n_bit_transforms.py, differ only in which configs they attach).
    Typed configurations and the arithmetic meaning of the layers; the place of these transforms in the layout pass is
    M_Layout8.  Exact rationals; elementwise activations. *)
From Coq Require Import String.
From Verif Require Import Base M_Tensor M_Num.
Open Scope string_scope.
Open Scope list_scope.
Open Scope nat_scope.

(** ** TensorFlow convolutions (documented meaning) *)
(** Index of (batch, row, column, channel); [cl]: channels_last. *)
Definition idx4 (cl : bool) (b i j c : nat) : list nat := if cl then [b; i; j; c] else [b; c; i; j].
Definition un4 (cl : bool) (l : list nat) : nat * nat * nat * nat :=
  match l with [p; q; r; s] => if cl then (p, q, r, s) else (p, r, s, q) | _ => (0, 0, 0, 0) end.
(** Extent of a dilated kernel, number of outputs, rows of padding in front (tf.nn.convolution). *)
Definition extent (k d : nat) : nat := (k - 1) * d + 1.
Definition out_size (same : bool) (n k s d : nat) : nat := if same then (n + s - 1) / s else (n + s - extent k d) / s.
Definition pad_before (same : bool) (n k s d : nat) : nat :=
  if same then ((out_size true n k s d - 1) * s + extent k d - n) / 2 else 0.
(** A pixel of the zero-padded image. *)
Definition pixel (cl : bool) (x : tensor Q) (b : nat) (i j : Z) (c : nat) : Q :=
  let '(_, h, w, _) := un4 cl (shape x) in
  if ((0 <=? i) && (i <? Z.of_nat h) && (0 <=? j) && (j <? Z.of_nat w))%Z%bool then tget 0%Q x (idx4 cl b (Z.to_nat i) (Z.to_nat j) c) else 0%Q.
Definition sumn (n : nat) (f : nat -> Q) : Q := sumQ (map f (seq 0 n)).
Definition at_ (o s k d p : nat) : Z := (Z.of_nat (o * s + k * d) - Z.of_nat p)%Z.
Definition dim (s : list nat) (k : nat) : nat := nth k s 0.

(** tf.nn.depthwise_conv2d. *)
Definition depthwise (cl same : bool) (s d : nat * nat) (x k : tensor Q) : tensor Q :=
  let '(b, h, w, c) := un4 cl (shape x) in
  let kh := dim (shape k) 0 in let kw := dim (shape k) 1 in let m := dim (shape k) 3 in
  let ph := pad_before same h kh (fst s) (fst d) in let pw := pad_before same w kw (snd s) (snd d) in
  tab (idx4 cl b (out_size same h kh (fst s) (fst d)) (out_size same w kw (snd s) (snd d)) (c * m)) (fun idx =>
    let '(b, i, j, e) := un4 cl idx in
    sumn kh (fun di => sumn kw (fun dj =>
      (pixel cl x b (at_ i (fst s) di (fst d) ph) (at_ j (snd s) dj (snd d) pw) (e / m)%nat * tget 0%Q k [di; dj; e / m; e mod m]%nat)%Q))).
(** tf.nn.conv2d. *)
Definition conv2d (cl same : bool) (s d : nat * nat) (x k : tensor Q) : tensor Q :=
  let '(b, h, w, c) := un4 cl (shape x) in
  let kh := dim (shape k) 0 in let kw := dim (shape k) 1 in
  let ph := pad_before same h kh (fst s) (fst d) in let pw := pad_before same w kw (snd s) (snd d) in
  tab (idx4 cl b (out_size same h kh (fst s) (fst d)) (out_size same w kw (snd s) (snd d)) (dim (shape k) 3)) (fun idx =>
    let '(b, i, j, f) := un4 cl idx in
    sumn kh (fun di => sumn kw (fun dj => sumn c (fun q =>
      (pixel cl x b (at_ i (fst s) di (fst d) ph) (at_ j (snd s) dj (snd d) pw) q * tget 0%Q k [di; dj; q; f])%Q)))).
(** Bias over the channels, then an elementwise activation. *)
Definition bias_act (cl : bool) (bias : option (tensor Q)) (act : Q -> Q) (x : tensor Q) : tensor Q :=
  tab (shape x) (fun idx => let '(_, _, _, f) := un4 cl idx in
    act (tget 0%Q x idx + match bias with Some b => tget 0%Q b [f] | None => 0 end)%Q).

(** ** Layer configurations.  [R]: regularizers, constraints, initializers; [A]: activations. *)
Section Configs.
Context {R A : Type} (linear : A).
(** SeparableConv1D / SeparableConv2D. *)
Inductive padding := Valid | Same | Causal.
Record sepc (T : Type) := mkSep {
  s_filters : nat; s_kernel : T; s_strides : T; s_padding : padding; s_last : bool; s_dilation : T; s_mult : nat;
  s_act : A; s_bias : bool; s_dinit : R; s_pinit : R; s_binit : R; s_dreg : R; s_preg : R; s_breg : R; s_areg : R;
  s_dcons : R; s_pcons : R; s_bcons : R; s_trainable : bool; s_dtype : string }.
Record dconvc := mkDc {
  d_kernel : nat * nat; d_strides : nat * nat; d_padding : padding; d_last : bool; d_dilation : nat * nat; d_mult : nat;
  d_act : A; d_bias : bool; d_init : R; d_reg : R; d_cons : R; d_trainable : bool; d_dtype : string }.
Record convc := mkCc {
  c_filters : nat; c_kernel : nat * nat; c_strides : nat * nat; c_padding : padding; c_last : bool; c_dilation : nat * nat;
  c_groups : nat; c_act : A; c_bias : bool; c_kinit : R; c_binit : R; c_kreg : R; c_breg : R; c_areg : R; c_kcons : R; c_bcons : R;
  c_trainable : bool; c_dtype : string }.

(** 490-564 [SeparableConvQuantize.replacement] (without custom config); the dtype argument is left to its default. *)
Definition split_sepconv (c : sepc (nat * nat)) (ws : list (tensor Q)) : res ((dconvc * list (tensor Q)) * (convc * list (tensor Q))) :=
  match ws with
  | w0 :: w1 :: rest =>
    let dc := mkDc (s_kernel _ c) (s_strides _ c) (s_padding _ c) (s_last _ c) (s_dilation _ c) (s_mult _ c) linear false
                   (s_dinit _ c) (s_dreg _ c) (s_dcons _ c) (s_trainable _ c) "float32" in
    let cc := mkCc (s_filters _ c) (1, 1) (1, 1) Valid (s_last _ c) (s_dilation _ c) 1 (s_act _ c) (s_bias _ c) (s_pinit _ c) (s_binit _ c)
                   (s_preg _ c) (s_breg _ c) (s_areg _ c) (s_pcons _ c) (s_bcons _ c) (s_trainable _ c) "float32" in
    do b <- (if s_bias _ c then match rest with b :: _ => Ok [b] | [] => Err IndexError end else Ok []) ;;
    Ok ((dc, [w0]), (cc, w1 :: b))
  | _ => Err IndexError
  end.
(** 362-470 [SeparableConv1DQuantize.replacement]: the SeparableConv2D in the middle and the axis of expand_dims/squeeze. *)
Definition expand0 (t : tensor Q) : tensor Q := mkT (1 :: shape t) (data t).
Definition widen_sepconv (c : sepc nat) (ws : list (tensor Q)) : res (nat * (sepc (nat * nat) * list (tensor Q))) :=
  match s_padding _ c with
  | Causal => Err ValueError
  | p =>
    match ws with
    | w0 :: w1 :: rest =>
      do b <- (if s_bias _ c then match rest with b :: _ => Ok [b] | [] => Err IndexError end else Ok []) ;;
      Ok (if s_last _ c then 1 else 2,
          (mkSep (nat * nat) (s_filters _ c) (1, s_kernel _ c) (s_strides _ c, s_strides _ c) p (s_last _ c) (1, s_dilation _ c) (s_mult _ c)
             (s_act _ c) (s_bias _ c) (s_dinit _ c) (s_pinit _ c) (s_binit _ c) (s_dreg _ c) (s_preg _ c) (s_breg _ c) (s_areg _ c)
             (s_dcons _ c) (s_pcons _ c) (s_bcons _ c) (s_trainable _ c) "float32",
           expand0 w0 :: expand0 w1 :: b))
    | _ => Err IndexError
    end
  end.

(** ** The new layers receive the weights and are called ([act]: the meaning of an activation).  Causal padding does not occur. *)
Definition is_same (p : padding) : bool := match p with Same => true | _ => false end.
(** Keras refuses weights whose shapes differ from those the configuration builds (channels [ch]). *)
Definition has_shape (s : list nat) (t : tensor Q) : bool := if list_eq_dec Nat.eq_dec (shape t) s then true else false.
Definition set_weights (expected : list (list nat)) (ws : list (tensor Q)) : res unit :=
  if (Nat.eqb (List.length expected) (List.length ws) && forallb (fun p => has_shape (fst p) (snd p)) (combine expected ws))%bool then Ok tt else Err ValueError.
Definition channels (cl : bool) (x : tensor Q) : nat := let '(_, _, _, c) := un4 cl (shape x) in c.
Definition call_dconv (act : A -> Q -> Q) (c : dconvc) (ws : list (tensor Q)) (x : tensor Q) : res (tensor Q) :=
  do _ <- set_weights ([fst (d_kernel c); snd (d_kernel c); channels (d_last c) x; d_mult c] :: if d_bias c then [[channels (d_last c) x * d_mult c]] else []) ws ;;
  match ws with
  | k :: rest =>
    do b <- (if d_bias c then match rest with b :: _ => Ok (Some b) | [] => Err IndexError end else Ok None) ;;
    Ok (bias_act (d_last c) b (act (d_act c)) (depthwise (d_last c) (is_same (d_padding c)) (d_strides c) (d_dilation c) x k))
  | [] => Err IndexError
  end.
Definition call_conv (act : A -> Q -> Q) (c : convc) (ws : list (tensor Q)) (x : tensor Q) : res (tensor Q) :=
  do _ <- set_weights ([fst (c_kernel c); snd (c_kernel c); channels (c_last c) x / c_groups c; c_filters c] :: if c_bias c then [[c_filters c]] else []) ws ;;
  match ws with
  | k :: rest =>
    do b <- (if c_bias c then match rest with b :: _ => Ok (Some b) | [] => Err IndexError end else Ok None) ;;
    Ok (bias_act (c_last c) b (act (c_act c)) (conv2d (c_last c) (is_same (c_padding c)) (c_strides c) (c_dilation c) x k))
  | [] => Err IndexError
  end.
(** tf.expand_dims(x, axis), tf.squeeze(x, [axis]) (422-449). *)
Definition expand_dims (axis : nat) (t : tensor Q) : tensor Q := mkT (firstn axis (shape t) ++ 1 :: skipn axis (shape t)) (data t).
Definition squeeze_dim (axis : nat) (t : tensor Q) : res (tensor Q) :=
  if dim (shape t) axis =? 1 then Ok (mkT (firstn axis (shape t) ++ skipn (S axis) (shape t)) (data t)) else Err InvalidArgument.
(** The layers that replace a SeparableConv2D resp. a SeparableConv1D (whose SeparableConv2D is broken up in turn). *)
Definition replaced2d (act : A -> Q -> Q) (c : sepc (nat * nat)) (ws : list (tensor Q)) (x : tensor Q) : res (tensor Q) :=
  do r <- split_sepconv c ws ;;
  let '((dc, dw), (cc, cw)) := r in do y <- call_dconv act dc dw x ;; call_conv act cc cw y.
Definition replaced1d (act : A -> Q -> Q) (c : sepc nat) (ws : list (tensor Q)) (x : tensor Q) : res (tensor Q) :=
  do r <- widen_sepconv c ws ;;
  let '(axis, (c2, ws2)) := r in do y <- replaced2d act c2 ws2 (expand_dims axis x) ;; squeeze_dim axis y.
End Configs.
Arguments sepc R A T : clear implicits. Arguments dconvc R A : clear implicits. Arguments convc R A : clear implicits.
