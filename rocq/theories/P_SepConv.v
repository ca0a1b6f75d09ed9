(** C123: breaking up separable convolutions before quantization keeps the function, the weights and the training settings. *)
From Coq Require Import String.
From Verif Require Import Base M_Tensor L_Tensor M_Num M_SepConv S_SepConv L_SepConv.
Open Scope string_scope.
Open Scope list_scope.
Open Scope nat_scope.

(** The DepthwiseConv2D and Conv2D that replace a SeparableConv2D compute the separable convolution with its weights. *)
Theorem C123_separable2d_partial : forall R A (linear : A) (act : A -> Q -> Q) (c : sepc R A (nat * nat)) dk pk bias x B H W C,
  respects act -> (forall v, (act linear v == v)%Q) -> s_padding _ c <> Causal -> shape x = place4 (s_last _ c) B H W C -> weights2d c C dk pk bias ->
  exists y, replaced2d linear act c (dk :: pk :: bias) x = Ok y /\ wf y /\ separable2d act c dk pk bias x y.
Proof. intros R A linear act c dk pk bias x B H W C Ha Hl. exact (two_ok linear act Ha Hl c dk pk bias x B H W C). Qed.
Print Assumptions C123_separable2d_partial.
(** So do the expand / SeparableConv2D / squeeze layers that replace a SeparableConv1D (the middle one broken up in turn). *)
Theorem C123_separable1d_partial : forall R A (linear : A) (act : A -> Q -> Q) (c : sepc R A nat) dk pk bias x B W C,
  respects act -> (forall v, (act linear v == v)%Q) -> s_padding _ c <> Causal -> shape x = place3 (s_last _ c) B W C -> weights1d c C dk pk bias ->
  exists y, replaced1d linear act c (dk :: pk :: bias) x = Ok y /\ wf y /\ separable1d act c dk pk bias x y.
Proof. intros R A linear act c dk pk bias x B W C Ha Hl. exact (one_ok linear act Ha Hl c dk pk bias x B W C). Qed.
Print Assumptions C123_separable1d_partial.
(** Causal padding is rejected, never computed wrongly. *)
Theorem C123_causal : forall R A (linear : A) (act : A -> Q -> Q) (c : sepc R A nat) ws x, s_padding _ c = Causal -> replaced1d linear act c ws x = Err ValueError.
Proof. intros R A linear act c ws x H. unfold replaced1d, widen_sepconv. now rewrite H. Qed.
Print Assumptions C123_causal.
(** Initializers, regularizers, constraints, trainability and use of a bias go to the layer that gets the weight. *)
Theorem C123_settings : forall R A (linear : A) (c : sepc R A (nat * nat)) ws dc dw cc cw, split_sepconv linear c ws = Ok ((dc, dw), (cc, cw)) ->
  [d_init dc; d_reg dc; d_cons dc] = depthwise_settings c /\ [c_kinit cc; c_kreg cc; c_kcons cc; c_binit cc; c_breg cc; c_bcons cc; c_areg cc] = pointwise_settings c /\
  d_trainable dc = s_trainable _ c /\ c_trainable cc = s_trainable _ c /\ d_bias dc = false /\ c_bias cc = s_bias _ c /\ d_act dc = linear /\ c_act cc = s_act _ c.
Proof.
  intros R A linear c ws dc dw cc cw. unfold split_sepconv. destruct ws as [|w0 [|w1 r]]; try discriminate.
  destruct (if s_bias _ c then match r with b :: _ => Ok [b] | [] => Err IndexError end else Ok []); [|discriminate]. cbn [bind]. intros [= <- _ <- _]. repeat split.
Qed.
Print Assumptions C123_settings.
Theorem C123_settings_1d : forall R A (c : sepc R A nat) ws axis c2 ws2, widen_sepconv c ws = Ok (axis, (c2, ws2)) ->
  depthwise_settings c2 = depthwise_settings c /\ pointwise_settings c2 = pointwise_settings c /\ s_trainable _ c2 = s_trainable _ c /\ s_bias _ c2 = s_bias _ c /\ s_act _ c2 = s_act _ c.
Proof.
  intros R A c ws axis c2 ws2. unfold widen_sepconv. destruct (s_padding _ c); [| |discriminate]; (destruct ws as [|w0 [|w1 r]]; try discriminate;
    destruct (if s_bias _ c then match r with b :: _ => Ok [b] | [] => Err IndexError end else Ok []); [|discriminate]; cbn [bind]; intros [= _ <- _]; repeat split).
Qed.
Print Assumptions C123_settings_1d.
(** The dtype of the layer is not carried over: under the default policy the new layers compute in float32. *)
Theorem C123_dtype_refuted : forall R A (linear : A) (c : sepc R A (nat * nat)) ws dc dw cc cw, split_sepconv linear c ws = Ok ((dc, dw), (cc, cw)) ->
  (d_dtype dc = s_dtype _ c /\ c_dtype cc = s_dtype _ c) <-> s_dtype _ c = "float32".
Proof.
  intros R A linear c ws dc dw cc cw. unfold split_sepconv. destruct ws as [|w0 [|w1 r]]; try discriminate.
  destruct (if s_bias _ c then match r with b :: _ => Ok [b] | [] => Err IndexError end else Ok []); [|discriminate]. cbn [bind]. intros [= <- _ <- _]. cbn. split; [intros [<- _]; reflexivity|intros ->; split; reflexivity].
Qed.
Print Assumptions C123_dtype_refuted.

(** A strided, multi-channel example with "same" padding, bias and ReLU. *)
Definition relu_or_linear (relu : bool) (v : Q) : Q := if relu then Qred (if Qle_bool 0 v then v else 0) else v.
Definition sep2 : sepc unit bool (nat * nat) := mkSep _ 1 (2, 2) (2, 2) Same true (1, 1) 2 true true tt tt tt tt tt tt tt tt tt tt true "float32".
Definition sep1 : sepc unit bool nat := mkSep _ 2 2 1 Valid false 2 1 false false tt tt tt tt tt tt tt tt tt tt true "float64".
Definition img : tensor Q := mkT [1; 3; 2; 2] [1; 2; 3; 4; 5; 6; 7; 8; 9; 10; 11; 12]%Q.
Definition sdk : tensor Q := mkT [2; 2; 2; 2] [1; 0; 2; -1; 1; 1; 0; 3; 1; 2; 1; 0; 0; 1; 2; 2]%Q.
Definition spk : tensor Q := mkT [1; 1; 4; 1] [1; -1; 2; 1]%Q.
Example C123_ex : weights2d sep2 2 sdk spk [mkT [1] [-70]%Q] /\ respects relu_or_linear /\ (forall v, (relu_or_linear false v == v)%Q) /\
  (exists y, replaced2d false relu_or_linear sep2 [sdk; spk; mkT [1] [-70]%Q] img = Ok y /\ shape y = [1; 2; 1; 1] /\ map Qred (data y) = [0; 5]%Q) /\
  weights1d sep1 1 (mkT [2; 1; 1] [1; 3]%Q) (mkT [1; 1; 2] [1; -1]%Q) [] /\
  (exists y, replaced1d false relu_or_linear sep1 [mkT [2; 1; 1] [1; 3]%Q; mkT [1; 1; 2] [1; -1]%Q] (mkT [1; 1; 4] [1; 2; 3; 4]%Q) = Ok y /\ shape y = [1; 2; 2] /\ map Qred (data y) = [10; 14; -10; -14]%Q).
Proof.
  split. { repeat split; cbn; try lia. eexists; repeat split. }
  split. { intros [] x y E; unfold relu_or_linear; [|exact E]. rewrite !Qred_correct. destruct (Qle_bool 0 x) eqn:E1, (Qle_bool 0 y) eqn:E2; try exact E; try reflexivity; exfalso.
    - apply Qle_bool_iff in E1. rewrite E in E1. apply Qle_bool_iff in E1. congruence.
    - apply Qle_bool_iff in E2. rewrite <- E in E2. apply Qle_bool_iff in E2. congruence. }
  split; [reflexivity|]. split. { eexists. split; [reflexivity|]. split; vm_compute; reflexivity. }
  split. { repeat split; cbn; lia. }
  eexists. split; [reflexivity|]. split; vm_compute; reflexivity.
Qed.
