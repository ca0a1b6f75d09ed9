From Coq Require Import String.
From Verif Require Import Base M_Tensor L_Tensor M_Num L_Num M_SepConv S_SepConv.
Open Scope nat_scope.

(** ** Sums *)
Lemma total_ext n f g : (forall i, i < n -> (f i == g i)%Q) -> (total n f == total n g)%Q.
Proof.
  unfold total. intros H. assert (G : forall l, (forall i, In i l -> (f i == g i)%Q) -> (sumQ (map f l) == sumQ (map g l))%Q).
  { induction l as [|a l IH]; intros Hl; [reflexivity|]. cbn. rewrite Hl by now left. rewrite IH by (intros; apply Hl; now right). reflexivity. }
  apply G. intros i Hi. apply in_seq in Hi. apply H. lia.
Qed.
Lemma sumQ_app' l l' : (sumQ (l ++ l') == sumQ l + sumQ l')%Q.
Proof. induction l as [|a l IH]; cbn [app sumQ]; [ring|]. rewrite IH. ring. Qed.
Lemma sumQ_mul k l : (sumQ l * k == sumQ (map (fun x => x * k) l))%Q.
Proof. induction l as [|a l IH]; cbn [map sumQ]; [ring|]. rewrite <- IH. ring. Qed.
Lemma total_mul n f k : (total n f * k == total n (fun i => f i * k))%Q.
Proof. unfold total. rewrite sumQ_mul, map_map. reflexivity. Qed.
Lemma total_S n f : (total (S n) f == total n f + f n)%Q.
Proof. unfold total. rewrite seq_S, map_app, sumQ_app'. cbn. ring. Qed.
Lemma total_add n f g : (total n (fun i => f i + g i) == total n f + total n g)%Q.
Proof. induction n as [|n IH]; [reflexivity|]. rewrite !total_S, IH. ring. Qed.
Lemma total_0 n : (total n (fun _ => 0) == 0)%Q.
Proof. induction n as [|n IH]; [reflexivity|]. rewrite total_S, IH. ring. Qed.
Lemma total_swap n m (f : nat -> nat -> Q) : (total n (fun i => total m (f i)) == total m (fun j => total n (fun i => f i j)))%Q.
Proof.
  induction n as [|n IH].
  - rewrite (total_ext m _ (fun _ => 0%Q)) by reflexivity. rewrite total_0. reflexivity.
  - rewrite total_S, IH, <- total_add. apply total_ext. intros j _. now rewrite total_S.
Qed.
Lemma total_plus n k f : (total (n + k) f == total n f + total k (fun i => f (n + i)%nat))%Q.
Proof. induction k as [|k IH]; [rewrite Nat.add_0_r; unfold total at 3; cbn; ring|]. rewrite Nat.add_succ_r, !total_S, IH. ring. Qed.
Lemma total_prod n m f : (total (n * m) f == total n (fun q => total m (fun r => f (q * m + r)%nat)))%Q.
Proof. induction n as [|n IH]; [reflexivity|]. rewrite total_S, <- IH. replace (S n * m) with (n * m + m) by lia. apply total_plus. Qed.
Lemma total_1 f : (total 1 f == f 0%nat)%Q. Proof. unfold total. cbn. ring. Qed.

(** ** Geometry *)
Lemma lt_div i a s : 0 < s -> (i < a / s <-> (i + 1) * s <= a).
Proof.
  intros Hs. pose proof (Nat.div_mod a s ltac:(lia)) as D. pose proof (Nat.mod_upper_bound a s ltac:(lia)) as M. remember (a / s) as q eqn:E. remember (a mod s) as r eqn:Er. split; intros H; nia.
Qed.
Lemma out_valid n k s d i : 0 < s -> (i < out_size false n k s d <-> i * s + extent k d <= n).
Proof. intros Hs. unfold out_size. rewrite lt_div by exact Hs. nia. Qed.
Lemma out_same n k s d i : 0 < s -> (i < out_size true n k s d <-> i * s < n).
Proof. intros Hs. unfold out_size. rewrite lt_div by exact Hs. nia. Qed.
Lemma out_positions p n k s d : 0 < s -> p <> Causal -> positions p n (extent k d) s (out_size (is_same p) n k s d).
Proof. intros Hs. destruct p; cbn [positions is_same]; intros; [now apply out_valid|now apply (out_same n k s d)|congruence]. Qed.
Lemma pad_front p n k s d : p <> Causal -> pad_before (is_same p) n k s d = front p n (extent k d) s (out_size (is_same p) n k s d).
Proof. destruct p; cbn; intros; try reflexivity. Qed.
Lemma out_one n d : out_size false n 1 1 d = n.
Proof. unfold out_size, extent. cbn [Nat.sub Nat.mul Nat.add]. rewrite Nat.div_1_r. lia. Qed.
Lemma at_tap o s k d p : at_ o s k d p = tap o s k d p.
Proof. unfold at_, tap. lia. Qed.
Lemma un4_idx4 cl b i j c : un4 cl (idx4 cl b i j c) = (b, i, j, c). Proof. destruct cl; reflexivity. Qed.
Lemma place_valid cl B H W C b i j c : b < B -> i < H -> j < W -> c < C -> valid (idx4 cl B H W C) (idx4 cl b i j c).
Proof. intros. destruct cl; repeat constructor; assumption. Qed.
Lemma inside_ext i n f g : (forall k, k < n -> (f k == g k)%Q) -> (inside i n f == inside i n g)%Q.
Proof. intros H. unfold inside. destruct (Z.leb_spec 0 i); [|reflexivity]. destruct (Z.ltb_spec i (Z.of_nat n)); [|reflexivity]. apply H. lia. Qed.
Lemma pixel_inside cl x B H W C b i j c : shape x = idx4 cl B H W C ->
  pixel cl x b i j c = inside i H (fun i' => inside j W (fun j' => tget 0%Q x (place4 cl b i' j' c))).
Proof.
  intros Sx. unfold pixel, inside. rewrite Sx, un4_idx4. destruct (0 <=? i)%Z; [|reflexivity]. destruct (i <? Z.of_nat H)%Z; [|reflexivity]. destruct (0 <=? j)%Z; [|reflexivity].
  destruct (j <? Z.of_nat W)%Z; reflexivity.
Qed.
Lemma pixel_in cl x B H W C b i j c : shape x = idx4 cl B H W C -> i < H -> j < W -> pixel cl x b (Z.of_nat i) (Z.of_nat j) c = tget 0%Q x (idx4 cl b i j c).
Proof.
  intros Sx Hi Hj. unfold pixel. rewrite Sx, un4_idx4. replace (0 <=? Z.of_nat i)%Z with true by (symmetry; apply Z.leb_le; lia). replace (0 <=? Z.of_nat j)%Z with true by (symmetry; apply Z.leb_le; lia).
  replace (Z.of_nat i <? Z.of_nat H)%Z with true by (symmetry; apply Z.ltb_lt; lia). replace (Z.of_nat j <? Z.of_nat W)%Z with true by (symmetry; apply Z.ltb_lt; lia). cbn. now rewrite !Nat2Z.id.
Qed.

(** ** Unit axes *)
Lemma tget_mk s s' (l : list Q) i i' : ravel s i = ravel s' i' -> tget 0%Q (mkT s l) i = tget 0%Q (mkT s' l) i'.
Proof. intros H. unfold tget. cbn [shape data]. now rewrite H. Qed.
Lemma expand_axis (cl : bool) (x : tensor Q) B W C : shape x = place3 cl B W C -> shape (expand_dims (if cl then 1 else 2) x) = place4 cl B 1 W C.
Proof. intros Sx. unfold expand_dims. cbn [shape]. rewrite Sx. destruct cl; reflexivity. Qed.
Lemma tget_expand (cl : bool) (x : tensor Q) B W C b j c : shape x = place3 cl B W C ->
  tget 0%Q (expand_dims (if cl then 1 else 2) x) (place4 cl b 0 j c) = tget 0%Q x (place3 cl b j c).
Proof.
  intros Sx. destruct x as [s l]. cbn [shape] in Sx. subst s. unfold expand_dims. cbn [shape data]. apply tget_mk. destruct cl; cbn [place3 place4 firstn skipn app ravel prod]; lia.
Qed.
Lemma squeeze_axis (cl : bool) (y : tensor Q) B W F : shape y = place4 cl B 1 W F -> exists z, squeeze_dim (if cl then 1 else 2) y = Ok z /\ shape z = place3 cl B W F /\ data z = data y /\
  forall b j f, tget 0%Q z (place3 cl b j f) = tget 0%Q y (place4 cl b 0 j f).
Proof.
  intros Sy. destruct y as [s l]. cbn [shape] in Sy. subst s. unfold squeeze_dim. cbn [shape data]. destruct cl; cbn [place4 place3 dim nth Nat.eqb]; eexists; (split; [reflexivity|]); (split; [reflexivity|]); (split; [reflexivity|]);
    intros; apply tget_mk; cbn [firstn skipn app ravel prod]; lia.
Qed.
Lemma tget_expand0 (t : tensor Q) a b c i j k : shape t = [a; b; c] -> tget 0%Q (expand0 t) [0; i; j; k] = tget 0%Q t [i; j; k].
Proof. intros St. destruct t as [s l]. cbn [shape] in St. subst s. unfold expand0. cbn [shape data]. apply tget_mk. cbn [ravel prod]. lia. Qed.
Lemma expand0_wf t : wf t -> wf (expand0 t). Proof. unfold wf, expand0. cbn. lia. Qed.

Section Two.
Context {R A : Type} (linear : A) (act : A -> Q -> Q).
Hypothesis respects_act : respects act.
Hypothesis linear_act : forall v, (act linear v == v)%Q.

Lemma dconv_shape cl same s d x k B H W C : shape x = idx4 cl B H W C ->
  shape (depthwise cl same s d x k) = idx4 cl B (out_size same H (dim (shape k) 0) (fst s) (fst d)) (out_size same W (dim (shape k) 1) (snd s) (snd d)) (C * dim (shape k) 3).
Proof. intros Sx. unfold depthwise. rewrite Sx, un4_idx4. reflexivity. Qed.
Lemma tget_dconv cl same s d x k B H W C b i j e : shape x = idx4 cl B H W C -> valid (shape (depthwise cl same s d x k)) (idx4 cl b i j e) ->
  let kh := dim (shape k) 0 in let kw := dim (shape k) 1 in let m := dim (shape k) 3 in
  tget 0%Q (depthwise cl same s d x k) (idx4 cl b i j e) = total kh (fun di => total kw (fun dj =>
    (pixel cl x b (at_ i (fst s) di (fst d) (pad_before same H kh (fst s) (fst d))) (at_ j (snd s) dj (snd d) (pad_before same W kw (snd s) (snd d))) (e / m)%nat
     * tget 0%Q k [di; dj; e / m; e mod m]%nat)%Q)).
Proof. intros Sx V kh kw m. unfold depthwise in *. rewrite Sx, un4_idx4 in *. rewrite tget_tab by exact V. rewrite un4_idx4. reflexivity. Qed.
Lemma conv_shape cl same s d x k B H W C : shape x = idx4 cl B H W C ->
  shape (conv2d cl same s d x k) = idx4 cl B (out_size same H (dim (shape k) 0) (fst s) (fst d)) (out_size same W (dim (shape k) 1) (snd s) (snd d)) (dim (shape k) 3).
Proof. intros Sx. unfold conv2d. rewrite Sx, un4_idx4. reflexivity. Qed.
Lemma tget_conv cl same s d x k B H W C b i j f : shape x = idx4 cl B H W C -> valid (shape (conv2d cl same s d x k)) (idx4 cl b i j f) ->
  let kh := dim (shape k) 0 in let kw := dim (shape k) 1 in
  tget 0%Q (conv2d cl same s d x k) (idx4 cl b i j f) = total kh (fun di => total kw (fun dj => total C (fun q =>
    (pixel cl x b (at_ i (fst s) di (fst d) (pad_before same H kh (fst s) (fst d))) (at_ j (snd s) dj (snd d) (pad_before same W kw (snd s) (snd d))) q
     * tget 0%Q k [di; dj; q; f])%Q))).
Proof. intros Sx V kh kw. unfold conv2d in *. rewrite Sx, un4_idx4 in *. rewrite tget_tab by exact V. rewrite un4_idx4. reflexivity. Qed.
Lemma tget_ba cl bias a t b i j f : valid (shape t) (idx4 cl b i j f) ->
  tget 0%Q (bias_act cl bias a t) (idx4 cl b i j f) = a (tget 0 t (idx4 cl b i j f) + match bias with Some v => tget 0 v [f] | None => 0 end)%Q.
Proof. intros V. unfold bias_act. rewrite tget_tab by exact V. now rewrite un4_idx4. Qed.

Lemma set_weights_ok expected ws : map shape ws = expected -> set_weights expected ws = Ok tt.
Proof.
  intros <-. unfold set_weights. rewrite map_length, Nat.eqb_refl. cbn [andb].
  replace (forallb _ _) with true; [reflexivity|]. symmetry. apply forallb_forall. intros [s t] I. assert (s = shape t) as ->.
  { revert I. induction ws as [|w ws IH]; [intros []|]. intros [[= <- <-]|I]; auto. }
  unfold has_shape. cbn [fst snd]. now destruct (list_eq_dec _ _ _).
Qed.
Lemma two_ok (c : sepc R A (nat * nat)) dk pk bias x B H W C : s_padding _ c <> Causal -> shape x = place4 (s_last _ c) B H W C -> weights2d c C dk pk bias ->
  exists y, replaced2d linear act c (dk :: pk :: bias) x = Ok y /\ wf y /\ separable2d act c dk pk bias x y.
Proof.
  intros Np Sx (Wd & Wp & Sd & Sp & S1 & S2 & Hm & K1 & K2 & Hb). unfold replaced2d, split_sepconv.
  assert (E : exists bo, (if s_bias _ c then match bias with b :: _ => Ok [b] | [] => Err IndexError end else Ok []) = Ok bias /\
    (if s_bias _ c then match bias with b :: _ => Ok (Some b) | [] => Err IndexError end else Ok None) = Ok bo /\
    (forall f, match bo with Some v => tget 0%Q v [f] | None => 0%Q end = offset bias f) /\ map shape bias = if s_bias _ c then [[s_filters _ c]] else []).
  { destruct (s_bias _ c); [destruct Hb as (b & -> & Sb); exists (Some b); cbn [map]; rewrite Sb|subst bias; exists None]; repeat split. }
  destruct E as (bo & E1 & E2 & E3 & E4). rewrite E1. cbn [bind]. unfold call_dconv. cbn [d_bias d_kernel d_last d_mult].
  assert (Ch : channels (s_last _ c) x = C) by (unfold channels; rewrite Sx; change (place4 (s_last _ c)) with (idx4 (s_last _ c)); now rewrite un4_idx4).
  rewrite set_weights_ok by (cbn [map]; now rewrite Sd, Ch). cbn [bind]. unfold call_conv. cbn [c_bias c_kernel c_last c_groups c_filters fst snd].
  rewrite set_weights_ok.
  2:{ cbn [map]. rewrite Sp, E4. unfold channels at 1. cbn [bias_act shape d_last tab d_padding d_strides d_dilation].
      rewrite (dconv_shape (s_last _ c) _ (s_strides _ c) (s_dilation _ c) x dk B H W C Sx), Sd, un4_idx4. cbn [dim nth]. now rewrite Nat.div_1_r. }
  cbn [bind]. rewrite E2. cbn [bind].
  set (cl := s_last _ c) in *. set (p := s_padding _ c) in *. set (s := s_strides _ c) in *. set (d := s_dilation _ c) in *. set (m := s_mult _ c) in *. set (F := s_filters _ c) in *.
  cbn [d_last d_act d_padding d_strides d_dilation c_last c_act c_padding c_strides c_dilation].
  set (y1 := depthwise cl (is_same p) s d x dk). set (y2 := bias_act cl None (act linear) y1).
  set (oh := out_size (is_same p) H (fst (s_kernel _ c)) (fst s) (fst d)). set (ow := out_size (is_same p) W (snd (s_kernel _ c)) (snd s) (snd d)).
  assert (S1' : shape y1 = idx4 cl B oh ow (C * m)). { unfold y1. rewrite (dconv_shape cl _ s d x dk B H W C Sx), Sd. reflexivity. }
  assert (S2' : shape y2 = idx4 cl B oh ow (C * m)) by exact S1'.
  set (y3 := conv2d cl (is_same Valid) (1, 1) d y2 pk).
  assert (S3 : shape y3 = idx4 cl B oh ow F). { unfold y3. rewrite (conv_shape cl _ (1, 1) d y2 pk B oh ow (C * m) S2'), Sp. cbn [dim nth fst snd is_same]. now rewrite !out_one. }
  eexists. split; [reflexivity|]. split; [apply tab_wf|].
  intros B' H' W' C' Sx'. rewrite Sx in Sx'. assert (Q4 : (B', H', W', C') = (B, H, W, C)) by (unfold place4 in Sx'; destruct (s_last _ c); now injection Sx' as -> -> -> ->). injection Q4 as -> -> -> ->.
  exists oh, ow. cbn zeta. fold cl p s d m F.
  change ((fst (s_kernel _ c) - 1) * fst d + 1) with (extent (fst (s_kernel _ c)) (fst d)). change ((snd (s_kernel _ c) - 1) * snd d + 1) with (extent (snd (s_kernel _ c)) (snd d)).
  split; [now apply out_positions|]. split; [now apply out_positions|]. split; [exact S3|].
  intros b i j f Lb Li Lj Lf. change (place4 cl) with (idx4 cl).
  rewrite tget_ba by (rewrite S3; now apply place_valid). apply respects_act. rewrite E3. apply Qplus_comp; [|reflexivity].
  unfold y3. rewrite (tget_conv cl _ (1, 1) d y2 pk B oh ow (C * m)); [|exact S2'|fold y3; rewrite S3; now apply place_valid]. rewrite Sp. cbn [dim nth fst snd is_same].
  rewrite total_1, total_1.
  assert (Ax : forall o dd n, at_ o 1 0 dd (pad_before false n 1 1 dd) = Z.of_nat o) by (intros; unfold at_, pad_before; lia). rewrite !Ax.
  transitivity (total (C * m) (fun e => (tget 0 y1 (idx4 cl b i j e) * tget 0 pk [0; 0; e; f]%nat)%Q)).
  { apply total_ext. intros e Le. rewrite (pixel_in cl y2 B oh ow (C * m)) by assumption. apply Qmult_comp; [|reflexivity]. unfold y2.
    rewrite tget_ba by (rewrite S1'; now apply place_valid). rewrite linear_act. ring. }
  rewrite total_prod.
  set (px := fun di dj q => pixel cl x b (at_ i (fst s) di (fst d) (pad_before (is_same p) H (fst (s_kernel _ c)) (fst s) (fst d)))
     (at_ j (snd s) dj (snd d) (pad_before (is_same p) W (snd (s_kernel _ c)) (snd s) (snd d))) q).
  transitivity (total C (fun q => total m (fun r => total (fst (s_kernel _ c)) (fun di => total (snd (s_kernel _ c)) (fun dj => (px di dj q * tget 0 dk [di; dj; q; r] * tget 0 pk [0; 0; q * m + r; f]%nat)%Q))))).
  { apply total_ext. intros q Lq. apply total_ext. intros r Lr. assert (Le : q * m + r < C * m) by nia.
    unfold y1. rewrite (tget_dconv cl _ s d x dk B H W C); [|exact Sx|fold y1; rewrite S1'; now apply place_valid]. rewrite Sd. cbn [dim nth].
    assert (Dv : (q * m + r) / m = q) by (rewrite Nat.div_add_l by lia; rewrite Nat.div_small by lia; lia).
    assert (Mv : (q * m + r) mod m = r) by (rewrite Nat.add_comm, Nat.mod_add by lia; now apply Nat.mod_small). rewrite Dv, Mv.
    rewrite total_mul. apply total_ext. intros di _. rewrite total_mul. apply total_ext. intros dj _. reflexivity. }
  transitivity (total C (fun q => total (fst (s_kernel _ c)) (fun di => total m (fun r => total (snd (s_kernel _ c)) (fun dj => (px di dj q * tget 0 dk [di; dj; q; r] * tget 0 pk [0; 0; q * m + r; f]%nat)%Q))))).
  { apply total_ext. intros q _. apply total_swap. }
  rewrite total_swap. apply total_ext. intros di _.
  transitivity (total C (fun q => total (snd (s_kernel _ c)) (fun dj => total m (fun r => (px di dj q * tget 0 dk [di; dj; q; r] * tget 0 pk [0; 0; q * m + r; f]%nat)%Q)))).
  { apply total_ext. intros q _. apply total_swap. }
  rewrite total_swap. apply total_ext. intros dj _. apply total_ext. intros q _. apply total_ext. intros r _.
  apply Qmult_comp; [|reflexivity]. apply Qmult_comp; [|reflexivity]. unfold px. rewrite (pixel_inside cl x B H W C) by exact Sx. rewrite !at_tap, !pad_front by exact Np. reflexivity.
Qed.

Lemma one_row p s oh : 0 < s -> p <> Causal -> positions p 1 1 s oh -> oh = 1 /\ front p 1 1 s 1 = 0.
Proof.
  intros Hs Np P. destruct p; cbn [positions front] in *; [| |contradiction].
  - split; [|reflexivity]. destruct oh as [|[|n]]; [|reflexivity|]; exfalso; [assert (0 < 0) by (apply P; lia); lia|]. assert (1 < S (S n)) by lia. apply P in H. nia.
  - split; [|destruct s; reflexivity]. destruct oh as [|[|n]]; [|reflexivity|]; exfalso; [assert (0 < 0) by (apply P; lia); lia|]. assert (1 < S (S n)) by lia. apply P in H. nia.
Qed.
Lemma one_ok (c : sepc R A nat) dk pk bias x B W C : s_padding _ c <> Causal -> shape x = place3 (s_last _ c) B W C -> weights1d c C dk pk bias ->
  exists y, replaced1d linear act c (dk :: pk :: bias) x = Ok y /\ wf y /\ separable1d act c dk pk bias x y.
Proof.
  intros Np Sx (Wd & Wp & Sd & Sp & S1 & Hm & K1 & Hb). unfold replaced1d, widen_sepconv.
  assert (E1 : (if s_bias _ c then match bias with b :: _ => Ok [b] | [] => Err IndexError end else Ok []) = Ok bias) by (destruct (s_bias _ c); [destruct Hb as (b & -> & _)|subst bias]; reflexivity).
  set (c2 := fun p => mkSep (nat * nat) (s_filters _ c) (1, s_kernel _ c) (s_strides _ c, s_strides _ c) p (s_last _ c) (1, s_dilation _ c) (s_mult _ c)
             (s_act _ c) (s_bias _ c) (s_dinit _ c) (s_pinit _ c) (s_binit _ c) (s_dreg _ c) (s_preg _ c) (s_breg _ c) (s_areg _ c)
             (s_dcons _ c) (s_pcons _ c) (s_bcons _ c) (s_trainable _ c) "float32").
  assert (W2 : weights2d (c2 (s_padding _ c)) C (expand0 dk) (expand0 pk) bias).
  { split; [now apply expand0_wf|]. split; [now apply expand0_wf|]. split; [unfold expand0; cbn [shape]; now rewrite Sd|]. split; [unfold expand0; cbn [shape]; now rewrite Sp|].
    cbn. repeat (split; [assumption || lia|]). exact Hb. }
  destruct (two_ok (c2 (s_padding _ c)) (expand0 dk) (expand0 pk) bias (expand_dims (if s_last _ c then 1 else 2) x) B 1 W C Np (expand_axis _ _ _ _ _ Sx) W2) as (y & Ey & Wy & Y).
  assert (Er : (match s_padding _ c with
    | Causal => Err ValueError
    | p => do b <- (if s_bias _ c then match bias with b :: _ => Ok [b] | [] => Err IndexError end else Ok []) ;; Ok (if s_last _ c then 1 else 2, (c2 p, expand0 dk :: expand0 pk :: b))
    end) = Ok (if s_last _ c then 1 else 2, (c2 (s_padding _ c), expand0 dk :: expand0 pk :: bias))).
  { rewrite E1. cbn [bind]. destruct (s_padding _ c); [reflexivity|reflexivity|congruence]. }
  match goal with |- exists _, bind ?a _ = _ /\ _ => replace a with (Ok (if s_last _ c then 1 else 2, (c2 (s_padding _ c), expand0 dk :: expand0 pk :: bias))) end.
  cbn [bind]. rewrite Ey. cbn [bind].
  destruct (Y B 1 W C (expand_axis _ _ _ _ _ Sx)) as (oh & ow & Ph & Pw & Sy & V). cbn [c2 s_kernel s_dilation s_strides s_padding s_last s_filters s_mult s_act fst snd] in *.
  replace ((1 - 1) * 1 + 1) with 1 in * by reflexivity. destruct (one_row _ _ _ S1 Np Ph) as [-> F1].
  destruct (squeeze_axis _ _ _ _ _ Sy) as (z & Ez & Sz & Dz & Tz). exists z. split; [exact Ez|].
  split; [unfold wf in *; rewrite Dz, Wy, Sy, Sz; destruct (s_last _ c); cbn; lia|].
  intros B' W' C' Sx'. rewrite Sx in Sx'. assert (Q3 : (B', W', C') = (B, W, C)) by (unfold place3 in Sx'; destruct (s_last _ c); now injection Sx' as -> -> ->). injection Q3 as -> -> ->.
  exists ow. cbn zeta. split; [exact Pw|]. split; [exact Sz|]. intros b j f Lb Lj Lf. rewrite Tz. rewrite V by lia. apply respects_act. apply Qplus_comp; [|reflexivity].
  rewrite total_1. apply total_ext. intros dj _. apply total_ext. intros q _. apply total_ext. intros r _.
  rewrite (tget_expand0 dk _ _ _ _ _ _ Sd), (tget_expand0 pk _ _ _ _ _ _ Sp). apply Qmult_comp; [|reflexivity]. apply Qmult_comp; [|reflexivity].
  unfold inside at 1. rewrite F1. replace (tap 0 (s_strides _ c) 0 1 0) with 0%Z by (unfold tap; lia). cbn [Z.leb Z.ltb Z.compare Z.of_nat Z.to_nat Pos.of_succ_nat].
  apply inside_ext. intros k _. now rewrite (tget_expand _ _ _ _ _ _ _ _ Sx).
Qed.
End Two.
