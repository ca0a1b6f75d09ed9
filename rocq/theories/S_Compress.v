(** Specification vocabulary for the weight-compression framework. *)
From Coq Require Import String Ascii.
From Verif Require Import Base M_Tensor M_Num M_Cluster M_Compress S_Cluster.
Open Scope string_scope.
Open Scope list_scope.
Open Scope nat_scope.

Definition wfv (v : cv) : Prop := match v with VF t => wf t | VI t => wf t end.
(** A keras layer as the framework expects it: built, distinct weight names without ":", variables named
    "<layer>/<weight>:0", and trained values of the shapes the layer's build requests. *)
Definition proper (y : ylayer) : Prop :=
  y_built y = true /\ NoDup (map lw_name (y_weights y)) /\
  forall w, In w (y_weights y) ->
    lw_var w = (y_name y ++ "/" ++ lw_name w ++ ":0")%string /\ before_colon (lw_name w) = lw_name w /\
    vshape (lw_value w) = vshape (lw_init w) /\ wfv (lw_value w).

(** The trained weights of a layer, by name. *)
Definition trained_weights (y : ylayer) : list (string * cv) := map (fun w => (lw_name w, lw_value w)) (y_weights y).
(** The weights of a freshly created copy of the layer. *)
Definition fresh_weights (y : ylayer) : list (string * cv) := map (fun w => (lw_name w, lw_init w)) (y_weights y).

(** Two lists of named values use the same value for the same name. *)
Definition uses (l : list (string * cv)) (n : string) (v : cv) : Prop := assoc n l = Some v.

(** Training: the values of the wrapper's variables change, not their number, names, shapes; integer variables get no
    gradient and keep their value. *)
Definition stepped (v v' : cv) : Prop := vshape v = vshape v' /\ wfv v' /\ is_float v = is_float v' /\ (is_float v = false -> v' = v).
Definition trained (w w' : twrap) : Prop :=
  tw_layer w' = tw_layer w /\
  Forall2 (fun p q => fst q = fst p /\ Forall2 stepped (snd p) (snd q)) (tw_training w) (tw_training w') /\
  Forall2 (fun p q => fst q = fst p /\ stepped (snd p) (snd q)) (tw_rest w) (tw_rest w').

(** The algorithm asks for training variables whose shapes only depend on the shape of the weight. *)
Definition shape_stable (a : calg) : Prop :=
  forall v vs, wfv v -> a_init a v = Ok vs -> exists zs, a_init a (zeros (vshape v)) = Ok zs /\ map vshape zs = map vshape vs.

(** isinstance(layer, (Conv2D, Dense)). *)
Definition dense_or_conv2d (y : ylayer) : Prop := y_kind y = KDense \/ y_kind y = KConv2D.
(** A Dense/Conv2D layer with a kernel and a bias, resp. with a kernel only (use_bias=False). *)
Definition kernel_and_bias (y : ylayer) (k b : lweight) : Prop :=
  proper y /\ dense_or_conv2d y /\ y_weights y = [k; b] /\ lw_name k = "kernel" /\ lw_name b = "bias".
Definition kernel_only (y : ylayer) (k : lweight) : Prop :=
  proper y /\ dense_or_conv2d y /\ y_weights y = [k] /\ lw_name k = "kernel".
(** Algorithms that compress the kernel of such a layer. *)
Definition compresses_kernel (a : calg) : Prop :=
  shape_stable a /\ forall y, a_compressible a y = kernel_of y.

(** ** Matrices (on the last two axes) *)
(** [svd] returns factors of the documented shapes. *)
Definition svd_shapes (svd : svd_op) : Prop := forall w pre m n, shape w = pre ++ [m; n] ->
  let '(s, u, v) := svd w in
  shape s = pre ++ [Nat.min m n] /\ shape u = pre ++ [m; Nat.min m n] /\ shape v = pre ++ [n; Nat.min m n].
(** [svd] returns an exact factorisation  w[i,j] = sum_k u[i,k] * s[k] * v[j,k]. *)
Definition svd_exact (svd : svd_op) : Prop := forall w pre m n, shape w = pre ++ [m; n] -> wf w ->
  let '(s, u, v) := svd w in
  forall p i j, valid pre p -> i < m -> j < n ->
    (tget 0 w (p ++ [i; j]) ==
     sumQ (map (fun k => tget 0 u (p ++ [i; k]) * (tget 0 s (p ++ [k]) * tget 0 v (p ++ [j; k]))) (seq 0 (Nat.min m n))))%Q.
(** Every matrix of [t] is the product of a matrix with [k] columns and one with [k] rows; so its rank is at most [k]. *)
Definition rank_at_most (k : nat) (t : tensor Q) : Prop :=
  exists (a b : list nat -> Q), forall p m n, shape t = p ++ [m; n] ->
    forall q i j, valid p q -> i < m -> j < n ->
      (tget 0 t (q ++ [i; j]) == sumQ (map (fun l => a (q ++ [i; l]) * b (q ++ [l; j])) (seq 0 k)))%Q.
(** A kernel the SVD algorithms accept. *)
Definition svd_kernel (v : cv) : Prop := exists t, v = VF t /\ wf t /\ (rank t = 2 \/ rank t = 4).

(** ** Histories of a wrapped layer: optimizer steps and forward passes ([n] counts the forward passes). *)
Inductive history (a : calg) (w0 : twrap) : nat -> twrap -> Prop :=
| h_start : history a w0 0 w0
| h_train n w w' : history a w0 n w -> trained w w' -> history a w0 n w'
| h_call n w fw w' : history a w0 n w -> train_call a w = Ok (fw, w') -> history a w0 (S n) w'.

(** The rank the periodic SVD is documented to use at step [n]: linear from the full rank to the target during warm-up
    (rounded down), then the target; never more than the full rank. *)
Definition scheduled_rank (target warmup full n : Z) : Z :=
  if (n <? warmup)%Z then Z.min full ((full * (warmup - n) + target * n) / warmup) else Z.min full target.
(** Full rank of the kernel's matrices. *)
Definition full_rank (t : tensor Q) : Z := Z.of_nat (Nat.min (col (shape t)) (row2 (shape t))).

(** Same entries (numerically). *)
Definition same_tensor (t t' : tensor Q) : Prop :=
  shape t = shape t' /\ forall idx, valid (shape t) idx -> (tget 0 t idx == tget 0 t' idx)%Q.
(** Number of stored values. *)
Definition stored (l : list cv) : nat := sumN (map (fun v => prod (vshape v)) l).
(** Mean of the entries. *)
Definition average (l : list Q) : Q := (sumQ l / inject_Z (Z.of_nat (List.length l)))%Q.

(** Layers that the SVD algorithms handle: Dense/Conv2D with kernel and bias, or no weight at all. *)
Definition svd_layer (y : ylayer) : Prop :=
  (exists k b, kernel_and_bias y k b /\ svd_kernel (lw_value k)) \/
  (y_built y = true /\ ~ dense_or_conv2d y /\ y_weights y = []).
(** Layers whose trained weights cannot be carried into an inference model: no bias, or other layers with one or more
    than two weights. *)
Definition uncarried (y : ylayer) : Prop :=
  (exists k, kernel_only y k) \/
  (y_built y = true /\ ~ dense_or_conv2d y /\ List.length (y_weights y) <> 0 /\ List.length (y_weights y) <> 2).
(** What a layer compressed by the SVD algorithm computes with: the trained bias, and a kernel of rank at most [rk] that
    is the trained one if [rk] is at least the full rank. *)
Definition svd_result (svd : svd_op) (rk : Z) (y : ylayer) (iw : iwrap) : Prop :=
  match y_weights y with
  | [k; b] => exists t t', lw_value k = VF t /\
      infer_call (different_svd svd rk) iw = Ok [("kernel", VF t'); ("bias", lw_value b)] /\
      shape t' = shape t /\ rank_at_most (Z.to_nat (Z.min rk (full_rank t))) t' /\
      (svd_exact svd -> (full_rank t <= rk)%Z -> same_tensor t' t)
  | _ => infer_call (different_svd svd rk) iw = Ok []
  end.
