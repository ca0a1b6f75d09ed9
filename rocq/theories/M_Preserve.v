(** Prune-preserving and cluster-preserving quantization aware training.  Sources:
    quantization/keras/collab_opts/prune_preserve/prune_preserve_quantize_registry.py (PP below),
    quantization/keras/collab_opts/cluster_preserve/cluster_preserve_quantize_registry.py (CP below).
    Exact rationals instead of float32.  The model is what the QuantizeWrapper (M_QWrapper) does with one weight. *)
From Coq Require Import String.
From Verif Require Import Base M_Num M_Tensor M_Stages M_Cluster M_ClusterWrapper M_Transform M_Layout8 M_QuantizeApply M_Quant.
Open Scope Q_scope.

(** The two layer classes whose kernels are preserved (PP 55-59, CP 151-155): Dense and Conv2D; their base quantizers
    (PP 296-339, CP 517-556). *)
Inductive kclass := KDense | KConv2D.
Definition base_quantizer (k : kclass) : quantizer :=
  match k with KDense => LastValueQuantizer CLastValue 8 false true true | KConv2D => Default8BitConvWeightsQuantizer end.
Definition same_shape {A B} (x : tensor A) (y : tensor B) : bool := if list_eq_dec Nat.eq_dec (shape x) (shape y) then true else false.

(** ** Prune-preserving quantizer *)
(** PP 260-264 [_build_sparsity_mask]: tf.math.divide_no_nan(weights, weights). *)
Definition sparsity_mask (w : tensor Q) : tensor Q := tmap (fun v => divide_no_nan v v) w.
(** The dict returned by build: mask and min/max variables (PP 266-283, 332-339). *)
Record ppvars := mkPP { pp_mask : tensor Q; pp_range : option ranges }.
Definition pp_build (k : kclass) (w : tensor Q) : res ppvars :=
  do r <- build (base_quantizer k) (Some (shape w)) ;; Ok (mkPP (sparsity_mask w) r).
(** PP 285-308 [__call__]; tf.multiply of two tensors of the same shape (no broadcasting: weights keep their shape). *)
Definition mask_product (x m : tensor Q) : res (tensor Q) := if same_shape x m then Ok (tmap2 Qmult x m) else Err InvalidArgument.
Definition pp_call (k : kclass) (training : bool) (v : ppvars) (x : tensor Q) : res (tensor Q * ppvars) :=
  do p <- mask_product x (pp_mask v) ;;
  do (y, r) <- call (base_quantizer k) training (pp_range v) p ;;
  Ok (y, mkPP (pp_mask v) r).
(** A history of forward passes, each with the kernel of that moment and the mode. *)
Fixpoint pp_run (k : kclass) (v : ppvars) (calls : list (bool * tensor Q)) : res ppvars :=
  match calls with [] => Ok v | (tr, x) :: r => do (_, v') <- pp_call k tr v x ;; pp_run k v' r end.

(** ** Cluster-preserving quantizer *)
(** tf.unique: the distinct values in the order of their first occurrence (CP 43-68). *)
Fixpoint uniques (seen l : list Q) : list Q :=
  match l with
  | [] => []
  | a :: r => if existsb (Qeq_bool a) seen then uniques seen r else a :: uniques (a :: seen) r
  end.
Definition get_unique (t : tensor Q) : list Q := uniques [] (data t).
Definition max_of (l : list nat) : nat := fold_right Nat.max 0%nat l.
Definition min_of (l : list nat) : nat := match l with [] => 0%nat | a :: r => fold_right Nat.min a r end.
(** CP 71-124 [get_centroids]: centroids, their number, shape of the lookup index.  The channels are always slices of the
    last axis, whatever the data format; their number is not. *)
Definition get_centroids (k : kclass) (df : data_format) (w : tensor Q) : res (centroids * nat * list nat) :=
  let whole := (Flat (get_unique w), length (get_unique w), shape w) in
  match k with
  | KDense => Ok whole
  | KConv2D =>
      match shape w with
      | [a; b; h; o] =>
          let n := num_channels df w in
          if (o <? n)%nat then Err InvalidArgument
          else if (n =? 0)%nat then Err ValueError
          else
            do rows <- mapM (fun c => do s <- channel_slice 0 ChannelsLast w c ;; Ok (get_unique s)) (seq 0 n) ;;
            let counts := map (@length Q) rows in
            let m := max_of counts in
            if (1 <? m - min_of counts)%nat then Ok whole
            else Ok (Rows (map (fun r => (r ++ repeat 1 (m - length r))%list) rows), m,
                     match df with ChannelsFirst => [a; n; b; h] | ChannelsLast => [a; b; h; n] end)
      | _ => Err InvalidArgument
      end
  end.
(** CP 362-364: centroids_mask = 1 - one_hot(argmin(|centroids|), num_centroids). *)
Definition one_cold (l : list Q) : list Q := map (fun i => b2q (negb (Nat.eqb i (argmin (map Qabs l))))) (seq 0 (length l)).
Definition centroids_mask (cs : centroids) : centroids :=
  match cs with Flat l => Flat (one_cold l) | Rows rows => Rows (map one_cold rows) end.
Fixpoint zip_mult (a b : list Q) : list Q := match a, b with x :: a', y :: b' => x * y :: zip_mult a' b' | _, _ => [] end.
Definition mask_centroids (cs m : centroids) : centroids :=
  match cs, m with
  | Flat l, Flat n => Flat (zip_mult l n)
  | Rows r, Rows s => Rows (map (fun p => zip_mult (fst p) (snd p)) (combine r s))
  | _, _ => cs
  end.

(** The clustering entries of the dict returned by build (CP 416-428). *)
Record cpcluster := mkCPC { cc_cents : centroids; cc_orig : tensor Q; cc_idx : tensor nat; cc_mask : option centroids }.
(** One preserved weight: the kernel variable, SPARSITY_MASK, the clustering entries, the ranges. *)
Record cpvars := mkCPV { cp_kernel : tensor Q; cp_smask : option (tensor Q); cp_cluster : option cpcluster; cp_range : option ranges }.
(** CP 330-453 [_build_clusters], [build].  [flag] is the attribute preserve_sparsity of the quantizer object; its value
    after the call is returned.  keras Constant(value)(shape) reshapes, and raises TypeError if the sizes differ. *)
Definition cp_build (k : kclass) (df : data_format) (flag : bool) (w : tensor Q) : res (bool * cpvars) :=
  let flag' := (flag && existsb (fun v => Qeq_bool v 0) (data w))%bool in
  do (cs, num, lookup) <- get_centroids k df w ;;
  do cl <- (if ((1024 <? num) || (num <=? 1))%nat then Ok None
            else
              do p <- pull df cs w ;;
              if negb (Nat.eqb (prod (shape p)) (prod lookup)) then Err TypeError
              else Ok (Some (mkCPC cs w (mkT lookup (data p)) (if flag' then Some (centroids_mask cs) else None)))) ;;
  do r <- build (base_quantizer k) (Some (shape w)) ;;
  Ok (flag', mkCPV w (if flag' then Some (sparsity_mask w) else None) cl r).
(** CP 455-507 [__call__].  variable.assign needs a value of the variable's shape. *)
Definition cp_call (k : kclass) (df : data_format) (flag training : bool) (v : cpvars) : res (tensor Q * cpvars) :=
  do (output, v') <-
    (if training then
       match cp_cluster v with
       | Some c =>
           do c' <- (if flag then
                       match cp_smask v, cc_mask c with
                       | Some m, Some cm => do og <- mask_product (cc_orig c) m ;; Ok (mkCPC (mask_centroids (cc_cents c) cm) og (cc_idx c) (cc_mask c))
                       | _, _ => Err KeyError
                       end
                     else Ok c) ;;
           do p <- pull df (cc_cents c') (cc_orig c') ;;
           if negb (same_shape p (cc_idx c')) then Err ValueError
           else
             do out <- clustered df (cc_cents c') p (cc_orig c') ;;
             Ok (out, mkCPV out (cp_smask v) (Some (mkCPC (cc_cents c') (cc_orig c') p (cc_mask c'))) (cp_range v))
       | None =>
           if flag then
             match cp_smask v with Some m => do x <- mask_product (cp_kernel v) m ;; Ok (x, v) | None => Err KeyError end
           else Ok (cp_kernel v, v)
       end
     else Ok (cp_kernel v, v)) ;;
  do (y, r) <- call (base_quantizer k) training (cp_range v') output ;;
  Ok (y, mkCPV (cp_kernel v') (cp_smask v') (cp_cluster v') r).

(** What happens to a preserved weight: forward passes, and an optimizer (or the user) changing the variables: kernel,
    original weights, centroids. *)
Inductive cpevent := Pass (training : bool) | Assign (kernel orig : tensor Q) (cents : centroids).
Definition cp_assign (v : cpvars) (kernel orig : tensor Q) (cents : centroids) : cpvars :=
  mkCPV kernel (cp_smask v) (match cp_cluster v with Some c => Some (mkCPC cents orig (cc_idx c) (cc_mask c)) | None => None end) (cp_range v).
Definition cp_step (k : kclass) (df : data_format) (flag : bool) (v : cpvars) (e : cpevent) : res cpvars :=
  match e with
  | Pass tr => do (_, v') <- cp_call k df flag tr v ;; Ok v'
  | Assign kernel orig cents => Ok (cp_assign v kernel orig cents)
  end.
Fixpoint cp_run (k : kclass) (df : data_format) (flag : bool) (v : cpvars) (evs : list cpevent) : res cpvars :=
  match evs with [] => Ok v | e :: r => do v' <- cp_step k df flag v e ;; cp_run k df flag v' r end.

(** CP 172-178: a registry owns one quantizer object per class; the layers of a model are built one after the other
    (quantize.py:500-501) and share these objects, so the final flags are those of both objects after all builds. *)
Definition flags := (bool * bool)%type.
Definition flag_of (f : flags) (k : kclass) : bool := match k with KDense => fst f | KConv2D => snd f end.
Definition set_flag (f : flags) (k : kclass) (b : bool) : flags := match k with KDense => (b, snd f) | KConv2D => (fst f, b) end.
Fixpoint cp_build_model (f : flags) (ls : list (kclass * data_format * tensor Q)) : res (flags * list cpvars) :=
  match ls with
  | [] => Ok (f, [])
  | (k, df, w) :: r =>
      do (b, v) <- cp_build k df (flag_of f k) w ;;
      do (f', vs) <- cp_build_model (set_flag f k b) r ;; Ok (f', v :: vs)
  end.

(** ** Which layers are preserved *)
Open Scope string_scope.
(** The config a wrapped layer gets: one of the default scheme's, or one whose weight_quantizer has been replaced. *)
Inductive pused := Plain (u : used) | Preserving (c : used).
(** PP 95-141, 178-208; CP 180-278: the registries of the two schemes treat classes in the same way.  [trainable]: the
    layer has trainable weights. *)
Definition preserved_classes : list string := ["Conv2D"; "Dense"; "DepthwiseConv2D"].
Definition preserve_supports (trainable : bool) (l : layerc) : bool := (negb trainable || inb (lc_class l) preserved_classes)%bool.
(** The default registry's get_quantize_config raises ValueError for a class it does not know
    (default_8bit_quantize_registry.py:224-227). *)
Definition preserve_config (trainable : bool) (l : layerc) : res pused :=
  if negb (supports l) then Err ValueError
  else if negb (preserve_supports trainable l) then Err ValueError
  else if (negb trainable || String.eqb (lc_class l) "DepthwiseConv2D")%bool then Ok (Plain (Use (registry_config l)))
  else Ok (Preserving (Use (registry_config l))).
(** quantize.py:405-455 [_quantize] with the registry of one of the two schemes ([M_QuantizeApply.quantize] is the same with
    the default scheme). *)
Inductive plres := PUnwrapped (l : layerc) | PWrapped (name : string) (l : layerc) (c : pused) | PQuant (l : layerc) (quantizer_removed : bool).
Definition output_only (c : pused) : pused := match c with Plain (Use u) | Preserving (Use u) => Plain (OutputOnly u) | c => c end.
Definition preserve_quantize (prefix : string) (already : string -> bool) (trainable : bool) (outbound : string -> nat) (md : list (string * meta)) (req : list string) (l : layerc) : res plres :=
  let n := lc_name l in
  if String.eqb (lc_class l) "QuantizeLayer" then
    if (1 <? outbound n)%nat then Ok (PQuant l false)
    else match assoc n md with
         | None => Ok (PQuant l false)
         | Some m => match m_cfg m with Some _ => Err TypeError | None => Ok (PQuant l (m_noquant m)) end
         end
  else
    let inmap := match assoc n md with Some _ => true | None => false end in
    if ((negb inmap && negb (inb n req)) || already n)%bool then Ok (PUnwrapped l)
    else if inb n req then
      if preserve_supports trainable l then
        do c <- preserve_config trainable l ;; Ok (PWrapped (prefix ++ n) l (output_only c))
      else Ok (PUnwrapped l)
    else
      match (match assoc n md with Some m => meta_config m | None => None end) with
      | Some c => Ok (PWrapped (prefix ++ n) l (Plain (Use c)))
      | None => if preserve_supports trainable l then do c <- preserve_config trainable l ;; Ok (PWrapped (prefix ++ n) l c) else Err RuntimeError
      end.
(** quantize.py:337-371, 457-501 with one of the two schemes: both inherit the layout transformer of the default scheme
    (default_8bit_prune_preserve_quantize_scheme.py:24-30, default_8bit_cluster_preserve_quantize_scheme.py:24-36).
    [trainable n]: the layer named [n] has trainable weights. *)
Definition preserve_quantize_all prefix already (trainable : string -> bool) (st : state) (req : list string) : res (list plres) :=
  mapM (fun l => if String.eqb (lc_class l) "InputLayer" then Ok (PUnwrapped l)
                 else preserve_quantize prefix already (trainable (lc_name l)) (fun n => List.length (consuming_layers st n)) (s_meta st) req l) (s_layers st).
Definition preserve_apply gen is_keras ueq (n : nat) (prefix : string) (already trainable : string -> bool) (m : amodel) : option (res (list plres * state)) :=
  match annotated_names m with
  | [] => Some (Err ValueError)
  | _ =>
    if negb (am_built m) then Some (Err ValueError)
    else match layout EightBit gen is_keras ueq n m with
         | Running _ => None
         | Failed e => Some (Err e)
         | Done st => Some (do ls <- preserve_quantize_all prefix already trainable st (requires_output_quantize m) ;; Ok (ls, st))
         end
  end.
