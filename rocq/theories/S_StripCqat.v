(** Specification of strip_clustering_cqat. *)
From Coq Require Import String.
From Verif Require Import Base M_Tensor M_Cluster M_Preserve M_StripCqat.
Open Scope string_scope.

Definition occurs_in (sub s : string) : Prop := exists a b, s = a ++ sub ++ b.
(** [l'] is [l] without the variables satisfying [P], in the same order. *)
Inductive removed (P : cvariable -> Prop) : list cvariable -> list cvariable -> Prop :=
| rm_nil : removed P [] []
| rm_drop v l l' : P v -> removed P l l' -> removed P (v :: l) l'
| rm_keep v l l' : ~ P v -> removed P l l' -> removed P (v :: l) (v :: l').
(** The variables cluster-preserving training adds to a wrapper (add_weight of the registry). *)
Definition clustering_variable (v : cvariable) : Prop :=
  exists scope, v_name v = scope ++ "/cluster_centroids_tf:0" \/ v_name v = scope ++ "/ori_weights_vars_tf:0" \/ v_name v = scope ++ "/pulling_indices_tf:0".
(** A wrapper whose other variables have unsuspicious names, and which keeps the clustering variables in the lists where the
    registry adds them. *)
Definition marker (s : string) : Prop := occurs_in "cluster_centroids_tf" s \/ occurs_in "ori_weights_vars_tf" s \/ occurs_in "pulling_indices_tf" s.
Definition plain_names (l : list cvariable) : Prop := forall v, In v l -> clustering_variable v \/ ~ marker (v_name v).
Definition as_added (tw ntw : list cvariable) : Prop :=
  (forall v, In v tw -> ~ occurs_in "/pulling_indices_tf:0" (v_name v)) /\
  (forall v, In v ntw -> ~ occurs_in "cluster_centroids_tf" (v_name v) /\ ~ occurs_in "ori_weights_vars_tf" (v_name v)).
(** What stripping should do to a model: remove the clustering variables of every Conv2D and Dense wrapper, nothing else. *)
Inductive stripped : node -> node -> Prop :=
| st_graph ch ch' : Forall2 stripped ch ch' -> stripped (NGraph ch) (NGraph ch')
| st_wrap k name tw ntw tw' ntw' : k <> InnerOther -> removed clustering_variable tw tw' -> removed clustering_variable ntw ntw' ->
    stripped (NWrap k name tw ntw) (NWrap k name tw' ntw')
| st_other name tw ntw : stripped (NWrap InnerOther name tw ntw) (NWrap InnerOther name tw ntw)
| st_layer i : stripped (NLayer i) (NLayer i)
| st_thing i : stripped (NThing i) (NThing i).
(** Models without nested subclassed models whose Conv2D/Dense wrappers are as the registry builds them; the wrapped
    layers' names do not contain 'depthwise'. *)
Inductive usual : node -> Prop :=
| us_graph ch : Forall usual ch -> usual (NGraph ch)
| us_wrap k name tw ntw : ~ occurs_in "depthwise" name -> plain_names tw -> plain_names ntw -> as_added tw ntw -> usual (NWrap k name tw ntw)
| us_layer i : usual (NLayer i)
| us_thing i : usual (NThing i).

(** * Behaviour of a stripped layer: the clustering variables no longer belong to its weights, so an optimizer changes
    only the kernel. *)
Inductive sevent := SPass (training : bool) | SKernel (w : tensor Q).
Definition s_step (k : kclass) (df : data_format) (flag : bool) (v : cpvars) (e : sevent) : res cpvars :=
  match e with
  | SPass tr => do (_, v') <- cp_call k df flag tr v ;; Ok v'
  | SKernel w => Ok (mkCPV w (cp_smask v) (cp_cluster v) (cp_range v))
  end.
Fixpoint s_run (k : kclass) (df : data_format) (flag : bool) (v : cpvars) (evs : list sevent) : res cpvars :=
  match evs with [] => Ok v | e :: r => do v' <- s_step k df flag v e ;; s_run k df flag v' r end.
(** The same layer without any clustering data: a plain quantized layer. *)
Definition plain_qat (v : cpvars) : cpvars := mkCPV (cp_kernel v) None None (cp_range v).
