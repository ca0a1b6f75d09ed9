(** What the Keras wrappers of this package forward to the layer they wrap, and QuantizeLayer.  Sources:
    quantization/keras/quantize_annotate.py, quantization/keras/quantize_layer.py, quantization/keras/quantize_wrapper.py,
    sparsity/keras/pruning_wrapper.py, clustering/keras/cluster_wrapper.py.
    Simplifications: Python values passed to a call are None, booleans or opaque objects; the keras __call__ machinery around
    [call] (which may add arguments of its own) is not modelled: everything is about calls of the method [call]. *)
From Coq Require Import String.
From Verif Require Import Base M_Num M_Tensor M_Quant M_QWrapper.
Open Scope string_scope.

(** * Python calls *)
Inductive val := VNone | VBool (b : bool) | VObj (n : nat).
Definition kwargs := list (string * val).
(** inspect.getfullargspec of a bound method (without self): positional-or-keyword parameters, those of all parameters that
    have no default, whether there is a *args, the keyword-only parameters, whether there is a **kwargs. *)
Record signature := mkSig { sg_args : list string; sg_required : list string; sg_varargs : bool; sg_kwonly : list string; sg_varkw : bool }.
Definition mem (s : string) (l : list string) : bool := if in_dec string_dec s l then true else false.
Definition keys (kw : kwargs) : list string := map fst kw.
Fixpoint get (k : string) (kw : kwargs) : option val := match kw with [] => None | (k', v) :: r => if String.eqb k k' then Some v else get k r end.
Definition del (k : string) (kw : kwargs) : kwargs := filter (fun p => negb (String.eqb k (fst p))) kw.
Fixpoint bind_positional (args : list string) (pos : list val) : kwargs * list val :=
  match args, pos with
  | a :: args', v :: pos' => let '(b, extra) := bind_positional args' pos' in ((a, v) :: b, extra)
  | _, _ => ([], pos)
  end.
(** The names visible in the callee (a **kwargs dictionary counts as names) and its *args; TypeError as Python raises it. *)
Definition bind_call (sg : signature) (pos : list val) (kw : kwargs) : res (kwargs * list val) :=
  let '(b, extra) := bind_positional (sg_args sg) pos in
  if (match extra with [] => false | _ => negb (sg_varargs sg) end)%bool then Err TypeError
  else if existsb (fun k => mem k (keys b)) (keys kw) then Err TypeError
  else if existsb (fun k => negb (mem k (sg_args sg) || mem k (sg_kwonly sg) || sg_varkw sg))%bool (keys kw) then Err TypeError
  else if existsb (fun k => negb (mem k (keys b ++ keys kw))) (sg_required sg) then Err TypeError
  else Ok ((b ++ kw)%list, extra).

(** * The four [call] methods: the names and values the wrapped layer's [call] receives *)
Inductive wrapper_kind := Prune | Quantize | Annotate | Cluster.
(** pruning_wrapper.py:285, quantize_wrapper.py:148, cluster_wrapper.py:329: def call(self, inputs, training=None, **kwargs). *)
Definition call_signature : signature := mkSig ["inputs"; "training"] ["inputs"] false [] true.
Definition or_none (v : option val) : val := match v with Some x => x | None => VNone end.
Definition delegate (k : wrapper_kind) (learning_phase : val) (sg : signature) (pos : list val) (kw : kwargs) : res (kwargs * list val) :=
  match k with
  | Annotate =>
      (* quantize_annotate.py:99-106 *)
      bind_call sg pos (if negb (mem "training" (sg_args sg)) then del "training" kw else kw)
  | _ =>
      do (b, _) <- bind_call call_signature pos kw ;;
      let inputs := or_none (get "inputs" b) in
      let training := or_none (get "training" b) in
      let rest := del "inputs" (del "training" b) in
      match k with
      | Cluster => bind_call sg [inputs] rest                         (* cluster_wrapper.py:329-333: training is not passed on *)
      | _ =>
          (* pruning_wrapper.py:286-287, 324-333; quantize_wrapper.py:149-150, 175-179 *)
          let training := match training with VNone => learning_phase | t => t end in
          bind_call sg [inputs] ((if mem "training" (sg_args sg) then [("training", training)] else []) ++ rest)%list
      end
  end.

(** * quantize_annotate.py: QuantizeAnnotate as an object *)
(** The interface of a keras layer, over a state type [St]; variables, losses and updates are numbers. *)
Record api (St : Type) := mkApi {
  m_sig : signature;
  m_call : St -> kwargs * list val -> res (val * St);
  m_trainable : St -> bool;
  m_set_trainable : St -> bool -> St;
  m_trainable_weights : St -> list nat;
  m_non_trainable_weights : St -> list nat;
  m_updates : St -> list nat;
  m_losses : St -> list nat;
  m_get_weights : St -> list (tensor Q);
  m_set_weights : St -> list (tensor Q) -> res St;
  m_output_shape : St -> list nat -> res (list nat) }.
Arguments mkApi {St}. Arguments m_sig {St}. Arguments m_call {St}. Arguments m_trainable {St}. Arguments m_set_trainable {St}.
Arguments m_trainable_weights {St}. Arguments m_non_trainable_weights {St}. Arguments m_updates {St}. Arguments m_losses {St}.
Arguments m_get_weights {St}. Arguments m_set_weights {St}. Arguments m_output_shape {St}.
Definition any_signature : signature := mkSig [] [] true [] true.
(** 99-106 call, 131-161 the delegated members; the wrapper creates no variables, updates or losses of its own. *)
Definition own_list : list nat := [].
Definition annotate_api {St} (a : api St) : api St :=
  mkApi any_signature
    (fun s c => let '(kw, pos) := c in
       do c' <- bind_call (m_sig a) pos (if negb (mem "training" (sg_args (m_sig a))) then del "training" kw else kw) ;; m_call a s c')
    (m_trainable a) (m_set_trainable a) (m_trainable_weights a)
    (fun s => (m_non_trainable_weights a s ++ own_list)%list)
    (fun s => (m_updates a s ++ own_list)%list)
    (fun s => (m_losses a s ++ own_list)%list)
    (m_get_weights a) (m_set_weights a) (m_output_shape a).
(** 46-69 [__init__]: what the argument may be (QuantizeWrapper.__init__, quantize_wrapper.py:54-77, has the same check). *)
Inductive layer_arg := ArgNone | ArgOther | ArgModel | ArgLayer.
Definition annotate_ctor (l : layer_arg) : res unit :=
  match l with ArgNone => Err ValueError | ArgOther | ArgModel => Err ValueError | ArgLayer => Ok tt end.

(** * quantize_layer.py: QuantizeLayer *)
(** What is passed as quantizer: None, a Quantizer, something else. *)
Inductive quantizer_arg := QNone | QQuantizer (q : quantizer) | QOther.
(** 38-55. *)
Definition QuantizeLayer (a : quantizer_arg) : res (option quantizer) :=
  match a with QNone => Ok None | QQuantizer q => Ok (Some q) | QOther => Err ValueError end.
(** 57-67 [build]: the quantizer's variables and optimizer_step. *)
Record qlayer := mkQL { ql_quantizer : option quantizer; ql_vars : option ranges; ql_optimizer_step : Z }.
Definition ql_build (q : option quantizer) (input_shape : option (list nat)) : res qlayer :=
  match q with
  | None => Ok (mkQL None None (-1))
  | Some q => do r <- build q input_shape ;; Ok (mkQL (Some q) r (-1))
  end.
(** 69-85 [call]; [training] as passed ([None] if omitted), [phase] the global learning phase. *)
Definition ql_call (l : qlayer) (phase : bool) (training : option bool) (x : tensor Q) : res (tensor Q * qlayer) :=
  match ql_quantizer l with
  | None => Ok (x, l)
  | Some q =>
      let training := match training with None => phase | Some b => b end in
      do (y, r) <- call q training (ql_vars l) x ;; Ok (y, mkQL (Some q) r (ql_optimizer_step l))
  end.
Fixpoint ql_run (l : qlayer) (calls : list (bool * option bool * tensor Q)) : res (list (tensor Q) * qlayer) :=
  match calls with
  | [] => Ok ([], l)
  | (ph, tr, x) :: r => do (y, l') <- ql_call l ph tr x ;; do (ys, l'') <- ql_run l' r ;; Ok (y :: ys, l'')
  end.
(** 87-103 [get_config], [from_config]: the 'quantizer' entry; serialize_keras_object(None) is None. *)
Definition ql_get_config (q : option quantizer) : option (qclass * qconfig) := match q with None => None | Some q => Some (class_of q, get_config q) end.
Definition ql_from_config (c : option (qclass * qconfig)) : res (option quantizer) :=
  do a <- (match c with None => Ok QNone | Some (k, cfg) => do q <- from_config k cfg ;; Ok (QQuantizer q) end) ;; QuantizeLayer a.

(** * cluster_wrapper.py: variables of ClusterWeights *)
(** The wrapper's own _trainable_weights after build (182-232): per clusterable weight the tracked original variable
    (195-196) and the centroid variable (222-228). *)
Record cluster_lists := mkCLs { cl_layer : layer; cl_attrs : list nat; cl_own : list nat }.
(** [centroid] numbers the new centroid variables. *)
Definition cl_build (l : layer) (clusterable : list nat) (centroid : nat -> nat) : res cluster_lists :=
  do own <- mapM (fun a => do v <- getattr l a ;; match v with AVar i => Ok [i; centroid a] | ATensor _ => Err AttributeError end) clusterable ;;
  Ok (mkCLs l clusterable (List.concat own)).
(** 274-327 update_clustered_weights_associations, 329-333 call: every clusterable attribute of the layer is replaced by a
    tensor; [t] gives the clustered values. *)
Definition cl_call (c : cluster_lists) (t : nat -> tensor Q) : cluster_lists :=
  mkCLs (fold_left (fun l a => setattr_tensor l a (t a)) (cl_attrs c) (cl_layer c)) (cl_attrs c) (cl_own c).
(** 376-386. *)
Definition cl_set_trainable (c : cluster_lists) (b : bool) : cluster_lists :=
  let l := cl_layer c in mkCLs (mkLayer (l_attrs l) (l_tracked l) b (l_act l) (l_fwd l)) (cl_attrs c) (cl_own c).
Definition cl_trainable_weights (c : cluster_lists) : list nat := (layer_trainable_weights (cl_layer c) ++ cl_own c)%list.
(** keras Layer.get_weights / set_weights on the layer's tracked variables; 400-404, pruning_wrapper.py:393-397 and
    quantize_annotate.py:157-161 delegate to them. *)
Definition layer_get_weights (st : store) (l : layer) : list (tensor Q) := map st (l_tracked l).
Fixpoint assign_all (st : store) (vs : list nat) (ws : list (tensor Q)) : store :=
  match vs, ws with v :: vs', w :: ws' => assign_all (fun i => if Nat.eqb i v then w else st i) vs' ws' | _, _ => st end.
Definition layer_set_weights (st : store) (l : layer) (ws : list (tensor Q)) : res store :=
  if negb (Nat.eqb (List.length ws) (List.length (l_tracked l))) then Err ValueError
  else if existsb (fun p => negb (shape_eqb (shape (st (fst p))) (shape (snd p)))) (combine (l_tracked l) ws) then Err ValueError
  else Ok (assign_all st (l_tracked l) ws).
(** Histories of a clustered layer: forward passes (with the clustered values), optimizer updates, freezing. *)
Inductive cl_event := ClForward (t : nat -> tensor Q) | ClUpdate (st : store) | ClSetTrainable (b : bool).
Fixpoint cl_run (st : store) (c : cluster_lists) (evs : list cl_event) : store * cluster_lists :=
  match evs with
  | [] => (st, c)
  | ClForward t :: r => cl_run st (cl_call c t) r
  | ClUpdate st' :: r => cl_run st' c r
  | ClSetTrainable b :: r => cl_run st (cl_set_trainable c b) r
  end.
