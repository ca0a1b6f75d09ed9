(** Specification vocabulary for the Keras wrappers. *)
From Coq Require Import String.
From Verif Require Import Base M_Tensor M_Quant M_QWrapper M_Wrappers.
Open Scope string_scope.

(** The value a callee reads under the name [k] (parameter or entry of its **kwargs). *)
Definition reads (c : kwargs * list val) (k : string) : option val := get k (fst c).
Definition same_call (c c' : kwargs * list val) : Prop := (forall k, reads c k = reads c' k) /\ snd c = snd c'.
(** The ways a method can accept a keyword. *)
Definition parameter (sg : signature) (k : string) : Prop := In k (sg_args sg).
Definition accepts (sg : signature) (k : string) : Prop := In k (sg_args sg) \/ In k (sg_kwonly sg) \/ sg_varkw sg = true.
(** The first parameter is the input of the layer. *)
Definition first_is_not (sg : signature) (k : string) : Prop := hd_error (sg_args sg) <> Some k.

(** * Programs that use a layer *)
Inductive op := OCall (pos : list val) (kw : kwargs) | OTrainable | OSetTrainable (b : bool) | OTrainableWeights | ONonTrainableWeights
  | OUpdates | OLosses | OGetWeights | OSetWeights (ws : list (tensor Q)) | OShape (s : list nat).
Inductive obs := BVal (v : val) | BBool (b : bool) | BVars (l : list nat) | BWeights (l : list (tensor Q)) | BShape (s : list nat) | BUnit | BRaised (e : exn).
Definition observe {St} (a : api St) (s : St) (o : op) : obs * St :=
  match o with
  | OCall pos kw => match (do c <- bind_call (m_sig a) pos kw ;; m_call a s c) with Ok (v, s') => (BVal v, s') | Err e => (BRaised e, s) end
  | OTrainable => (BBool (m_trainable a s), s)
  | OSetTrainable b => (BUnit, m_set_trainable a s b)
  | OTrainableWeights => (BVars (m_trainable_weights a s), s)
  | ONonTrainableWeights => (BVars (m_non_trainable_weights a s), s)
  | OUpdates => (BVars (m_updates a s), s)
  | OLosses => (BVars (m_losses a s), s)
  | OGetWeights => (BWeights (m_get_weights a s), s)
  | OSetWeights ws => match m_set_weights a s ws with Ok s' => (BUnit, s') | Err e => (BRaised e, s) end
  | OShape i => match m_output_shape a s i with Ok o => (BShape o, s) | Err e => (BRaised e, s) end
  end.
Fixpoint observations {St} (a : api St) (s : St) (p : list op) : list obs :=
  match p with [] => [] | o :: r => let '(b, s') := observe a s o in b :: observations a s' r end.
(** Calls whose training argument (if any) the layer declares as a parameter. *)
Definition plain_call (sg : signature) (o : op) : Prop := match o with OCall _ kw => ~ In "training" (map fst kw) \/ parameter sg "training" | _ => True end.

(** * QuantizeLayer *)
(** The mode of a call: the explicit flag, else the learning phase. *)
Definition mode (phase : bool) (training : option bool) : bool := match training with Some b => b | None => phase end.
(** The plain quantizer on the same inputs, in these modes. *)
Fixpoint quantizer_outputs (q : quantizer) (r : option ranges) (calls : list (bool * option bool * tensor Q)) : res (list (tensor Q) * option ranges) :=
  match calls with
  | [] => Ok ([], r)
  | (ph, tr, x) :: rest => do (y, r') <- call q (mode ph tr) r x ;; do (ys, r'') <- quantizer_outputs q r' rest ;; Ok (y :: ys, r'')
  end.

(** * ClusterWeights *)
Definition cl_forward (evs : list cl_event) : Prop := exists t, In (ClForward t) evs.
Definition cl_store (st : store) (evs : list cl_event) : store := fold_left (fun s e => match e with ClUpdate s' => s' | _ => s end) evs st.
Definition cl_flag (b : bool) (evs : list cl_event) : bool := fold_left (fun f e => match e with ClSetTrainable b => b | _ => f end) evs b.
(** A layer whose clusterable attributes hold the distinct tracked variables [vs]; [centroid] gives fresh variables. *)
Definition cl_fresh (l : layer) (attrs vs : list nat) (centroid : nat -> nat) : Prop :=
  Forall2 (fun a v => getattr l a = Ok (AVar v)) attrs vs /\ NoDup attrs /\ NoDup vs /\ NoDup (l_tracked l) /\ incl vs (l_tracked l) /\
  NoDup (map centroid attrs) /\ forall a, In a attrs -> ~ In (centroid a) (l_tracked l).
