(** Lemmas about the Keras wrappers. *)
From Coq Require Import String Permutation.
From Verif Require Import Base M_Num M_Tensor M_Quant M_QWrapper M_Wrappers S_Wrappers.
Open Scope string_scope.

Lemma mem_iff s l : mem s l = true <-> In s l.
Proof. unfold mem. destruct in_dec; split; intros; try assumption; try reflexivity; try discriminate; contradiction. Qed.
Lemma mem_false s l : mem s l = false <-> ~ In s l.
Proof. rewrite <- mem_iff. destruct (mem s l); split; congruence. Qed.
Lemma get_keys k kw : In k (keys kw) <-> get k kw <> None.
Proof.
  induction kw as [|[k' v] r IH]; cbn [keys map fst get In]; [split; [tauto|congruence]|]. destruct (String.eqb_spec k k').
  - subst. split; [congruence|now left].
  - rewrite <- IH. split; [intros [E|I]; [congruence|exact I]|now right].
Qed.
Lemma get_app k a b : get k (a ++ b)%list = match get k a with Some v => Some v | None => get k b end.
Proof. induction a as [|[k' v] r IH]; cbn; [reflexivity|]. destruct (String.eqb k k'); [reflexivity|exact IH]. Qed.
Lemma get_del k k' kw : get k (del k' kw) = if String.eqb k k' then None else get k kw.
Proof.
  induction kw as [|[a v] r IH]; cbn [del filter get fst]; [now destruct String.eqb|]. destruct (String.eqb_spec k' a); cbn [negb].
  - subst. fold (del a r). rewrite IH. destruct (String.eqb_spec k a); reflexivity.
  - cbn [get]. fold (del k' r). rewrite IH. destruct (String.eqb_spec k a); [|reflexivity]. subst. destruct (String.eqb_spec a k'); [congruence|reflexivity].
Qed.
Lemma del_absent k kw : ~ In k (keys kw) -> del k kw = kw.
Proof.
  induction kw as [|[a v] r IH]; cbn [keys map fst In del filter]; intros N; [reflexivity|]. destruct (String.eqb_spec k a); [subst; tauto|].
  cbn [negb]. f_equal. apply IH. tauto.
Qed.
Lemma keys_app a b : keys (a ++ b)%list = (keys a ++ keys b)%list. Proof. apply map_app. Qed.
Lemma existsb_ext_in {A} (f g : A -> bool) l l' : (forall x, In x l <-> In x l') -> (forall x, f x = g x) -> existsb f l = existsb g l'.
Proof.
  intros E F. destruct (existsb f l) eqn:A1; symmetry.
  - apply existsb_exists in A1 as (x & I & T). apply existsb_exists. exists x. rewrite <- F. split; [apply E, I|exact T].
  - apply not_true_iff_false. intros T. apply existsb_exists in T as (x & I & T). assert (existsb f l = true); [|congruence].
    apply existsb_exists. exists x. rewrite F. split; [apply E, I|exact T].
Qed.
Definition eqkw (a b : kwargs) : Prop := forall k, get k a = get k b.
Lemma eqkw_keys a b : eqkw a b -> forall k, In k (keys a) <-> In k (keys b).
Proof. intros E k. rewrite !get_keys, (E k). reflexivity. Qed.
Definition sim_res (x y : res (kwargs * list val)) : Prop :=
  match x, y with Ok c, Ok c' => same_call c c' | Err e, Err e' => e = e' | _, _ => False end.
Lemma bind_equiv sg pos kw kw' : eqkw kw kw' -> sim_res (bind_call sg pos kw) (bind_call sg pos kw').
Proof.
  intros E. pose proof (eqkw_keys _ _ E) as K. unfold bind_call. destruct (bind_positional (sg_args sg) pos) as [b extra]. destruct (match extra with [] => _ | _ => _ end); [reflexivity|].
  rewrite (existsb_ext_in (fun k => mem k (keys b)) (fun k => mem k (keys b)) _ _ K (fun _ => eq_refl)).
  destruct (existsb (fun k => mem k (keys b)) (keys kw')); [reflexivity|].
  rewrite (existsb_ext_in (fun k => negb (mem k (sg_args sg) || mem k (sg_kwonly sg) || sg_varkw sg)) (fun k => negb (mem k (sg_args sg) || mem k (sg_kwonly sg) || sg_varkw sg)) _ _ K (fun _ => eq_refl)).
  destruct (existsb _ (keys kw')); [reflexivity|].
  rewrite (existsb_ext_in (fun k => negb (mem k (keys b ++ keys kw))) (fun k => negb (mem k (keys b ++ keys kw'))) (sg_required sg) (sg_required sg)).
  - destruct existsb; [reflexivity|]. split; [|reflexivity]. intros k. unfold reads. cbn [fst]. rewrite !get_app. now destruct (get k b).
  - tauto.
  - intros k. f_equal. apply eq_true_iff_eq. rewrite !mem_iff, !in_app_iff, (K k). reflexivity.
Qed.
Lemma same_call_refl c : same_call c c. Proof. split; reflexivity. Qed.
Lemma same_call_sym c d : same_call c d -> same_call d c. Proof. intros [A B]. split; [intros k; now rewrite A|congruence]. Qed.
Lemma same_call_trans c d e : same_call c d -> same_call d e -> same_call c e. Proof. intros [A B] [A' B']. split; [intros k; now rewrite A|congruence]. Qed.

(** The wrapper's own signature: call(x, **kw), training by keyword or positionally. *)
Lemma bind_wrapper_kw x kw : ~ In "inputs" (keys kw) ->
  bind_call call_signature [x] kw = Ok ((("inputs", x) :: kw), []).
Proof.
  intros N. unfold bind_call, call_signature. cbn [sg_args sg_required sg_varargs sg_kwonly sg_varkw bind_positional].
  assert (existsb (fun k => mem k (keys [("inputs", x)])) (keys kw) = false) as ->.
  { apply not_true_iff_false. intros T. apply existsb_exists in T as (k & I & M). apply mem_iff in M. destruct M as [<-|[]]. exact (N I). }
  assert (existsb (fun k => negb (mem k ["inputs"; "training"] || mem k [] || true)) (keys kw) = false) as ->.
  { apply not_true_iff_false. intros T. apply existsb_exists in T as (k & I & M). rewrite orb_true_r in M. discriminate M. }
  cbn [existsb]. assert (mem "inputs" (keys [("inputs", x)] ++ keys kw) = true) as -> by (apply mem_iff; now left). reflexivity.
Qed.
Lemma bind_wrapper_pos x t kw : ~ In "inputs" (keys kw) -> ~ In "training" (keys kw) ->
  bind_call call_signature [x; t] kw = Ok ((("inputs", x) :: ("training", t) :: kw), []).
Proof.
  intros N N'. unfold bind_call, call_signature. cbn [sg_args sg_required sg_varargs sg_kwonly sg_varkw bind_positional].
  assert (existsb (fun k => mem k (keys [("inputs", x); ("training", t)])) (keys kw) = false) as ->.
  { apply not_true_iff_false. intros T. apply existsb_exists in T as (k & I & M). apply mem_iff in M. destruct M as [<-|[<-|[]]]; contradiction. }
  assert (existsb (fun k => negb (mem k ["inputs"; "training"] || mem k [] || true)) (keys kw) = false) as ->.
  { apply not_true_iff_false. intros T. apply existsb_exists in T as (k & I & M). rewrite orb_true_r in M. discriminate M. }
  cbn [existsb]. assert (mem "inputs" (keys [("inputs", x); ("training", t)] ++ keys kw) = true) as -> by (apply mem_iff; now left). reflexivity.
Qed.
(** What reaches the wrapped layer. *)
Definition resolved (lp : val) (t : option val) : val := match or_none t with VNone => lp | v => v end.
Lemma delegate_kw k lp sg x kw : ~ In "inputs" (keys kw) ->
  delegate k lp sg [x] kw =
  match k with
  | Annotate => bind_call sg [x] (if mem "training" (sg_args sg) then kw else del "training" kw)
  | Cluster => bind_call sg [x] (del "training" kw)
  | _ => bind_call sg [x] ((if mem "training" (sg_args sg) then [("training", resolved lp (get "training" kw))] else []) ++ del "training" kw)%list
  end.
Proof.
  intros N. destruct k; unfold delegate; try (rewrite (bind_wrapper_kw x kw N); cbn [bind]).
  3: now destruct (mem "training" (sg_args sg)).
  all: cbn [get]; change (String.eqb "inputs" "inputs") with true; change (String.eqb "training" "inputs") with false; cbn iota; cbn [or_none].
  all: assert (del "inputs" (del "training" (("inputs", x) :: kw)) = del "training" kw) as ->
    by (cbn [del filter fst]; change (String.eqb "training" "inputs") with false; cbn [negb filter fst]; change (String.eqb "inputs" "inputs") with true; cbn [negb];
        fold (del "training" kw); apply del_absent; intros I; apply N; apply get_keys in I; rewrite get_del in I; change (String.eqb "inputs" "training") with false in I; cbn iota in I; now apply get_keys).
  all: unfold resolved; try (destruct (or_none (get "training" kw))); reflexivity.
Qed.
Lemma training_first kw t : get "training" kw = Some t -> eqkw (("training", t) :: del "training" kw) kw.
Proof. intros G k. cbn [get]. rewrite get_del. destruct (String.eqb_spec k "training"); [subst; now rewrite G|reflexivity]. Qed.

Theorem training_reaches k lp sg x b kw c : k <> Cluster -> parameter sg "training" -> ~ In "inputs" (map fst kw) -> get "training" kw = Some (VBool b) ->
  bind_call sg [x] kw = Ok c -> exists c', delegate k lp sg [x] kw = Ok c' /\ same_call c' c.
Proof.
  intros NC P N G B. apply mem_iff in P. rewrite (delegate_kw k lp sg x kw N), P.
  assert (S1 : exists c', bind_call sg [x] ([("training", resolved lp (get "training" kw))] ++ del "training" kw)%list = Ok c' /\ same_call c' c).
  { pose proof (bind_equiv sg [x] _ _ (training_first kw (VBool b) G)) as E. rewrite B in E. rewrite G. unfold resolved. cbn [or_none app].
    destruct (bind_call sg [x] (("training", VBool b) :: del "training" kw)) as [c'|e]; cbn in E; [|contradiction]. exists c'. split; [reflexivity|exact E]. }
  destruct k; try exact S1; [|congruence]. exists c. split; [exact B|apply same_call_refl].
Qed.
Theorem phase_reaches k lp sg x kw c : k = Prune \/ k = Quantize -> parameter sg "training" -> ~ In "inputs" (map fst kw) -> or_none (get "training" kw) = VNone ->
  bind_call sg [x] (("training", lp) :: del "training" kw) = Ok c -> delegate k lp sg [x] kw = Ok c.
Proof.
  intros K P N G B. apply mem_iff in P. rewrite (delegate_kw k lp sg x kw N), P. unfold resolved. rewrite G. destruct K as [-> | ->]; exact B.
Qed.
Theorem positional_training k lp sg x b kw : k <> Annotate -> ~ In "inputs" (map fst kw) -> ~ In "training" (map fst kw) ->
  delegate k lp sg [x; VBool b] kw = delegate k lp sg [x] (("training", VBool b) :: kw).
Proof.
  intros NA N T. unfold delegate. rewrite (bind_wrapper_pos x (VBool b) kw N T).
  assert (~ In "inputs" (keys (("training", VBool b) :: kw))) as N' by (cbn [keys map fst In]; intros [E|I]; [discriminate E|exact (N I)]).
  rewrite (bind_wrapper_kw x (("training", VBool b) :: kw) N'). destruct k; try reflexivity. congruence.
Qed.
Theorem undeclared_training k lp sg x kw c : ~ parameter sg "training" -> ~ In "inputs" (map fst kw) ->
  bind_call sg [x] (del "training" kw) = Ok c -> delegate k lp sg [x] kw = Ok c.
Proof.
  intros P N B. apply mem_false in P. rewrite (delegate_kw k lp sg x kw N), P. destruct k; exact B.
Qed.
Lemma bind_positional_get args pos k : ~ In k args -> get k (fst (bind_positional args pos)) = None.
Proof.
  revert pos. induction args as [|a r IH]; intros [|v pos] N; cbn [bind_positional]; try reflexivity. specialize (IH pos). destruct (bind_positional r pos) as [b e].
  cbn [fst get]. cbn [In] in N. destruct (String.eqb_spec k a); [subst; tauto|]. apply IH. tauto.
Qed.
Lemma bind_call_out sg pos kw c : bind_call sg pos kw = Ok c -> c = ((fst (bind_positional (sg_args sg) pos) ++ kw)%list, snd (bind_positional (sg_args sg) pos)).
Proof.
  unfold bind_call. destruct (bind_positional (sg_args sg) pos) as [b extra]. destruct (match extra with [] => _ | _ => _ end); [discriminate|].
  destruct existsb; [discriminate|]. destruct existsb; [discriminate|]. destruct existsb; [discriminate|]. now intros [= <-].
Qed.
Lemma bind_one args x k : hd_error args <> Some k -> get k (fst (bind_positional args [x])) = None.
Proof. destruct args as [|a r]; [reflexivity|]. cbn [hd_error bind_positional]. intros N. destruct r; cbn [bind_positional fst get]; (destruct (String.eqb_spec k a); [congruence|reflexivity]). Qed.
Theorem training_lost k lp sg x kw c : k = Cluster \/ ~ parameter sg "training" -> first_is_not sg "training" -> ~ In "inputs" (map fst kw) ->
  delegate k lp sg [x] kw = Ok c -> reads c "training" = None.
Proof.
  intros H F N D. rewrite (delegate_kw k lp sg x kw N) in D. unfold reads.
  assert (G : bind_call sg [x] (del "training" kw) = Ok c).
  { destruct H as [-> | P]; [exact D|]. apply mem_false in P. rewrite P in D. destruct k; exact D. }
  apply bind_call_out in G. subst c. cbn [fst]. rewrite get_app, (bind_one _ x "training" F), get_del. reflexivity.
Qed.

(** * Annotation *)
Lemma bind_any pos kw : bind_call any_signature pos kw = Ok (kw, pos).
Proof.
  unfold bind_call, any_signature. cbn [sg_args sg_required sg_varargs sg_kwonly sg_varkw].
  assert (bind_positional [] pos = ([], pos)) as -> by (destruct pos; reflexivity).
  assert ((match pos with [] => false | _ => negb true end) = false) as -> by (destruct pos; reflexivity).
  assert (existsb (fun k => mem k (keys [])) (keys kw) = false) as ->.
  { apply not_true_iff_false. intros T. apply existsb_exists in T as (k & _ & M). discriminate M. }
  assert (existsb (fun k => negb (mem k [] || mem k [] || true)) (keys kw) = false) as ->.
  { apply not_true_iff_false. intros T. apply existsb_exists in T as (k & _ & M). discriminate M. }
  reflexivity.
Qed.
Lemma annotate_step {St} (a : api St) s o : plain_call (m_sig a) o -> observe (annotate_api a) s o = observe a s o.
Proof.
  destruct o; intros P; cbn [observe]; try reflexivity;
    try (cbn [annotate_api m_non_trainable_weights m_updates m_losses]; unfold own_list; rewrite app_nil_r; reflexivity).
  change (m_sig (annotate_api a)) with any_signature. rewrite bind_any. cbn [bind annotate_api m_call].
  destruct (mem "training" (sg_args (m_sig a))) eqn:M; cbn [negb]; [reflexivity|]. destruct P as [P|P].
  - rewrite (del_absent "training" kw P). reflexivity.
  - apply mem_iff in P. congruence.
Qed.
Theorem annotate_transparent {St} (a : api St) s p : Forall (plain_call (m_sig a)) p -> observations (annotate_api a) s p = observations a s p.
Proof.
  intros F. revert s. induction F as [|o p P F IH]; intros s; [reflexivity|]. cbn [observations]. rewrite (annotate_step a s o P). destruct (observe a s o) as [b s']. now rewrite IH.
Qed.
Theorem annotate_ctor_ok l : annotate_ctor l = Ok tt <-> l = ArgLayer.
Proof. destruct l; cbn; split; congruence. Qed.

(** * QuantizeLayer *)
Theorem ql_identity shp l calls : ql_build None shp = Ok l -> ql_run l calls = Ok (map snd calls, l).
Proof.
  intros [= <-]. induction calls as [|[[ph tr] x] r IH]; [reflexivity|]. cbn [ql_run ql_call ql_quantizer bind]. rewrite IH. reflexivity.
Qed.
Lemma ql_run_q q r step calls : ql_run (mkQL (Some q) r step) calls =
  match quantizer_outputs q r calls with Ok (ys, r') => Ok (ys, mkQL (Some q) r' step) | Err e => Err e end.
Proof.
  revert r. induction calls as [|[[ph tr] x] rest IH]; intros r; [reflexivity|]. cbn [ql_run quantizer_outputs]. unfold ql_call. cbn [ql_quantizer ql_vars ql_optimizer_step].
  change (match tr with Some b => b | None => ph end) with (mode ph tr). destruct (call q (mode ph tr) r x) as [[y r']|e]; cbn [bind]; [|reflexivity].
  rewrite IH. destruct (quantizer_outputs q r' rest) as [[ys r'']|e]; reflexivity.
Qed.
Theorem ql_quantizes q shp l calls : ql_build (Some q) shp = Ok l -> exists r, build q shp = Ok r /\
  match ql_run l calls with
  | Ok (ys, l') => exists r', quantizer_outputs q r calls = Ok (ys, r') /\ ql_vars l' = r' /\ ql_quantizer l' = Some q /\ ql_optimizer_step l' = (-1)%Z
  | Err e => quantizer_outputs q r calls = Err e
  end.
Proof.
  unfold ql_build. destruct (build q shp) as [r|e]; cbn [bind]; [|discriminate]. intros [= <-]. exists r. split; [reflexivity|]. rewrite ql_run_q.
  destruct (quantizer_outputs q r calls) as [[ys r']|e]; [|reflexivity]. exists r'. repeat split.
Qed.

(** * ClusterWeights *)
Lemma alookup_update {A} a b (v : A) l : alookup a (update b v l) = if Nat.eqb a b then match alookup a l with Some _ => Some v | None => None end else alookup a l.
Proof.
  induction l as [|[k w] r IH]; cbn [update alookup]; [now destruct Nat.eqb|]. destruct (Nat.eqb_spec b k); cbn [alookup].
  - subst. destruct (Nat.eqb_spec a k); reflexivity.
  - rewrite IH. destruct (Nat.eqb_spec a k); [|reflexivity]. subst. destruct (Nat.eqb_spec k b); [congruence|reflexivity].
Qed.
Lemma get_setattr l a b t : getattr (setattr_tensor l b t) a = if Nat.eqb a b then match getattr l a with Ok _ => Ok (ATensor t) | Err e => Err e end else getattr l a.
Proof.
  unfold getattr, setattr_tensor. cbn [l_attrs]. rewrite alookup_update. destruct (Nat.eqb a b); [|reflexivity]. now destruct (alookup a (l_attrs l)).
Qed.
Definition without (vs l : list nat) : list nat := filter (fun u => negb (if in_dec Nat.eq_dec u vs then true else false)) l.
Lemma without_nil l : without [] l = l.
Proof. unfold without. induction l as [|a r IH]; [reflexivity|]. cbn [filter]. destruct (in_dec Nat.eq_dec a []) as [[]|n]. cbn [negb]. now rewrite IH. Qed.
Lemma without_cons v vs l : without vs (filter (fun u => negb (Nat.eqb u v)) l) = without (v :: vs) l.
Proof.
  unfold without. induction l as [|a r IH]; cbn [filter]; [reflexivity|]. destruct (Nat.eqb_spec a v); cbn [negb].
  - subst. destruct (in_dec Nat.eq_dec v (v :: vs)) as [i|n]; [exact IH|exfalso; apply n; now left].
  - cbn [filter]. rewrite IH. destruct (in_dec Nat.eq_dec a vs) as [i|n1], (in_dec Nat.eq_dec a (v :: vs)) as [i'|n2]; cbn; try reflexivity.
    + exfalso. apply n2. now right.
    + exfalso. destruct i' as [E|I]; [congruence|contradiction].
Qed.
(** Attributes all hold variables [vs]: a call stops tracking exactly those. *)
Lemma call_tracked t attrs vs l : NoDup attrs -> Forall2 (fun a v => getattr l a = Ok (AVar v)) attrs vs ->
  let l' := fold_left (fun l a => setattr_tensor l a (t a)) attrs l in
  l_tracked l' = without vs (l_tracked l) /\ l_trainable l' = l_trainable l /\
  (forall a, In a attrs -> getattr l' a = Ok (ATensor (t a))) /\ (forall a, ~ In a attrs -> getattr l' a = getattr l a).
Proof.
  intros Nd F. revert l Nd F. induction attrs as [|a attrs IH] in vs |- *; intros l Nd F; inversion F; subst.
  - cbn. rewrite without_nil. repeat split; try tauto.
  - inversion Nd; subst. cbn [fold_left]. destruct (IH l' (setattr_tensor l a (t a))) as (T & Tr & G & O); [assumption| |].
    + assert (N : ~ In a attrs) by assumption. clear - H3 N. induction H3; constructor.
      * rewrite get_setattr. destruct (Nat.eqb_spec x a); [subst; exfalso; apply N; now left|assumption].
      * apply IHForall2. intros I. apply N. now right.
    + split; [|split; [|split]].
      * rewrite T. unfold setattr_tensor at 1. cbn [l_tracked]. unfold getattr in H1. destruct (alookup a (l_attrs l)) as [v'|]; [|discriminate]. injection H1 as ->. apply without_cons.
      * rewrite Tr. reflexivity.
      * intros b [<-|I]; [|now apply G]. rewrite O by assumption. rewrite get_setattr, Nat.eqb_refl, H1. reflexivity.
      * intros b N. cbn [In] in N. rewrite O by tauto. rewrite get_setattr. destruct (Nat.eqb_spec b a); [subst; tauto|reflexivity].
Qed.
(** A later call replaces tensors by tensors: nothing changes in the lists. *)
Lemma call_tracked2 t attrs l : NoDup attrs -> (forall a, In a attrs -> exists u, getattr l a = Ok (ATensor u)) ->
  let l' := fold_left (fun l a => setattr_tensor l a (t a)) attrs l in
  l_tracked l' = l_tracked l /\ l_trainable l' = l_trainable l /\ (forall a, In a attrs -> exists u, getattr l' a = Ok (ATensor u)).
Proof.
  revert l. induction attrs as [|a attrs IH]; intros l Nd F; cbn [fold_left]; [repeat split; intros a []|].
  inversion Nd; subst. destruct (IH (setattr_tensor l a (t a))) as (T & Tr & G); [assumption| |].
  - intros b I. rewrite get_setattr. destruct (Nat.eqb_spec b a); [subst; contradiction|]. apply F. now right.
  - split; [|split].
    + rewrite T. destruct (F a (or_introl eq_refl)) as (u & E). unfold getattr in E. unfold setattr_tensor. cbn [l_tracked]. destruct (alookup a (l_attrs l)) as [v'|]; [|discriminate]. injection E as ->. reflexivity.
    + rewrite Tr. reflexivity.
    + intros b [<-|I]; [|now apply G]. exists (t a).
      assert (K : forall attrs' l0, ~ In a attrs' -> getattr (fold_left (fun l a => setattr_tensor l a (t a)) attrs' l0) a = getattr l0 a).
      { intros attrs'. induction attrs' as [|c r IHr]; intros l0 N; [reflexivity|]. cbn [fold_left]. cbn [In] in N. rewrite IHr by tauto. rewrite get_setattr. destruct (Nat.eqb_spec a c); [subst; tauto|reflexivity]. }
      rewrite (K attrs _ H1), get_setattr, Nat.eqb_refl. destruct (F a (or_introl eq_refl)) as (u & E). now rewrite E.
Qed.
Lemma cl_build_own l attrs vs centroid c : Forall2 (fun a v => getattr l a = Ok (AVar v)) attrs vs -> cl_build l attrs centroid = Ok c ->
  cl_layer c = l /\ cl_attrs c = attrs /\ Permutation (cl_own c) (vs ++ map centroid attrs)%list.
Proof.
  intros F B. assert (M : mapM (fun a => do v <- getattr l a ;; match v with AVar i => Ok [i; centroid a] | ATensor _ => Err AttributeError end) attrs = Ok (map (fun p => [snd p; centroid (fst p)]) (combine attrs vs))).
  { clear B. induction F as [|a v attrs vs E F IH]; [reflexivity|]. cbn [mapM combine map fst snd]. rewrite E. cbn [bind]. rewrite IH. reflexivity. }
  unfold cl_build in B. rewrite M in B. cbn [bind] in B. injection B as <-. cbn [cl_layer cl_attrs cl_own]. repeat split.
  clear M. induction F as [|a v attrs vs E F IH]; [constructor|]. cbn [combine map fst snd List.concat app].
  apply perm_skip. etransitivity; [apply perm_skip, IH|]. apply Permutation_cons_app. reflexivity.
Qed.
Inductive clstate (l : layer) (attrs vs : list nat) (c0 : cluster_lists) : bool -> bool -> cluster_lists -> Prop :=
| cls_intro called flag c :
    cl_attrs c = attrs -> cl_own c = cl_own c0 -> l_trainable (cl_layer c) = flag ->
    l_tracked (cl_layer c) = (if called : bool then without vs (l_tracked l) else l_tracked l) ->
    (if called then forall a, In a attrs -> exists u, getattr (cl_layer c) a = Ok (ATensor u) else Forall2 (fun a v => getattr (cl_layer c) a = Ok (AVar v)) attrs vs) ->
    clstate l attrs vs c0 called flag c.
Definition is_fwd (e : cl_event) : bool := match e with ClForward _ => true | _ => false end.
Lemma cl_run_state l attrs vs c0 : NoDup attrs -> forall evs called flag st c st' c', clstate l attrs vs c0 called flag c -> cl_run st c evs = (st', c') ->
  st' = cl_store st evs /\ clstate l attrs vs c0 (called || existsb is_fwd evs)%bool (cl_flag flag evs) c'.
Proof.
  intros Nd evs. induction evs as [|e evs IH]; intros called flag st c st' c' H R.
  - cbn in R. injection R as <- <-. rewrite orb_false_r. split; [reflexivity|exact H].
  - destruct e as [t|s|b]; cbn [cl_run] in R.
    + cbn [existsb is_fwd]. rewrite orb_true_l, orb_true_r. change (cl_store st (ClForward t :: evs)) with (cl_store st evs). change (cl_flag flag (ClForward t :: evs)) with (cl_flag flag evs).
      refine (match IH true flag st (cl_call c t) st' c' _ R with conj A B => conj A _ end); [|exact B].
      inversion H as [? ? ? Ea Eo Ef Et Eg]; subst. destruct called.
      * destruct (call_tracked2 t (cl_attrs c) (cl_layer c) Nd Eg) as (T & Tr & G). constructor; unfold cl_call; cbn [cl_attrs cl_own cl_layer]; [reflexivity|exact Eo|exact Tr|now rewrite T|exact G].
      * destruct (call_tracked t (cl_attrs c) vs (cl_layer c) Nd Eg) as (T & Tr & G & _). constructor; unfold cl_call; cbn [cl_attrs cl_own cl_layer]; [reflexivity|exact Eo|exact Tr|now rewrite T, Et|].
        intros a I. eexists. apply G, I.
    + cbn [existsb is_fwd orb]. change (cl_store st (ClUpdate s :: evs)) with (cl_store s evs). change (cl_flag flag (ClUpdate s :: evs)) with (cl_flag flag evs). exact (IH called flag s c st' c' H R).
    + cbn [existsb is_fwd orb]. change (cl_store st (ClSetTrainable b :: evs)) with (cl_store st evs). change (cl_flag flag (ClSetTrainable b :: evs)) with (cl_flag b evs).
      refine (IH called b st (cl_set_trainable c b) st' c' _ R). inversion H as [? ? ? Ea Eo Ef Et Eg]; subst. constructor; unfold cl_set_trainable; cbn [cl_attrs cl_own cl_layer l_trainable l_tracked]; try assumption; try reflexivity.
Qed.
Lemma cl_reach l attrs vs centroid st evs c0 st' c : cl_fresh l attrs vs centroid -> cl_build l attrs centroid = Ok c0 -> cl_run st c0 evs = (st', c) ->
  st' = cl_store st evs /\ clstate l attrs vs c0 (existsb is_fwd evs) (cl_flag (l_trainable l) evs) c /\ Permutation (cl_own c0) (vs ++ map centroid attrs)%list.
Proof.
  intros (F & Na & Nv & Nt & I & Nc & Fr) B R. destruct (cl_build_own _ _ _ _ _ F B) as (El & Ea & P).
  destruct (cl_run_state l attrs vs c0 Na evs false (l_trainable l) st c0 st' c) as (E & H); [|exact R|].
  - constructor; [exact Ea|reflexivity|now rewrite El|now rewrite El|now rewrite El].
  - split; [exact E|]. split; [exact H|exact P].
Qed.
Lemma without_perm vs l : NoDup vs -> NoDup l -> incl vs l -> Permutation (without vs l ++ vs)%list l.
Proof.
  intros Nv Nl I. apply NoDup_Permutation.
  - assert (D : forall x, In x (without vs l) -> ~ In x vs).
    { intros x Ix Iv. apply filter_In in Ix as (_ & T). destruct (in_dec Nat.eq_dec x vs); [discriminate T|contradiction]. }
    assert (Nw : NoDup (without vs l)) by (apply NoDup_filter, Nl). revert D. generalize (without vs l) Nw. clear - Nv. intros w Nw D.
    induction w as [|a r IH]; [exact Nv|]. inversion Nw; subst. cbn. constructor.
    + rewrite in_app_iff. intros [X|X]; [contradiction|]. apply (D a); [now left|exact X].
    + apply IH; [assumption|]. intros x Ix. apply D. now right.
  - exact Nl.
  - intros x. rewrite in_app_iff. split.
    + intros [X|X]; [apply filter_In in X; tauto|now apply I].
    + intros X. destruct (in_dec Nat.eq_dec x vs) as [i|n]; [now right|left]. apply filter_In. split; [exact X|]. destruct (in_dec Nat.eq_dec x vs); [contradiction|reflexivity].
Qed.
Lemma fwd_iff evs : existsb is_fwd evs = true <-> cl_forward evs.
Proof.
  unfold cl_forward. rewrite existsb_exists. split.
  - intros (e & I & T). destruct e; try discriminate. eauto.
  - intros (t & I). exists (ClForward t). auto.
Qed.
Theorem cl_trainable_after l attrs vs centroid st evs c0 st' c : cl_fresh l attrs vs centroid -> cl_build l attrs centroid = Ok c0 -> cl_run st c0 evs = (st', c) ->
  cl_forward evs -> l_trainable (cl_layer c) = true -> Permutation (cl_trainable_weights c) (l_tracked l ++ map centroid attrs)%list /\ NoDup (cl_trainable_weights c).
Proof.
  intros Fr B R H T. destruct (cl_reach _ _ _ _ _ _ _ _ _ Fr B R) as (_ & S1 & P). destruct Fr as (F & Na & Nv & Nt & I & Nc & Fr).
  apply fwd_iff in H. rewrite H in S1. inversion S1 as [? ? ? Ea Eo Ef Et Eg]; subst.
  assert (Permutation (cl_trainable_weights c) (l_tracked l ++ map centroid (cl_attrs c))%list) as P'.
  { unfold cl_trainable_weights, layer_trainable_weights. rewrite T, Et, Eo, P, app_assoc. apply Permutation_app_tail. apply without_perm; assumption. }
  split; [exact P'|]. eapply Permutation_NoDup; [symmetry; exact P'|]. clear - Nt Nc Fr. induction (l_tracked l) as [|a r IH]; [exact Nc|]. inversion Nt; subst. cbn. constructor.
  - rewrite in_app_iff. intros [X|X]; [contradiction|]. apply in_map_iff in X as (b & <- & Ib). apply (Fr b Ib). now left.
  - apply IH; [assumption|]. intros b Ib X. apply (Fr b Ib). now right.
Qed.
Theorem cl_frozen l attrs vs centroid st evs c0 st' c : cl_fresh l attrs vs centroid -> cl_build l attrs centroid = Ok c0 -> cl_run st c0 evs = (st', c) ->
  Permutation (cl_trainable_weights (cl_set_trainable c false)) (vs ++ map centroid attrs)%list.
Proof.
  intros Fr B R. destruct (cl_reach _ _ _ _ _ _ _ _ _ Fr B R) as (_ & S1 & P). inversion S1 as [? ? ? Ea Eo Ef Et Eg]; subst.
  unfold cl_trainable_weights, layer_trainable_weights, cl_set_trainable. cbn [cl_layer cl_own l_trainable app]. rewrite Eo. exact P.
Qed.
(** ** get_weights / set_weights *)
Lemma assign_all_other st vs ws v : ~ In v vs -> assign_all st vs ws v = st v.
Proof.
  revert st ws. induction vs as [|u vs IH]; intros st ws N; [now destruct ws|]. destruct ws as [|w ws]; [reflexivity|]. cbn [assign_all]. cbn [In] in N. rewrite IH by tauto.
  destruct (Nat.eqb_spec v u); [subst; tauto|reflexivity].
Qed.
Lemma assign_all_get st vs : NoDup vs -> forall ws, List.length ws = List.length vs -> map (assign_all st vs ws) vs = ws.
Proof.
  intros Nd. revert st. induction Nd as [|v vs N Nd IH]; intros st ws L; [now destruct ws|]. destruct ws as [|w ws]; [discriminate|]. cbn [assign_all map]. f_equal.
  - rewrite assign_all_other by exact N. now rewrite Nat.eqb_refl.
  - apply IH. now injection L.
Qed.
Lemma shape_eqb_refl s : shape_eqb s s = true. Proof. unfold shape_eqb. destruct list_eq_dec; congruence. Qed.
(** Restoring a snapshot, as long as the layer tracks the same variables and shapes have not changed. *)
Theorem snapshot_restored st st' l l' : NoDup (l_tracked l) -> l_tracked l' = l_tracked l -> (forall v, In v (l_tracked l) -> shape (st' v) = shape (st v)) ->
  exists st'', layer_set_weights st' l' (layer_get_weights st l) = Ok st'' /\ (forall v, In v (l_tracked l) -> st'' v = st v) /\ (forall v, ~ In v (l_tracked l) -> st'' v = st' v).
Proof.
  intros Nd E Sh. unfold layer_set_weights, layer_get_weights. rewrite E, map_length, Nat.eqb_refl. cbn [negb].
  assert (existsb (fun p => negb (shape_eqb (shape (st' (fst p))) (shape (snd p)))) (combine (l_tracked l) (map st (l_tracked l))) = false) as ->.
  { apply not_true_iff_false. intros T. apply existsb_exists in T as ((v & w) & I & T). cbn [fst snd] in T.
    assert (w = st v /\ In v (l_tracked l)) as (-> & Iv).
    { clear - I. induction (l_tracked l) as [|a r IH]; [destruct I|]. cbn [combine map In] in I. destruct I as [X|I]; [injection X as <- <-; split; [reflexivity|now left]|]. destruct (IH I). split; [assumption|now right]. }
    rewrite (Sh v Iv), shape_eqb_refl in T. discriminate. }
  eexists. split; [reflexivity|]. split; [|intros v N; now apply assign_all_other]. intros v I.
  pose proof (assign_all_get st' (l_tracked l) Nd (map st (l_tracked l)) (map_length _ _)) as G.
  apply In_nth_error in I as (i & Ei). pose proof (f_equal (fun x => nth_error x i) G) as G'. cbn beta in G'. rewrite !(map_nth_error _ _ _ Ei) in G'. now injection G'.
Qed.
Theorem cl_snapshot_fails l attrs vs centroid st evs c0 st' c : cl_fresh l attrs vs centroid -> vs <> [] -> cl_build l attrs centroid = Ok c0 -> cl_run st c0 evs = (st', c) ->
  cl_forward evs -> layer_set_weights st' (cl_layer c) (layer_get_weights st l) = Err ValueError.
Proof.
  intros Fr N B R H. destruct (cl_reach _ _ _ _ _ _ _ _ _ Fr B R) as (_ & S1 & P). destruct Fr as (F & Na & Nv & Nt & I & Nc & Fr).
  apply fwd_iff in H. rewrite H in S1. inversion S1 as [? ? ? Ea Eo Ef Et Eg]; subst. unfold layer_set_weights, layer_get_weights. rewrite Et, map_length.
  pose proof (Permutation_length (without_perm vs (l_tracked l) Nv Nt I)) as L. rewrite app_length in L. destruct vs as [|v vs]; [congruence|]. cbn [List.length] in L.
  destruct (Nat.eqb_spec (List.length (l_tracked l)) (List.length (without (v :: vs) (l_tracked l)))); [lia|reflexivity].
Qed.
Theorem cl_snapshot_kernel l attrs vs centroid st0 evs c0 st c evs' st' c' : cl_fresh l attrs vs centroid -> cl_build l attrs centroid = Ok c0 -> cl_run st0 c0 evs = (st, c) ->
  cl_forward evs -> cl_run st c evs' = (st', c') -> forall st'', layer_set_weights st' (cl_layer c') (layer_get_weights st (cl_layer c)) = Ok st'' ->
  forall v, In v vs -> st'' v = st' v.
Proof.
  intros Fr B R H R' st'' S1 v I. destruct (cl_reach _ _ _ _ _ _ _ _ _ Fr B R) as (_ & C1 & P). destruct Fr as (F & Na & Nv & Nt & Ii & Nc & Fr).
  apply fwd_iff in H. rewrite H in C1. destruct (cl_run_state l attrs vs c0 Na evs' true _ st c st' c' C1 R') as (_ & C2). cbn [orb] in C2.
  inversion C2 as [? ? ? Ea Eo Ef Et Eg]; subst. unfold layer_set_weights in S1.
  destruct (negb (Nat.eqb (List.length (layer_get_weights st (cl_layer c))) (List.length (l_tracked (cl_layer c'))))); [discriminate S1|].
  match type of S1 with (if ?b then _ else _) = _ => destruct b; [discriminate S1|] end. injection S1 as <-. apply assign_all_other. rewrite Et.
  intros X. apply filter_In in X as (_ & T). destruct (in_dec Nat.eq_dec v vs); [discriminate T|contradiction].
Qed.
