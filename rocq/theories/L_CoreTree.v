(** Encoder trees read their dictionaries by key. *)
From Coq Require Import Lia.
From Verif Require Import Base M_Encoder M_Dicts S_Dicts M_Gather S_Gather M_CoreTree S_CoreTree L_Encoder L_Dicts.

(** ** Loops over dictionaries *)
Lemma dget_kmap {A B} (g : string -> A -> B) d k : dget k (kmap g d) = option_map (g k) (dget k d).
Proof. induction d as [|[k' a] d IH]; [reflexivity|]. cbn. destruct (String.eqb_spec k k') as [<-|]; auto. Qed.
Lemma dkeys_kmap {A B} (g : string -> A -> B) d : dkeys (kmap g d) = dkeys d.
Proof. unfold dkeys. induction d as [|[k' a] d IH]; cbn; congruence. Qed.
Lemma kmapM_kmap {A B C} (f : string -> B -> res C) (g : string -> A -> B) d : kmapM f (kmap g d) = kmapM (fun k a => f k (g k a)) d.
Proof. induction d as [|[k a] d IH]; [reflexivity|]. cbn. now rewrite IH. Qed.
Lemma kmap_kmap {A B C} (f : string -> B -> C) (g : string -> A -> B) d : kmap f (kmap g d) = kmap (fun k a => f k (g k a)) d.
Proof. induction d as [|[k a] d IH]; [reflexivity|]. cbn. now rewrite IH. Qed.
Lemma kmapM_keys {A B} (f : string -> A -> res B) d r : kmapM f d = Ok r -> dkeys r = dkeys d.
Proof.
  revert r; induction d as [|[k a] d IH]; cbn; intros r H; [now injection H as <-|]. destruct (f k a) as [b|]; [|discriminate]. cbn [bind] in H. destruct (kmapM f d) as [r'|]; [|discriminate]. injection H as <-.
  unfold dkeys in *. cbn. f_equal. now apply IH.
Qed.
Lemma kmapM_get {A B} (f : string -> A -> res B) d r : kmapM f d = Ok r -> forall k, match dget k d with Some a => exists b, f k a = Ok b /\ dget k r = Some b | None => dget k r = None end.
Proof.
  revert r; induction d as [|[k' a] d IH]; cbn; intros r H k; [now injection H as <-|]. destruct (f k' a) as [b|] eqn:E; [|discriminate]. cbn [bind] in H. destruct (kmapM f d) as [r'|]; [|discriminate]. injection H as <-. cbn.
  destruct (String.eqb_spec k k') as [->|]; [eauto|]. now apply IH.
Qed.
Lemma get_in {A} (d : dict A) k a : NoDup (dkeys d) -> In (k, a) d -> dget k d = Some a.
Proof. intros N H. now apply dget_nodup. Qed.
Lemma get_in_inv {A} (d : dict A) k a : dget k d = Some a -> In (k, a) d.
Proof. apply dget_in. Qed.
Lemma get_key {A} (d : dict A) k : In k (dkeys d) <-> exists a, dget k d = Some a.
Proof.
  split.
  - induction d as [|[k' a] d IH]; [intros []|]. cbn. intros [->|H]; [rewrite String.eqb_refl; eauto|]. destruct (String.eqb k k'); eauto.
  - intros [a H]. apply dget_in in H. now apply (in_map fst) in H.
Qed.
Lemma kmapM_ok {A B} (f : string -> A -> res B) d : NoDup (dkeys d) -> (forall k a, dget k d = Some a -> exists b, f k a = Ok b) -> exists r, kmapM f d = Ok r.
Proof.
  induction d as [|[k a] d IH]; cbn; intros N H; [eauto|]. inversion N as [|? ? N1 N2]; subst. destruct (H k a) as [b E]; [now rewrite String.eqb_refl|]. rewrite E. cbn [bind].
  destruct IH as [r ->]; [exact N2| |cbn [bind]; eauto]. intros k2 a2 G. apply H. destruct (String.eqb_spec k2 k) as [->|]; [|exact G]. destruct N1. apply get_key. eauto.
Qed.
Lemma kmapM_bad {A B} (f : string -> A -> res B) d e : kmapM f d = Err e -> exists k a e', dget k d = Some a /\ f k a = Err e' \/ In (k, a) d /\ f k a = Err e'.
Proof.
  induction d as [|[k a] d IH]; cbn; [discriminate|]. destruct (f k a) as [b|e'] eqn:E; cbn [bind]; [|intros _; exists k, a, e'; right; auto].
  destruct (kmapM f d) as [r|]; [discriminate|]. intros H. destruct (IH H) as (k2 & a2 & e2 & [[G F]|[G F]]); exists k2, a2, e2; right; (split; [right|exact F]); [now apply dget_in|exact G].
Qed.
Lemma kmapM_err {A B} (f : string -> A -> res B) d e : NoDup (dkeys d) -> kmapM f d = Err e -> exists k a e', dget k d = Some a /\ f k a = Err e'.
Proof. intros N H. destruct (kmapM_bad _ _ _ H) as (k & a & e' & [[G F]|[G F]]); exists k, a, e'; split; auto. now apply get_in. Qed.

Definition orel {A B} (R : A -> B -> Prop) (x : option A) (y : option B) : Prop := match x, y with Some a, Some b => R a b | None, None => True | _, _ => False end.
Lemma items_iff {A B} (R : A -> B -> Prop) d d' : items R d d' <-> NoDup (dkeys d) /\ NoDup (dkeys d') /\ forall k, orel R (dget k d) (dget k d').
Proof. reflexivity. Qed.
Lemma both_kmapM {A A' B B'} (R : A -> A' -> Prop) (Q : B -> B' -> Prop) f f' d d' :
  items R d d' -> (forall k a a', dget k d = Some a -> dget k d' = Some a' -> R a a' -> match f k a, f' k a' with Ok b, Ok b' => Q b b' | Err _, Err _ => True | _, _ => False end) ->
  match kmapM f d, kmapM f' d' with Ok r, Ok r' => items Q r r' | Err _, Err _ => True | _, _ => False end.
Proof.
  intros (N & N' & G) H. destruct (kmapM f d) as [r|e] eqn:E, (kmapM f' d') as [r'|e'] eqn:E'; auto.
  - split; [now rewrite (kmapM_keys _ _ _ E)|]. split; [now rewrite (kmapM_keys _ _ _ E')|]. intros k. pose proof (kmapM_get _ _ _ E k) as X. pose proof (kmapM_get _ _ _ E' k) as X'. specialize (G k).
    destruct (dget k d) as [a|] eqn:D, (dget k d') as [a'|] eqn:D'; cbn in G; try tauto.
    + destruct X as (b & F & ->), X' as (b' & F' & ->). specialize (H k a a' D D' G). now rewrite F, F' in H.
    + now rewrite X, X'.
  - destruct (kmapM_err _ _ _ N' E') as (k & a' & e2 & D' & F'). specialize (G k). rewrite D' in G. destruct (dget k d) as [a|] eqn:D; [|destruct G]. specialize (H k a a' D D' G).
    pose proof (kmapM_get _ _ _ E k) as X. rewrite D in X. destruct X as (b & F & _). now rewrite F, F' in H.
  - destruct (kmapM_err _ _ _ N E) as (k & a & e2 & D & F). specialize (G k). rewrite D in G. destruct (dget k d') as [a'|] eqn:D'; [|destruct G]. specialize (H k a a' D D' G).
    pose proof (kmapM_get _ _ _ E' k) as X. rewrite D' in X. destruct X as (b & F' & _). now rewrite F, F' in H.
Qed.
Lemma items_kmap {A A' B B'} (R : A -> A' -> Prop) (Q : B -> B' -> Prop) g g' d d' : items R d d' -> (forall k a a', R a a' -> Q (g k a) (g' k a')) -> items Q (kmap g d) (kmap g' d').
Proof. intros (N & N' & G) H. split; [now rewrite dkeys_kmap|]. split; [now rewrite dkeys_kmap|]. intros k. rewrite !dget_kmap. specialize (G k). destruct (dget k d), (dget k d'); cbn in *; auto. Qed.

(** ** Relations between nested dictionaries, path by path *)
Section Rel.
Context {V : Type} (Q : @found V -> @found V -> Prop).
Hypothesis Q0 : Q Nothing Nothing.
Hypothesis Q1 : forall f, Q Nothing f -> f = Nothing.
Hypothesis Q2 : forall f, Q f Nothing -> f = Nothing.
Hypothesis Q3 : Q ADict ADict.
Hypothesis Q4 : forall f, Q ADict f -> f = ADict.
Definition rel (v w : dval V) : Prop := wf_dval v /\ wf_dval w /\ forall p, Q (at_path p v) (at_path p w).
Lemma at_nil (v : dval V) : at_path [] v <> Nothing. Proof. destruct v; discriminate. Qed.
Lemma rel_dict d d' : items rel d d' -> rel (DDict d) (DDict d').
Proof.
  intros (N & N' & G). split; [|split].
  - apply wf_inv. split; [exact N|]. intros k v H. apply get_in in H; [|exact N]. specialize (G k). rewrite H in G. destruct (dget k d'); [apply G|destruct G].
  - apply wf_inv. split; [exact N'|]. intros k v H. apply get_in in H; [|exact N']. specialize (G k). rewrite H in G. destruct (dget k d); [apply G|destruct G].
  - intros [|k p]; [exact Q3|]. cbn [at_path]. specialize (G k). destruct (dget k d), (dget k d'); cbn in G; try tauto. apply G.
Qed.
Lemma rel_dict_inv d v : rel (DDict d) v -> exists d', v = DDict d' /\ items rel d d'.
Proof.
  intros (W & W' & P). pose proof (P []) as P0. cbn in P0. apply Q4 in P0. destruct v as [| |d']; try discriminate. exists d'. split; [reflexivity|]. apply wf_inv in W as [N W]. apply wf_inv in W' as [N' W']. split; [exact N|]. split; [exact N'|]. intros k.
  pose proof (fun p => P (k :: p)) as Pk. cbn [at_path] in Pk. destruct (dget k d) as [a|] eqn:D, (dget k d') as [a'|] eqn:D'; [| | |exact Logic.I].
  - split; [apply (W k), dget_in, D|]. split; [apply (W' k), dget_in, D'|exact Pk].
  - specialize (Pk []). apply Q2 in Pk. now apply at_nil in Pk.
  - specialize (Pk []). apply Q1 in Pk. now apply at_nil in Pk.
Qed.
End Rel.
Lemma same_rel {V} (v w : dval V) : same v w <-> rel eq v w. Proof. reflexivity. Qed.
Lemma alike_rel {V Sp} (spec : V -> Sp) v w : alike spec v w <-> rel (like spec) v w. Proof. reflexivity. Qed.
Lemma arranged_rel {V} (v w : dval V) : arranged v w <-> rel shaped v w. Proof. reflexivity. Qed.

Lemma same_dict_ {V} (d d' : dict (dval V)) : items same d d' -> same (DDict d) (DDict d').
Proof. apply (rel_dict eq); auto. Qed.
Lemma same_dict_inv {V} (d : dict (dval V)) v : same (DDict d) v -> exists d', v = DDict d' /\ items same d d'.
Proof. apply (rel_dict_inv eq); auto. Qed.
Lemma same_py {V} (x : V) v : same (DPy x) v -> v = DPy x.
Proof. intros (_ & _ & H). specialize (H []). destruct v; cbn in H; congruence. Qed.
Lemma same_tf {V} (x : V) v : same (DTf x) v -> v = DTf x.
Proof. intros (_ & _ & H). specialize (H []). destruct v; cbn in H; congruence. Qed.
Lemma same_leaf_refl {V} (l : leaf V) : same (of_leaf l) (of_leaf l).
Proof. destruct l as [[|] x]; repeat split. Qed.
Lemma same_items_refl {A} (d : dict A) : NoDup (dkeys d) -> same_items d d.
Proof. intros N. repeat split; auto. Qed.

(** Induction on encoder trees. *)
Section Ind.
Context {V M W0 : Type}.
Fixpoint aenc_ind2 (P : aenc V M W0 -> Prop) (H : forall s kids, (forall k e, In (k, e) kids -> P e) -> P (AEnc s kids)) (e : aenc V M W0) : P e :=
  match e with AEnc s kids => H s kids ((fix go (l : dict (aenc V M W0)) : forall k e, In (k, e) l -> P e := match l with
    | [] => fun k e F => match F with end
    | (k0, c) :: r => fun k e F => match F with or_introl E => eq_ind c P (aenc_ind2 P H c) e (f_equal snd E) | or_intror F' => go r k e F' end end) kids) end.
End Ind.
