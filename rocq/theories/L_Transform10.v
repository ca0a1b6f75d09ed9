(** How the layers of a match are connected in the model. *)
From Coq Require Import String.
From Verif Require Import Base M_Tensor M_Transform S_Transform L_Transform.
Open Scope string_scope.
Open Scope nat_scope.

Lemma previous_split l : forall ls n, previous l ls = [n] -> exists pre a b post, ls = (pre ++ a :: b :: post)%list /\ lc_name a = n /\ lc_name b = lc_name l.
Proof.
  induction ls as [|a ls IH]; intros n H; [discriminate|]. destruct ls as [|b ls]; [discriminate|]. cbn [previous] in H.
  destruct (String.eqb_spec (lc_name b) (lc_name l)) as [E|E].
  - injection H as <-. exists [], a, b, ls. auto.
  - destruct (IH n H) as (pre & x & y & post & Q & A & B). exists (a :: pre), x, y, post. rewrite Q. auto.
Qed.
Lemma previous_len l ls : previous l ls = [] \/ exists n, previous l ls = [n].
Proof. induction ls as [|a [|b ls] IH]; [auto|auto|]. cbn [previous] in *. destruct (String.eqb _ _); eauto. Qed.
Lemma name_inj ls (a b : layerc) : NoDup (map lc_name ls) -> In a ls -> In b ls -> lc_name a = lc_name b -> a = b.
Proof.
  induction ls as [|x ls IH]; [intros _ []|]. cbn [map]. intros N. inversion N as [|? ? N1 N2]; subst. intros [-> | A] [-> | B] E; auto.
  - exfalso. apply N1. rewrite E. now apply in_map. - exfalso. apply N1. rewrite <- E. now apply in_map.
Qed.
Lemma filter_one (n : string) : forall ls (a : layerc), NoDup (map lc_name ls) -> In a ls -> lc_name a = n -> filter (fun l => inb (lc_name l) [n]) ls = [a].
Proof.
  assert (Z : forall ls, ~ In n (map lc_name ls) -> filter (fun l => inb (lc_name l) [n]) ls = []).
  { induction ls as [|x ls IH]; intros N; [reflexivity|]. cbn [filter map In] in *. destruct (inb (lc_name x) [n]) eqn:E; [|apply IH; tauto].
    apply inb_In in E. destruct E as [E|[]]. exfalso. apply N. auto. }
  induction ls as [|x ls IH]; intros a N I1 E; [destruct I1|]. cbn [map] in N. inversion N as [|? ? N1 N2]; subst. cbn [filter]. destruct I1 as [-> | I1].
  - assert (inb (lc_name a) [lc_name a] = true) as -> by (apply inb_In; now left). now rewrite Z.
  - destruct (inb (lc_name x) [lc_name a]) eqn:F; [|apply IH; auto]. apply inb_In in F. destruct F as [F|[]]. exfalso. apply N1. rewrite <- F. now apply in_map.
Qed.
Lemma connected k st p matched m x : NoDup (names st) -> find_pattern k st p matched = Ok (Some m) -> node_in x m -> n_inputs x <> [] ->
  match k with
  | Functional => exists cs rest, lc_inbound (n_layer x) = cs :: rest /\
      in_model_order st (map n_layer (n_inputs x)) /\ forall l, In l (map n_layer (n_inputs x)) <-> In l (s_layers st) /\ In (lc_name l) (map c_name cs)
  | Sequential => exists a pre post, n_inputs x = [a] /\ s_layers st = (pre ++ n_layer a :: n_layer x :: post)%list
  end.
Proof.
  intros N F X I1. apply find_pattern_tree in F as [M _]. destruct (mtree_in _ _ _ _ M x X) as (hd & T). inversion T as [? ? G D A]; subst.
  destruct D as [D|(inames & D & E)]; [contradiction|]. destruct k.
  - unfold input_layer_names in D. destruct (lc_inbound (n_layer x)) as [|cs rest]; [discriminate|]. injection D as <-. exists cs, rest. split; [reflexivity|].
    rewrite E. unfold get_layers. split; [eexists; reflexivity|]. intros l. rewrite filter_In. rewrite inb_In. tauto.
  - unfold input_layer_names in D. destruct (s_layers st) as [|l0 ls] eqn:L.
    { injection D as <-. unfold get_layers in E. rewrite L in E. destruct (n_inputs x); [contradiction|discriminate]. }
    destruct (String.eqb (lc_name l0) (lc_name (n_layer x))).
    { injection D as <-. unfold get_layers in E. assert (filter (fun l => inb (lc_name l) []) (s_layers st) = []) as Z by (clear; induction (s_layers st); cbn; auto).
      rewrite Z in E. destruct (n_inputs x); [contradiction|discriminate]. }
    apply (f_equal (fun r => match r with Ok v => v | Err _ => inames end)) in D. cbv beta iota in D. destruct (previous_len (n_layer x) (l0 :: ls)) as [P|[n P]]; rewrite P in *; subst inames.
    { unfold get_layers in E. assert (filter (fun l => inb (lc_name l) []) (s_layers st) = []) as Z by (clear; induction (s_layers st); cbn; auto).
      rewrite Z in E. destruct (n_inputs x); [contradiction|discriminate]. }
    apply previous_split in P as (pre & a & b & post & Q & An & Bn). unfold names in N. unfold get_layers in E. rewrite L, Q in *.
    rewrite (filter_one n _ a) in E; auto; [|rewrite in_app_iff; right; now left].
    destruct (n_inputs x) as [|y [|? ?]]; try discriminate. injection E as E. exists y, pre, post. split; [reflexivity|]. rewrite E. do 3 f_equal.
    apply (name_inj (pre ++ a :: b :: post)); auto; [rewrite in_app_iff; right; right; now left|].
    destruct (mtree_good _ _ _ _ x M X) as (h & Gx & _). rewrite L in Gx. exact Gx.
Qed.

(** A replacement needs as many input positions as its match. *)
From Verif Require Import L_Transform4 L_Transform9.
Lemma leaves_assign n : List.length (leaf_layers (assign_inbounds n)) = List.length (leaf_layers n).
Proof.
  induction n as [l w nw m ins IH] using node_ind'. destruct ins as [|a r]; [reflexivity|].
  change (assign_inbounds (Node l w nw m (a :: r))) with (Node (set_inbound l [map (fun i => mkConn (n_name i) 0 0 []) (a :: r)]) w nw m (map assign_inbounds (a :: r))).
  cbn [map]. rewrite !leaf_count_cons. cbn [map list_sum fold_right]. inversion IH as [|? ? A B]; subst. f_equal; [exact A|]. rewrite map_map. f_equal. apply map_ext_in.
  intros x X. rewrite Forall_forall in B. now apply B.
Qed.
Lemma leaf_mismatch meq ts st0 s t m r : about_to_replace meq Functional ts st0 s t m r -> ~ same_node meq m r ->
  List.length (leaf_layers m) <> List.length (leaf_layers r) -> step meq Functional ts s = Failed RuntimeError.
Proof.
  intros A N L. destruct (step_replacement _ _ _ _ _ _ _ _ A) as (_ & _ & E). apply E; auto. cbn [replace]. unfold replace_functional.
  rewrite map_length, leaves_assign. apply Nat.eqb_neq in L. now rewrite L.
Qed.
