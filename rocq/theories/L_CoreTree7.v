(** Aggregation modes of encoder trees. *)
From Coq Require Import Lia.
From Verif Require Import Base M_Encoder M_Dicts S_Dicts M_Gather S_Gather M_CoreTree S_CoreTree L_Encoder L_Dicts L_CoreTree L_CoreTree5.

Section Modes.
Context {V M W0 : Type} (is_none : V -> bool) (none : V) (shape_of : V -> V).
Notation aenc := (aenc V M W0).
Lemma modes_wf (e : aenc) : every_stage modes_match e -> wf_dval (c_modes e).
Proof.
  induction 1 as [s kids [MM _] N _ IH]. cbn [c_modes]. apply wf_inv. split; [repeat constructor; cbn; intuition discriminate|]. intros k v [Hv|[Hv|[]]]; injection Hv as <- <-; apply wf_inv; rewrite dkeys_kmap; (split; [assumption|]); intros k v Hin.
  - apply get_in in Hin; [|now rewrite dkeys_kmap]. rewrite dget_kmap in Hin. destruct (dget k kids) as [c|] eqn:D; [|discriminate]. injection Hin as <-. apply (IH k). now apply dget_in.
  - apply get_in in Hin; [|now rewrite dkeys_kmap]. rewrite dget_kmap in Hin. destruct (dget k (a_modes s)); [|discriminate]. injection Hin as <-. exact Logic.I.
Qed.
Lemma modes_py (e : aenc) : forall p m, at_path p (c_modes e) <> ATf m.
Proof.
  induction e as [s kids IH] using aenc_ind2. intros [|k p] m; [discriminate|]. cbn [c_modes at_path dget]. destruct (String.eqb k CHILDREN).
  - destruct p as [|k2 p]; [discriminate|]. cbn [at_path]. rewrite dget_kmap. destruct (dget k2 kids) as [c|] eqn:D; [|discriminate]. cbn [option_map]. apply (IH k2 c). now apply dget_in.
  - destruct (String.eqb k TENSORS); [|discriminate]. destruct p as [|k2 p]; [discriminate|]. cbn [at_path]. rewrite dget_kmap. destruct (dget k2 (a_modes s)); [|discriminate]. destruct p; discriminate.
Qed.
Lemma modes_paths (e : aenc) : every_stage modes_match e -> forall w x p enc upd sh, c_encode is_none none shape_of e w x p = Ok (enc, upd, sh) ->
  forall q, (exists m, at_path q (c_modes e) = APy m) <-> exists u, at_path q upd = ATf u.
Proof.
  induction 1 as [s kids [_ MM] N _ IH]. intros w x p enc upd sh H q. cbn [c_encode] in H. apply bind_ok in H as (p0 & _ & H). apply bind_ok in H as (p1 & _ & H). apply bind_ok in H as ([en up] & E2 & H). apply bind_ok in H as (cs & E3 & H). injection H as _ <- _.
  specialize (MM _ _ _ _ _ E2). destruct q as [|k q]; [split; intros [? X]; discriminate|]. cbn [c_modes at_path dget].
  destruct (String.eqb_spec k CHILDREN) as [->|N1]; [|destruct (String.eqb_spec k TENSORS) as [->|N2]].
  - change (String.eqb CHILDREN TENSORS) with false. cbn match. destruct q as [|k2 q]; [split; intros [? X]; discriminate|]. cbn [at_path]. rewrite !dget_kmap. pose proof (kmapM_get _ _ _ E3 k2) as G. destruct (dget k2 kids) as [c|] eqn:D.
    + destruct G as ([[e2 u2] s2] & G1 & ->). cbn [option_map fst snd]. apply bind_ok in G1 as (y & _ & G1). apply bind_ok in G1 as (pk & _ & G1). eapply (IH k2 c (dget_in _ _ _ D)). exact G1.
    + rewrite G. cbn. split; intros [? X]; discriminate.
  - destruct q as [|k2 q]; [split; intros [? X]; discriminate|]. unfold tensor_dict. cbn [at_path]. rewrite !dget_kmap. specialize (MM k2). rewrite !get_key in MM. destruct (dget k2 (a_modes s)) as [mm|], (dget k2 up) as [uu|]; cbn [option_map].
    + destruct q; cbn; split; intros [? X]; try discriminate; eauto.
    + exfalso. destruct (proj2 MM) as [? X]; [eauto|discriminate].
    + exfalso. destruct (proj1 MM) as [? X]; [eauto|discriminate].
    + split; intros [? X]; discriminate.
  - split; intros [? X]; discriminate.
Qed.
End Modes.
