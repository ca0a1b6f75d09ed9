(** Exactly which quantizers the library's configs attach. *)
From Coq Require Import String.
From Verif Require Import Base M_Tensor M_Quant M_Transform M_Layout8 M_QWrapper M_QuantizeApply M_NBit S_Transform S_Layout8 S_QuantizeApply S_NBit L_Transform L_QuantizeApply L_NBit.
Open Scope string_scope.
Open Scope nat_scope.

Lemma registry_all s w p bw ba cls o : (s = EightBit -> bw = 8 /\ ba = 8) -> from_registry s w p bw ba cls = Ok o ->
  map fst (weight_quantizers o) = registry_weight_attrs cls /\
  (forall a q, In (a, q) (weight_quantizers o) -> exists c, q = LastValueQuantizer c bw (match p with true => false | false => inb cls ["Conv2D"; "DepthwiseConv2D"] end) true true) /\
  activation_quantizers o = (if inb cls ["Dense"; "Conv2D"; "DepthwiseConv2D"; "Conv2DTranspose"] then [("activation", MovingAverageQuantizer ba false false false)] else []) /\
  (cls <> "Activation" -> forall act, output_quantizers o act = Ok (if registry_quantizes_output cls then [MovingAverageQuantizer ba false false false] else [])).
Proof.
  intros B. unfold from_registry, get_quantize_config, dedicated.
  assert (R : new_registry w s p bw ba = (match s with EightBit => w | NBit => mkWorld bw ba end, mkReg s p bw ba)).
  { destruct s; cbn; auto. destruct (B eq_refl) as [-> ->]. reflexivity. }
  rewrite R. cbn [rg_scheme rg_per_axis_off rg_bw rg_ba].
  destruct (String.eqb_spec cls "Activation") as [->|NA].
  { intros [= <-]. cbn. split; auto. split; [intros ? ? []|]. split; [reflexivity|congruence]. }
  destruct (String.eqb_spec cls "Conv2DTranspose") as [->|N1].
  { intros [= <-]. cbn. split; auto. split; [intros a q [[= <- <-]|[]]; destruct p; eauto|]. split; [reflexivity|auto]. }
  destruct (String.eqb_spec cls "Conv2D") as [->|N2].
  { intros [= <-]. cbn. split; auto. split; [intros a q [[= <- <-]|[]]; destruct p; cbn; eauto|]. split; [reflexivity|auto]. }
  destruct (String.eqb_spec cls "DepthwiseConv2D") as [->|N3].
  { intros [= <-]. cbn. split; auto. split; [intros a q [[= <- <-]|[]]; destruct p; cbn; eauto|]. split; [reflexivity|auto]. }
  destruct (entry cls) as [[[wa aa] qo]|] eqn:E; [|discriminate]. intros H.
  assert (O : exists s', o = OBase s' KPlain wa aa qo bw ba false) by (destruct s; [destruct (B eq_refl) as [-> ->]|]; cbn in H; injection H as <-; eauto).
  destruct O as [s' ->]. clear H R.
  assert (C : registry_weight_attrs cls = wa /\ aa = (if inb cls ["Dense"; "Conv2D"; "DepthwiseConv2D"; "Conv2DTranspose"] then ["activation"] else []) /\ registry_quantizes_output cls = qo /\ inb cls ["Conv2D"; "DepthwiseConv2D"] = false).
  { assert (Z : inb cls ["Conv2D"; "DepthwiseConv2D"] = false) by (apply inb_false; intros [<-|[<-|[]]]; congruence).
    unfold entry in E. destruct (inb cls ["ReLU"; "LeakyReLU"; "Concatenate"; "UpSampling2D"; "AveragePooling1D"; "AveragePooling2D"; "GlobalAveragePooling1D"; "GlobalAveragePooling2D"; "GlobalAveragePooling3D"; "Add"]) eqn:I1.
    { injection E as <- <- <-. apply inb_In in I1. cbn [In] in I1. repeat destruct I1 as [<-|I1]; try destruct I1; repeat split; reflexivity. }
    destruct (String.eqb_spec cls "Dense") as [->|ND]; [injection E as <- <- <-; repeat split; reflexivity|].
    destruct (inb cls _) eqn:I2 in E; [|discriminate]. injection E as <- <- <-. apply inb_In in I2. cbn [In] in I2. repeat destruct I2 as [<-|I2]; try destruct I2; repeat split; reflexivity. }
  destruct C as (C1 & C2 & C3 & C4). cbn [weight_quantizers activation_quantizers output_quantizers]. split; [|split; [|split]].
  - rewrite map_map. cbn [fst]. rewrite map_id. congruence.
  - intros a q I. apply in_map_iff in I as (x & [= <- <-] & _). rewrite C4. cbn. destruct p; eauto.
  - rewrite C2. destruct (inb cls ["Dense"; "Conv2D"; "DepthwiseConv2D"; "Conv2DTranspose"]); reflexivity.
  - intros _ act. rewrite C3. destruct qo; reflexivity.
Qed.
Lemma off_outputs s o act : output_quantizers (switch_off s o) act = Ok [].
Proof. apply switch_outputs. Qed.

(** The layer-wise meaning of [quantizes_output] and [quantized_weights]. *)
Lemma wrapped_means sch gen ik ueq n prefix already m ls st : quantize_apply sch gen ik ueq n prefix already m = Some (Ok (ls, st)) ->
  forall w p bw ba nm l u o, (sch = EightBit -> bw = 8 /\ ba = 8) -> In (Wrapped nm l u) ls -> (forall d, u <> Use (RegistryCfg "Activation" d) /\ u <> OutputOnly (RegistryCfg "Activation" d)) ->
  wrapper_config sch w p bw ba st (Wrapped nm l u) = Some (Ok o) ->
  (forall act b, quantizes_output u = Some b -> output_quantizers o act = Ok (if b then [MovingAverageQuantizer ba false false false] else [])) /\
  (forall ws, quantized_weights u = Some ws -> map fst (weight_quantizers o) = ws).
Proof.
  intros Q w p bw ba nm l u o B I NA W. destruct (apply_inv m sch gen ik ueq n prefix already ls st Q) as (_ & _ & _ & F).
  assert (K : exists l0, (if String.eqb (lc_class l0) "InputLayer" then Ok (Unwrapped l0) else quantize prefix already (fun n0 => List.length (consuming_layers st n0)) (s_meta st) (requires_output_quantize m) l0) = Ok (Wrapped nm l u)).
  { clear -F I. induction F as [|x y r t H F IH]; [destruct I|]. destruct I as [->|I]; eauto. }
  destruct K as (l0 & K). destruct (String.eqb (lc_class l0) "InputLayer"); [discriminate|]. unfold quantize in K. destruct (String.eqb (lc_class l0) "QuantizeLayer").
  { destruct (1 <? _); [discriminate|]. destruct (assoc (lc_name l0) (s_meta st)) as [mm|]; [destruct (m_cfg mm)|]; discriminate. }
  destruct ((negb match assoc (lc_name l0) (s_meta st) with Some _ => true | None => false end && negb (inb (lc_name l0) (requires_output_quantize m))) || already (lc_name l0))%bool; [discriminate|].
  destruct (inb (lc_name l0) (requires_output_quantize m)).
  { destruct (supports l0); [|discriminate]. injection K as <- <- <-. cbn [wrapper_config] in W. destruct (from_registry sch w p bw ba (lc_class l0)) as [o1|] eqn:R; [|discriminate]. cbn [bind] in W. injection W as <-.
    apply registry_all in R; auto. destruct R as (_ & _ & _ & R). split.
    - intros act b QO. cbn [output_quantizers]. unfold registry_config in *. cbn [quantizes_output negb andb] in QO. injection QO as <-. apply R. intros E. destruct (NA false) as [_ N]. apply N. now rewrite E.
    - intros ws [= <-]. reflexivity. }
  destruct (match assoc (lc_name l0) (s_meta st) with Some m0 => meta_config m0 | None => None end) as [c|] eqn:M.
  - injection K as <- <- <-. cbn [wrapper_config] in W. rewrite M in W. destruct c as [i d| |d|cls d]; cbn [recorded] in W.
    + discriminate.
    + injection W as <-. split; [intros act b [= <-]; reflexivity|intros ws [= <-]; reflexivity].
    + injection W as <-. destruct d; (split; [intros act b [= <-]|intros ws [= <-]]); destruct sch; reflexivity.
    + destruct (new_registry w sch false bw ba) as [w1 r] eqn:NR. destruct (get_quantize_config w1 r cls) as [o1|] eqn:G; [|discriminate]. cbn [bind] in W.
      assert (R : from_registry sch w false bw ba cls = Ok o1) by (unfold from_registry; now rewrite NR). apply registry_all in R; auto. destruct R as (R1 & _ & _ & R4).
      assert (CA : cls <> "Activation") by (intros ->; destruct (NA d) as [N _]; now apply N). injection W as <-. destruct d; split.
      * intros act b [= <-]. apply switch_outputs.
      * intros ws [= <-]. rewrite switch_weights. exact R1.
      * intros act b [= <-]. cbn [negb andb]. now apply R4.
      * intros ws [= <-]. exact R1.
  - destruct (supports l0); [|discriminate]. injection K as <- <- <-. cbn [wrapper_config] in W. rewrite M in W. injection W as R. apply registry_all in R; auto. destruct R as (R1 & _ & _ & R4). split.
    + intros act b QO. unfold registry_config in *. cbn [quantizes_output negb andb] in QO. injection QO as <-. apply R4. intros E. destruct (NA false) as [N _]. apply N. now rewrite E.
    + intros ws [= <-]. exact R1.
Qed.
