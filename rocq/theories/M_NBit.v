(** The library's QuantizeConfig objects, their registries and their serialization, for both default schemes.
    Sources: quantization/keras/default_8bit/{default_8bit_quantize_registry,default_8bit_quantize_configs}.py (below: 8/),
    quantization/keras/experimental/default_n_bit/{default_n_bit_quantize_registry,default_n_bit_quantize_configs,
    default_n_bit_quantizers,default_n_bit_transforms}.py (below: n/) and quantization/keras/quantize_config.py.
    Not modelled: RNN configs (no registered RNN cell). *)
From Coq Require Import String.
From Verif Require Import Base M_Tensor M_Quant M_Transform M_Layout8 M_QWrapper M_QuantizeApply.
Open Scope string_scope.
Open Scope nat_scope.

(** Which subclass of Default*QuantizeConfig. *)
Inductive ckind := KPlain | KConv | KTranspose.
(** A config object.  [patched]: get_output_quantizers has been replaced on the instance by "lambda layer: []".  The n-bit
    output and activation configs have no quantize_output attribute: true. *)
Inductive cobj :=
| OBase (s : scheme) (k : ckind) (weight_attrs activation_attrs : list string) (quantize_output : bool) (bw ba : nat) (patched : bool)
| OActivation (s : scheme) (quantize_output : bool) (bw ba : nat) (patched : bool)
| OOutput (s : scheme) (quantize_output : bool) (bw ba : nat) (patched : bool)
| ONoOp (patched : bool)
| OOutputOnly (inner : cobj) (patched : bool)
| OFixed (inner : cobj) (bits : nat) (lo hi : Q) (narrow : bool) (patched : bool).

(** 8/registry:296-303, 520-533; n/registry:332-337, 556-557, 572-573; n/quantizers:28-35, 59-65. *)
Definition weight_q (k : ckind) (bw : nat) : quantizer :=
  match k with
  | KPlain => LastValueQuantizer CLastValue bw false true true
  | KConv => LastValueQuantizer CConvWeights bw true true true
  | KTranspose => LastValueQuantizer CConvTransposeWeights bw false true true
  end.
Definition act_q (ba : nat) : quantizer := MovingAverageQuantizer ba false false false.
(** get_weights_and_quantizers: the attribute and its quantizer (8/registry:301-303, n/registry:339-341; the others return []). *)
Fixpoint weight_quantizers (o : cobj) : list (string * quantizer) :=
  match o with
  | OBase _ k wa _ _ bw _ _ => map (fun a => (a, weight_q k bw)) wa
  | OFixed c _ _ _ _ _ => weight_quantizers c
  | _ => []
  end.
(** get_activations_and_quantizers; quantize_config.py:217-218, 254-260. *)
Fixpoint activation_quantizers (o : cobj) : list (string * quantizer) :=
  match o with
  | OBase _ _ _ aa _ _ ba _ => map (fun a => (a, act_q ba)) aa
  | OOutputOnly c _ => activation_quantizers c
  | OFixed c bits lo hi narrow _ => map (fun p => (fst p, FixedQuantizer bits lo hi narrow)) (activation_quantizers c)
  | _ => []
  end.
(** Activation layers: 8/registry:484-504, n/registry:516-536. *)
Definition quantized_activations (s : scheme) : list string := match s with EightBit => ["relu"; "swish"; "gelu"; "relu6"] | NBit => ["relu"; "relu6"; "swish"] end.
Definition activation_outputs (s : scheme) (ba : nat) (name : option string) : res (list quantizer) :=
  match name with
  | None => Err ValueError
  | Some a => if in_set a (quantized_activations s) then Ok [act_q ba]
              else if in_set a ["linear"; "softmax"; "sigmoid"; "tanh"] then Ok [] else Err ValueError
  end.
(** get_output_quantizers(layer); [act]: layer.activation.__name__ if it has one. *)
Fixpoint output_quantizers (o : cobj) (act : option string) : res (list quantizer) :=
  match o with
  | OBase _ _ _ _ qo _ ba p => Ok (if p then [] else if qo then [act_q ba] else [])
  | OActivation s qo _ ba p => if p then Ok [] else if qo then activation_outputs s ba act else Ok []
  | OOutput _ qo _ ba p => Ok (if p then [] else if qo then [act_q ba] else [])
  | ONoOp _ => Ok []
  | OOutputOnly c p => if p then Ok [] else output_quantizers c act
  | OFixed c bits lo hi narrow p => if p then Ok [] else do l <- output_quantizers c act ;; Ok (map (fun _ => FixedQuantizer bits lo hi narrow) l)
  end.
(** 8/transforms:655-662 [_disable_output_quantize]: also quantize_output = False where there is such an attribute;
    n/transforms:709-712: only the instance's method.  [s]: the scheme of the transform. *)
Definition switch_off (s : scheme) (o : cobj) : cobj :=
  let off (q : bool) := match s with EightBit => false | NBit => q end in
  match o with
  | OBase s' k wa aa qo bw ba _ => OBase s' k wa aa (off qo) bw ba true
  | OActivation EightBit qo bw ba _ => OActivation EightBit (off qo) bw ba true
  | OActivation NBit qo bw ba _ => OActivation NBit qo bw ba true
  | OOutput EightBit qo bw ba _ => OOutput EightBit (off qo) bw ba true
  | OOutput NBit qo bw ba _ => OOutput NBit qo bw ba true
  | ONoOp _ => ONoOp true
  | OOutputOnly c _ => OOutputOnly c true
  | OFixed c b lo hi na _ => OFixed c b lo hi na true
  end.

(** ** Serialization *)
(** Values in a config dict: plain data, a serialized object {'class_name', 'config'}, or a live object. *)
Inductive sval := SStrs (l : list string) | SBool (b : bool) | SNat (n : nat) | SNum (q : Q) | SSer (class : string) (config : list (string * sval)) | SLive (o : cobj).
Definition class_name (o : cobj) : string :=
  match o with
  | OBase EightBit KPlain _ _ _ _ _ _ => "Default8BitQuantizeConfig" | OBase EightBit KConv _ _ _ _ _ _ => "Default8BitConvQuantizeConfig"
  | OBase EightBit KTranspose _ _ _ _ _ _ => "Default8BitConvTransposeQuantizeConfig"
  | OBase NBit KPlain _ _ _ _ _ _ => "DefaultNBitQuantizeConfig" | OBase NBit KConv _ _ _ _ _ _ => "DefaultNBitConvQuantizeConfig"
  | OBase NBit KTranspose _ _ _ _ _ _ => "DefaultNBitConvTransposeQuantizeConfig"
  | OActivation EightBit _ _ _ _ => "Default8BitActivationQuantizeConfig" | OActivation NBit _ _ _ _ => "DefaultNBitActivationQuantizeConfig"
  | OOutput EightBit _ _ _ _ => "Default8BitOutputQuantizeConfig" | OOutput NBit _ _ _ _ => "DefaultNBitOutputQuantizeConfig"
  | ONoOp _ => "NoOpQuantizeConfig" | OOutputOnly _ _ => "OutputOnlyConfig" | OFixed _ _ _ _ _ _ => "FixedQuantizeConfig"
  end.
(** get_config: 8/registry:353-361, 506-507; 8/configs:45-46, 68-69; n/registry:391-402, 538-542; n/configs:46-50;
    quantize_config.py:227-228, 272-279 (the serialized inner config).  OutputOnlyConfig.get_config returns the inner object
    itself; Keras' (legacy) serialize_keras_object serializes such entries too and its deserialize_keras_object restores them
    before calling from_config, so what a saved model holds is the serialized object. *)
Fixpoint to_config (o : cobj) : list (string * sval) :=
  match o with
  | OBase EightBit _ wa aa qo _ _ _ => [("weight_attrs", SStrs wa); ("activation_attrs", SStrs aa); ("quantize_output", SBool qo)]
  | OBase NBit _ wa aa qo bw ba _ =>
      [("weight_attrs", SStrs wa); ("activation_attrs", SStrs aa); ("quantize_output", SBool qo); ("num_bits_weight", SNat bw); ("num_bits_activation", SNat ba)]
  | OActivation EightBit qo _ _ _ | OOutput EightBit qo _ _ _ => [("quantize_output", SBool qo)]
  | OActivation NBit _ bw ba _ | OOutput NBit _ bw ba _ => [("num_bits_weight", SNat bw); ("num_bits_activation", SNat ba)]
  | ONoOp _ => []
  | OOutputOnly c _ => [("quantize_config", SSer (class_name c) (to_config c))]
  | OFixed c bits lo hi narrow _ =>
      [("config", SSer (class_name c) (to_config c)); ("num_bits", SNat bits); ("init_min", SNum lo); ("init_max", SNum hi); ("narrow_range", SBool narrow)]
  end.
(** cls( **config ) for the classes of quantize_scope (quantize.py:63-78): every key must be a parameter, parameters without a
    default must be given.  Value types are not checked by Python: a value of the wrong type is not modelled (TypeError). *)
Definition arg (c : list (string * sval)) (k : string) : option sval := assoc k c.
Definition only (ks : list string) (c : list (string * sval)) : bool := forallb (fun p => inb (fst p) ks) c.
Definition bool_arg (c : list (string * sval)) (k : string) (d : option bool) : res bool :=
  match arg c k with Some (SBool b) => Ok b | Some _ => Err TypeError | None => match d with Some b => Ok b | None => Err TypeError end end.
Definition nat_arg (c : list (string * sval)) (k : string) (d : option nat) : res nat :=
  match arg c k with Some (SNat b) => Ok b | Some _ => Err TypeError | None => match d with Some b => Ok b | None => Err TypeError end end.
Definition num_arg (c : list (string * sval)) (k : string) : res Q := match arg c k with Some (SNum q) => Ok q | _ => Err TypeError end.
Definition strs_arg (c : list (string * sval)) (k : string) : res (list string) := match arg c k with Some (SStrs l) => Ok l | _ => Err TypeError end.
Definition ATTRS := ["weight_attrs"; "activation_attrs"; "quantize_output"].
Definition BITS := ["num_bits_weight"; "num_bits_activation"].
Definition new_base (s : scheme) (k : ckind) (c : list (string * sval)) : res cobj :=
  if negb (only (match s with EightBit => ATTRS | NBit => (ATTRS ++ BITS)%list end) c) then Err TypeError
  else do wa <- strs_arg c "weight_attrs" ;; do aa <- strs_arg c "activation_attrs" ;; do qo <- bool_arg c "quantize_output" None ;;
       do bw <- nat_arg c "num_bits_weight" (Some 8) ;; do ba <- nat_arg c "num_bits_activation" (Some 8) ;;
       Ok (OBase s k wa aa qo bw ba false).
Definition new_small (mk : scheme -> bool -> nat -> nat -> bool -> cobj) (s : scheme) (c : list (string * sval)) : res cobj :=
  if negb (only (match s with EightBit => ["quantize_output"] | NBit => BITS end) c) then Err TypeError
  else do qo <- bool_arg c "quantize_output" (Some true) ;; do bw <- nat_arg c "num_bits_weight" (Some 8) ;;
       do ba <- nat_arg c "num_bits_activation" (Some 8) ;; Ok (mk s qo bw ba false).
(** deserialize_keras_object inside quantize_scope: class lookup, then from_config.  quantize_config.py:281-284: the inner
    config is deserialized first; a value that is not serialized is rejected by Keras (ValueError). *)
Fixpoint deserialize (v : sval) : res cobj :=
  match v with
  | SSer cls c =>
      if String.eqb cls "Default8BitQuantizeConfig" then new_base EightBit KPlain c
      else if String.eqb cls "Default8BitConvQuantizeConfig" then new_base EightBit KConv c
      else if String.eqb cls "Default8BitConvTransposeQuantizeConfig" then new_base EightBit KTranspose c
      else if String.eqb cls "DefaultNBitQuantizeConfig" then new_base NBit KPlain c
      else if String.eqb cls "DefaultNBitConvQuantizeConfig" then new_base NBit KConv c
      else if String.eqb cls "DefaultNBitConvTransposeQuantizeConfig" then new_base NBit KTranspose c
      else if String.eqb cls "Default8BitActivationQuantizeConfig" then new_small OActivation EightBit c
      else if String.eqb cls "DefaultNBitActivationQuantizeConfig" then new_small OActivation NBit c
      else if String.eqb cls "Default8BitOutputQuantizeConfig" then new_small OOutput EightBit c
      else if String.eqb cls "DefaultNBitOutputQuantizeConfig" then new_small OOutput NBit c
      else if String.eqb cls "NoOpQuantizeConfig" then (if only [] c then Ok (ONoOp false) else Err TypeError)
      else if String.eqb cls "OutputOnlyConfig" then
        let inner := (fix find (l : list (string * sval)) : res cobj :=
                        match l with
                        | [] => Err TypeError
                        | (k, v) :: r => if String.eqb k "quantize_config" then match v with SLive o => Ok o | _ => deserialize v end else find r
                        end) c in
        do o <- inner ;; if negb (only ["quantize_config"] c) then Err TypeError else Ok (OOutputOnly o false)
      else if String.eqb cls "FixedQuantizeConfig" then
        let inner := (fix find (l : list (string * sval)) : res cobj :=
                        match l with [] => Err KeyError | (k, v) :: r => if String.eqb k "config" then deserialize v else find r end) c in
        do o <- inner ;;
        if negb (only ["config"; "num_bits"; "init_min"; "init_max"; "narrow_range"] c) then Err TypeError
        else do b <- nat_arg c "num_bits" None ;; do lo <- num_arg c "init_min" ;; do hi <- num_arg c "init_max" ;; do na <- bool_arg c "narrow_range" None ;;
             Ok (OFixed o b lo hi na false)
      else Err ValueError
  | _ => Err ValueError
  end.
(** Model.from_config(model.get_config()), clone_model, and loading a saved model: what becomes of a layer's config. *)
Definition serialize (o : cobj) : sval := SSer (class_name o) (to_config o).
Definition reload (o : cobj) : res cobj := deserialize (serialize o).

(** quantize_config.py:281-284 [FixedQuantizeConfig.from_config(config)] assigns config['config'] in the dict it is given, and
    Keras does the same with the restored entry of an OutputOnlyConfig: the dict the caller holds afterwards. *)
Fixpoint set_key (k : string) (v : sval) (l : list (string * sval)) : list (string * sval) :=
  match l with [] => [(k, v)] | (k', v') :: r => if String.eqb k' k then (k, v) :: r else (k', v') :: set_key k v r end.
Definition restore (k cls : string) (c : list (string * sval)) : sval :=
  match arg c k with Some i => match deserialize i with Ok o => SSer cls (set_key k (SLive o) c) | Err _ => SSer cls c end | None => SSer cls c end.
Definition after_load (v : sval) : sval :=
  match v with
  | SSer cls c => if String.eqb cls "FixedQuantizeConfig" then restore "config" cls c
                  else if String.eqb cls "OutputOnlyConfig" then restore "quantize_config" cls c else v
  | _ => v
  end.
(** Loading from the same dict again and again. *)
Fixpoint loads (n : nat) (v : sval) : list (res cobj) := match n with O => [] | S m => deserialize v :: loads m (after_load v) end.

(** ** Registries *)
(** Class attributes of the registry's entries: 8/registry:79-169, n/registry:88-178. *)
Definition entry (cls : string) : option (list string * list string * bool) :=
  if inb cls ["ReLU"; "LeakyReLU"; "Concatenate"; "UpSampling2D"; "AveragePooling1D"; "AveragePooling2D"; "GlobalAveragePooling1D"; "GlobalAveragePooling2D";
              "GlobalAveragePooling3D"; "Add"] then Some ([], [], true)
  else if String.eqb cls "Dense" then Some (["kernel"], ["activation"], false)
  else if inb cls ["Softmax"; "Cropping1D"; "Cropping2D"; "Cropping3D"; "ZeroPadding1D"; "ZeroPadding2D"; "ActivityRegularization"; "Dropout"; "Flatten"; "Permute";
                   "Reshape"; "SpatialDropout1D"; "SpatialDropout2D"; "SpatialDropout3D"; "GlobalMaxPooling1D"; "GlobalMaxPooling2D"; "GlobalMaxPooling3D"; "MaxPooling2D"]
       then Some ([], [], false)
  else None.
(** The entries that are config objects made in __init__: 8/registry:177-197, n/registry:194-225. *)
Definition dedicated (s : scheme) (per_axis_off : bool) (bw ba : nat) (cls : string) : option cobj :=
  if String.eqb cls "Activation" then Some (OActivation s true bw ba false)
  else if String.eqb cls "Conv2DTranspose" then Some (OBase s KTranspose ["kernel"] ["activation"] false bw ba false)
  else if String.eqb cls "Conv2D" then Some (OBase s (if per_axis_off then KPlain else KConv) ["kernel"] ["activation"] false bw ba false)
  else if String.eqb cls "DepthwiseConv2D" then Some (OBase s (if per_axis_off then KPlain else KConv) ["depthwise_kernel"] ["activation"] false bw ba false)
  else None.
(** A registry object. *)
Record registry := mkReg { rg_scheme : scheme; rg_per_axis_off : bool; rg_bw : nat; rg_ba : nat }.
(** The bit widths stored in the _QuantizeInfo objects of the class attribute _LAYER_QUANTIZE_INFO, which all n-bit registries
    share (n/registry:88, 186-190); initially the defaults of n/registry:43-47. *)
Record world := mkWorld { wd_bw : nat; wd_ba : nat }.
Definition world0 := mkWorld 8 8.
Definition new_registry (w : world) (s : scheme) (per_axis_off : bool) (bw ba : nat) : world * registry :=
  match s with EightBit => (w, mkReg EightBit per_axis_off 8 8) | NBit => (mkWorld bw ba, mkReg NBit per_axis_off bw ba) end.
(** _get_quantize_config: 8/registry:239-249, n/registry:267-279. *)
Definition get_quantize_config (w : world) (r : registry) (cls : string) : res cobj :=
  match dedicated (rg_scheme r) (rg_per_axis_off r) (rg_bw r) (rg_ba r) cls with
  | Some o => Ok o
  | None =>
      match entry cls with
      | Some (wa, aa, qo) =>
          Ok (match rg_scheme r with EightBit => OBase EightBit KPlain wa aa qo 8 8 false | NBit => OBase NBit KPlain wa aa qo (wd_bw w) (wd_ba w) false end)
      | None => Err ValueError
      end
  end.
(** Any number of registries, made one after the other; the world afterwards and all of them. *)
Fixpoint make (w : world) (h : list (scheme * bool * nat * nat)) : world * list registry :=
  match h with
  | [] => (w, [])
  | (s, p, bw, ba) :: r => let '(w1, g) := new_registry w s p bw ba in let '(w2, gs) := make w1 r in (w2, g :: gs)
  end.
(** ** Which object quantize_apply hands to a wrapper: quantize.py:430-446 and the metadata set by the transforms. *)
(** A config recorded in the metadata.  The transforms' own registry is built without disable_per_axis: 8/transforms:668-669,
    n/transforms:714-718.  None: the user's own config. *)
Definition recorded (s : scheme) (w : world) (bw ba : nat) (c : qcfg) : option (res cobj) :=
  match c with
  | UserCfg _ _ => None
  | NoOpCfg => Some (Ok (ONoOp false))
  | OutputCfg d => Some (Ok (let o := OOutput s true bw ba false in if d then switch_off s o else o))
  | RegistryCfg cls d =>
      let '(w1, r) := new_registry w s false bw ba in
      Some (do o <- get_quantize_config w1 r cls ;; Ok (if d then switch_off s o else o))
  end.
(** The scheme's registry honours disable_per_axis ([p]). *)
Definition from_registry (s : scheme) (w : world) (p : bool) (bw ba : nat) (cls : string) : res cobj :=
  let '(w1, r) := new_registry w s p bw ba in get_quantize_config w1 r cls.
Definition wrapper_config (s : scheme) (w : world) (p : bool) (bw ba : nat) (st : state) (q : qlayer) : option (res cobj) :=
  match q with
  | Wrapped _ l (OutputOnly _) => Some (do o <- from_registry s w p bw ba (lc_class l) ;; Ok (OOutputOnly o false))
  | Wrapped _ l (Use c) =>
      match (match assoc (lc_name l) (s_meta st) with Some m => meta_config m | None => None end) with
      | Some c => recorded s w bw ba c
      | None => Some (from_registry s w p bw ba (lc_class l))
      end
  | _ => None
  end.
