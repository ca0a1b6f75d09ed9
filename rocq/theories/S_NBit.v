(** Specification vocabulary for QuantizeConfig objects and their registries. *)
From Coq Require Import String.
From Verif Require Import Base M_Tensor M_Quant M_Layout8 M_QWrapper M_NBit.
Open Scope string_scope.
Open Scope nat_scope.

(** What a config makes of a layer: which weights, activations and outputs get which quantizers. *)
Definition same_quantizers (a b : cobj) : Prop :=
  weight_quantizers a = weight_quantizers b /\ activation_quantizers a = activation_quantizers b /\
  forall act, output_quantizers a act = output_quantizers b act.
(** Objects as the constructors make them (8-bit classes have no bit widths; the n-bit activation and output classes no
    quantize_output). *)
Inductive constructed : cobj -> Prop :=
| con_base8 : forall k wa aa qo, constructed (OBase EightBit k wa aa qo 8 8 false)
| con_base : forall k wa aa qo bw ba, constructed (OBase NBit k wa aa qo bw ba false)
| con_act8 : forall qo, constructed (OActivation EightBit qo 8 8 false)
| con_act : forall bw ba, constructed (OActivation NBit true bw ba false)
| con_out8 : forall qo, constructed (OOutput EightBit qo 8 8 false)
| con_out : forall bw ba, constructed (OOutput NBit true bw ba false)
| con_noop : constructed (ONoOp false)
| con_only : forall o, constructed o -> constructed (OOutputOnly o false)
| con_fixed : forall o b lo hi na, constructed o -> constructed (OFixed o b lo hi na false).
(** The object has an attribute quantize_output. *)
Definition has_quantize_output (o : cobj) : Prop :=
  match o with OBase _ _ _ _ _ _ _ _ | OActivation EightBit _ _ _ _ | OOutput EightBit _ _ _ _ => True | _ => False end.
Definition survives_reload (o : cobj) : Prop := exists o', reload o = Ok o' /\ same_quantizers o' o.

(** Bits of a quantizer. *)
Definition q_bits (q : quantizer) : option nat :=
  match q with LastValueQuantizer _ b _ _ _ | MovingAverageQuantizer b _ _ _ | AllValuesQuantizer b _ _ _ | FixedQuantizer b _ _ _ => Some b | NoQuantizer => None end.
(** Weights with [bw] bits, activations and outputs with [ba] bits. *)
Definition honours (bw ba : nat) (o : cobj) : Prop :=
  (forall a q, In (a, q) (weight_quantizers o) -> q_bits q = Some bw) /\
  (forall a q, In (a, q) (activation_quantizers o) -> q_bits q = Some ba) /\
  (forall act l q, output_quantizers o act = Ok l -> In q l -> q_bits q = Some ba).
(** A request for a registry: scheme, disable_per_axis, bits. *)
Definition request := (scheme * bool * nat * nat)%type.
Definition asks (r : request) (s : scheme) (bw ba : nat) : Prop := exists p, r = (s, p, bw, ba).
(** The config for layer class [cls] that the i-th of the registries requested one after the other returns in the end. *)
Definition config_from (h : list request) (i : nat) (cls : string) : option (res cobj) :=
  let '(w, rs) := make world0 h in option_map (fun r => get_quantize_config w r cls) (nth_error rs i).
(** The quantizer keeps one range per channel. *)
Definition per_channel (q : quantizer) : Prop :=
  match q with LastValueQuantizer _ _ p _ _ | MovingAverageQuantizer _ p _ _ | AllValuesQuantizer _ p _ _ => p = true | _ => False end.
