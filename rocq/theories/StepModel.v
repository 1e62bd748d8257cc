(* The list of render steps of a configuration and the calls that change it.

   Models xsd-parser/src/config/renderer.rs and the with_render_step family of
   xsd-parser/src/config/mod.rs. *)
From Coq Require Import List Bool Arith.
From Verif Require Import Base.
Import ListNotations.

(* The types of the crate and of its user that implement the trait of a render
   step, as the type ids of the program tell them apart:
   xsd-parser/src/pipeline/renderer/mod.rs:43-49. [ROwn n] is the n-th type
   that a user wrote. *)
Inductive rid : Type :=
| RTypes | RSerdeV7 | RSerdeV8 | RSerdeQuickXml | RDefaults | RNamespaceConst
| REnumConst | RPrefixConst | RWithNamespace | RSerialize | RDeserialize
| RCollect | RHelpers
| ROwn (n : nat).

(* derived equality of TypeId *)
Definition rid_eqb (a b : rid) : bool :=
  match a, b with
  | RTypes, RTypes | RSerdeV7, RSerdeV7 | RSerdeV8, RSerdeV8
  | RSerdeQuickXml, RSerdeQuickXml | RDefaults, RDefaults
  | RNamespaceConst, RNamespaceConst | REnumConst, REnumConst
  | RPrefixConst, RPrefixConst | RWithNamespace, RWithNamespace
  | RSerialize, RSerialize | RDeserialize, RDeserialize | RCollect, RCollect
  | RHelpers, RHelpers => true
  | ROwn n, ROwn m => Nat.eqb n m
  | _, _ => false
  end.

(* RenderStepType, xsd-parser/src/pipeline/renderer/mod.rs:297-316 *)
Inductive kind : Type := KTypes | KExtraTypes | KExtraImpls | KUndefined.

(* RenderStepType::is_mutual_exclusive_to,
   xsd-parser/src/pipeline/renderer/mod.rs:318-324 *)
Definition kind_excl (a b : kind) : bool :=
  match a, b with KTypes, KTypes => true | _, _ => false end.

(* SerdeXmlRsVersion, xsd-parser/src/config/renderer.rs:405-413 *)
Inductive version : Type := V7 | V8.

(* NamespaceSerialization,
   xsd-parser/src/pipeline/renderer/steps/quick_xml/serialize.rs:49-69 *)
Inductive nsser : Type := NsNone | NsLocal | NsGlobal | NsDynamic.

(* derived PartialEq of NamespaceSerialization *)
Definition nsser_eqb (a b : nsser) : bool :=
  match a, b with
  | NsNone, NsNone | NsLocal, NsLocal | NsGlobal, NsGlobal | NsDynamic, NsDynamic => true
  | _, _ => false
  end.

(* enum RenderStep, xsd-parser/src/config/renderer.rs:140-200. A namespace is a
   number. *)
Inductive builtin : Type :=
| Types
| TypesSerdeXmlRs (v : version)
| TypesSerdeQuickXml
| Defaults
| NamespaceConstants
| EnumConstants
| PrefixConstants
| WithNamespaceTrait
| QuickXmlSerialize (n : nsser) (d : option nat)
| QuickXmlDeserialize (boxed : bool)
| QuickXmlCollectNamespaces
| ContentHelpers.

(* Box<dyn RenderStepConfig>: a value of the enum above, or a render step that
   is used as its own configuration (renderer.rs:233-249). [k] is what such a
   step answers when it is asked for its type and [s] stands for its fields.
   Simplification: types that implement RenderStepConfig by hand, with a
   different is_mutual_exclusive_to, are left out. *)
Inductive config : Type :=
| Named (b : builtin)
| Own (r : rid) (k : kind) (s : nat).

(* render_step_type of the enum, renderer.rs:252-267 *)
Definition builtin_kind (b : builtin) : kind :=
  match b with
  | Types => KTypes
  | TypesSerdeXmlRs _ => KTypes
  | TypesSerdeQuickXml => KTypes
  | Defaults => KExtraImpls
  | EnumConstants => KExtraImpls
  | PrefixConstants => KExtraImpls
  | NamespaceConstants => KExtraImpls
  | WithNamespaceTrait => KExtraImpls
  | QuickXmlSerialize _ _ => KExtraImpls
  | QuickXmlDeserialize _ => KExtraImpls
  | QuickXmlCollectNamespaces => KExtraImpls
  | ContentHelpers => KExtraImpls
  end.

(* render_step_type, renderer.rs:217-220, 237-239 *)
Definition kind_of (c : config) : kind :=
  match c with Named b => builtin_kind b | Own _ k _ => k end.

(* into_render_step of the enum, renderer.rs:273-308 *)
Definition builtin_step (b : builtin) : rid :=
  match b with
  | Types => RTypes
  | TypesSerdeXmlRs V7 => RSerdeV7
  | TypesSerdeXmlRs V8 => RSerdeV8
  | TypesSerdeQuickXml => RSerdeQuickXml
  | Defaults => RDefaults
  | EnumConstants => REnumConst
  | PrefixConstants => RPrefixConst
  | NamespaceConstants => RNamespaceConst
  | WithNamespaceTrait => RWithNamespace
  | QuickXmlSerialize _ _ => RSerialize
  | QuickXmlDeserialize _ => RDeserialize
  | QuickXmlCollectNamespaces => RCollect
  | ContentHelpers => RHelpers
  end.

(* into_render_step, renderer.rs:214-215, 245-247: the step that runs *)
Definition step_of (c : config) : rid :=
  match c with Named b => builtin_step b | Own r _ _ => r end.

(* type_id(): None is the enum itself *)
Definition type_id (c : config) : option rid :=
  match c with Named _ => None | Own r _ _ => Some r end.

(* the arms (Self::X, Some(Self::X)) of renderer.rs:330-341. There is none for
   ContentHelpers. *)
Definition same_variant (a b : builtin) : bool :=
  match a, b with
  | Types, Types => true
  | TypesSerdeXmlRs _, TypesSerdeXmlRs _ => true
  | TypesSerdeQuickXml, TypesSerdeQuickXml => true
  | Defaults, Defaults => true
  | NamespaceConstants, NamespaceConstants => true
  | EnumConstants, EnumConstants => true
  | PrefixConstants, PrefixConstants => true
  | WithNamespaceTrait, WithNamespaceTrait => true
  | QuickXmlSerialize _ _, QuickXmlSerialize _ _ => true
  | QuickXmlDeserialize _, QuickXmlDeserialize _ => true
  | QuickXmlCollectNamespaces, QuickXmlCollectNamespaces => true
  | _, _ => false
  end.

(* the arms (Self::X, None) of renderer.rs:342-376 *)
Definition same_struct (a : builtin) (other_id : rid) : bool :=
  match a with
  | Types => rid_eqb other_id RTypes
  | TypesSerdeXmlRs V7 => rid_eqb other_id RSerdeV7
  | TypesSerdeXmlRs V8 => rid_eqb other_id RSerdeV8
  | TypesSerdeQuickXml => rid_eqb other_id RSerdeQuickXml
  | Defaults => rid_eqb other_id RDefaults
  | NamespaceConstants => rid_eqb other_id RNamespaceConst
  | WithNamespaceTrait => rid_eqb other_id RWithNamespace
  | QuickXmlSerialize _ _ => rid_eqb other_id RSerialize
  | QuickXmlDeserialize _ => rid_eqb other_id RDeserialize
  | EnumConstants => rid_eqb other_id REnumConst
  | PrefixConstants => rid_eqb other_id RPrefixConst
  | QuickXmlCollectNamespaces => rid_eqb other_id RCollect
  | ContentHelpers => rid_eqb other_id RHelpers
  end.

(* is_mutual_exclusive_to: of the enum (renderer.rs:310-380), and the default
   of the trait for everything else (renderer.rs:222-230) *)
Definition excl (self other : config) : bool :=
  match self with
  | Named a =>
      if kind_excl (builtin_kind a) (kind_of other) then true
      else match other with
           | Named b => same_variant a b
           | Own r _ _ => same_struct a r
           end
  | Own r k _ =>
      match type_id other with Some r' => rid_eqb r r' | None => false end
      || kind_excl k (kind_of other)
  end.

(* the closure of retain and the loop around it,
   xsd-parser/src/config/mod.rs:219-234 *)
Fixpoint retain (step : config) (steps : list config) (index : nat) (position : option nat)
  : list config * option nat :=
  match steps with
  | [] => ([], position)
  | x :: rest =>
      let remove := excl x step || excl step x in
      let '(remove, position) :=
        match remove, position with
        | true, None => (false, Some index)
        | _, _ => (remove, position)
        end in
      let '(rest, position) := retain step rest (S index) position in
      (if remove then rest else x :: rest, position)
  end.

(* self.renderer.steps[pos] = step: a panic if there is no such index *)
Fixpoint set_nth (l : list config) (n : nat) (x : config) : outcome unit (list config) :=
  match l, n with
  | [], _ => Panic
  | _ :: l, 0 => Ok (x :: l)
  | y :: l, S n => match set_nth l n x with Ok l => Ok (y :: l) | o => o end
  end.

(* with_render_step, xsd-parser/src/config/mod.rs:214-244 *)
Definition with_render_step (steps : list config) (step : config) : outcome unit (list config) :=
  let '(steps, position) := retain step steps 0 None in
  match position with
  | Some pos => set_nth steps pos step
  | None => Ok (steps ++ [step])
  end.

(* with_render_steps, mod.rs:249-259 *)
Fixpoint with_render_steps (steps : list config) (new : list config) : outcome unit (list config) :=
  match new with
  | [] => Ok steps
  | s :: new =>
      match with_render_step steps s with
      | Ok steps => with_render_steps steps new
      | o => o
      end
  end.

(* The calls a user makes. *)
Inductive call : Type :=
| CStep (s : config)                                  (* mod.rs:214-244 *)
| CSteps (l : list config)                            (* mod.rs:249-259 *)
| CSerialize (n : nsser) (d : option nat)             (* mod.rs:262-289 *)
| CDeserialize (boxed : bool)                         (* mod.rs:292-305 *)
| CQuickXml (n : nsser) (d : option nat) (boxed : bool)  (* mod.rs:309-323 *)
| CSerdeQuickXml                                      (* mod.rs:326-330 *)
| CSerdeXmlRs (v : version)                           (* mod.rs:333-341 *)
| CAdvancedEnums.                                     (* mod.rs:350-353 *)

(* with_quick_xml_serialize_config, mod.rs:267-289 *)
Definition serialize_steps (n : nsser) (d : option nat) : list config :=
  [Named Types; Named Defaults]
  ++ (if nsser_eqb n NsNone then [] else [Named PrefixConstants])
  ++ (if nsser_eqb n NsDynamic then [Named QuickXmlCollectNamespaces] else [])
  ++ [Named NamespaceConstants; Named (QuickXmlSerialize n d)].

(* with_quick_xml_deserialize_config, mod.rs:298-305 *)
Definition deserialize_steps (boxed : bool) : list config :=
  [Named Types; Named Defaults; Named NamespaceConstants;
   Named (QuickXmlDeserialize boxed)].

(* the steps that a call adds one after the other. Simplification: the flags
   that with_serde_* and with_advanced_enums set are left out. *)
Definition call_steps (c : call) : list config :=
  match c with
  | CStep s => [s]
  | CSteps l => l
  | CSerialize n d => serialize_steps n d
  | CDeserialize b => deserialize_steps b
  | CQuickXml n d b => serialize_steps n d ++ deserialize_steps b
  | CSerdeQuickXml => [Named TypesSerdeQuickXml; Named Defaults]
  | CSerdeXmlRs v => [Named (TypesSerdeXmlRs v); Named Defaults]
  | CAdvancedEnums => [Named EnumConstants]
  end.

(* a chain of calls *)
Fixpoint calls (steps : list config) (cs : list call) : outcome unit (list config) :=
  match cs with
  | [] => Ok steps
  | c :: cs =>
      match with_render_steps steps (call_steps c) with
      | Ok steps => calls steps cs
      | o => o
      end
  end.

(* RendererConfig::default, xsd-parser/src/config/renderer.rs:39-50 *)
Definition default_steps : list config := [Named Types].
