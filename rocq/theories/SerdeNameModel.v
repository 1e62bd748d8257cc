(** The serde names of the fields and variants of the types rendered for quick-xml with serde,
    for serde-xml-rs up to 0.7 and for serde-xml-rs 0.8
    (xsd-parser/src/pipeline/renderer/steps/serde/quick_xml.rs, serde_xml_rs_v7.rs and
    serde_xml_rs_v8.rs, pipeline/generator/data/complex.rs 140-525).

    Left out: the Rust types and defaults of the fields (see SerdeModel for quick-xml) and
    wildcards. *)
From Coq Require Import List String Ascii Arith Bool.
From Verif Require Import BoxModel.
Import ListNotations.
Local Open Scope string_scope.

(** config/mod.rs 325-345: the three renderers. *)
Inductive backend : Type := QuickXml | XmlRs7 | XmlRs8.

(** models/data/tag_name.rs 11-20 [TagName]; the module is given by the namespace. *)
Record tag : Type := Tag { tg_ns : nat; tg_name : string; tg_qualified : bool }.

(** tag_name.rs 46-59 [TagName::get] with [use_prefix]; [prefix_of] is the prefix, or else the
    name, of the module of a namespace (models/meta/types.rs 160-162). *)
Definition tag_get (prefix_of : nat -> option string) (t : tag) : string :=
  match (if tg_qualified t then prefix_of (tg_ns t) else None) with
  | Some p => p ++ ":" ++ tg_name t
  | None => tg_name t
  end.

(** models/meta/element.rs [ElementMeta]: an element or a text, with how often it occurs. *)
Inductive particle : Type := PElement (t : tag) | PText.
Record element_meta : Type := ElementMeta { em_particle : particle; em_min : nat; em_max : max_occurs }.

(** models/meta/attribute.rs [AttributeMeta]. *)
Record attribute_meta : Type := AttributeMeta { am_tag : tag; am_prohibited : bool }.

(** The type of a simple content, after following references (models/meta/types.rs
    [get_resolved]): an enumeration, a build-in type or reference, or another one. *)
Inductive simple_kind : Type := SEnumeration | SBuildIn | SOtherSimple.

(** models/meta/complex.rs [ComplexMeta] with its content, complex.rs 92-138 [new_complex]: a
    simple type, the elements of a sequence or <xs:all>, or those of a choice. [mixed] is
    [mixed_mode.is_complex()]. *)
Inductive body : Type :=
| BSimple (k : simple_kind) (min : nat) (max : max_occurs)
| BGroup (mixed : bool) (min : nat) (max : max_occurs) (elements : list element_meta)
| BChoice (mixed : bool) (min : nat) (max : max_occurs) (elements : list element_meta).
Record complex_meta : Type := ComplexMeta { cm_attributes : list attribute_meta; cm_body : body }.

(** GeneratorFlags [FLATTEN_STRUCT_CONTENT] and [FLATTEN_ENUM_CONTENT], and the name of the
    field for the content (generator/context.rs [content_display_name]). *)
Record options : Type := Options { o_flatten_struct : bool; o_flatten_enum : bool; o_content_name : string }.

(** A field or variant of a generated type: an attribute, an element, a text, the content as an
    element of its own (complex.rs 722-766 [new_content]), or the content
    ([ComplexDataContent], simple or not). *)
Inductive field : Type :=
| FAttribute (t : tag)
| FElement (t : tag)
| FText
| FContentElement (name : string)
| FSimple (k : simple_kind)
| FContent.

Definition is_none (o : occurs) : bool := match o with ONone => true | _ => false end.
Definition is_single (o : occurs) : bool := match o with OSingle => true | _ => false end.
Definition is_nil {A} (l : list A) : bool := match l with [] => true | _ => false end.

(** complex.rs 770-846 [ComplexDataAttribute::new_field]. *)
Definition attribute_fields (l : list attribute_meta) : list field :=
  map (fun a => FAttribute (am_tag a)) (filter (fun a => negb (am_prohibited a)) l).

(** complex.rs 578-682 [ComplexDataElement::new]. *)
Definition element_field (p : particle) : field :=
  match p with PElement t => FElement t | PText => FText end.
Definition element_fields (l : list element_meta) : list field :=
  map (fun e => element_field (em_particle e)) (filter (fun e => negb (is_none (from_occurs (em_min e) (em_max e)))) l).

(** complex.rs 170-525 [new_simple], [new_enum] and [new_struct]: the fields or variants of the
    type, and those of the type of its content, if it has one. *)
Definition generate (o : options) (c : complex_meta) : list (list field) :=
  let attributes := attribute_fields (cm_attributes c) in
  match cm_body c with
  | BSimple k min max => [attributes ++ (if is_none (from_occurs min max) then [] else [FSimple k])]
  | BChoice mixed min max l =>
    let occurs := from_occurs min max in
    let elements := element_fields l in
    if is_single occurs && negb mixed && is_nil attributes && o_flatten_enum o then [elements]
    else if is_none occurs || is_nil elements then [attributes]
    else [attributes ++ (if mixed then [FText; FContentElement (o_content_name o)] else [FContent]); elements]
  | BGroup mixed min max l =>
    let occurs := from_occurs min max in
    let elements := element_fields l in
    if is_single occurs && o_flatten_struct o then [attributes ++ (if mixed then [FText] else []) ++ elements]
    else if is_none occurs || is_nil elements then [attributes]
    else [attributes ++ (if mixed then [FText; FContentElement (o_content_name o)] else [FContent]); elements]
  end%list.

Section names.
Variable prefix_of : nat -> option string.

(** The value of [rename]: quick_xml.rs 390-528, serde_xml_rs_v7.rs 384-529,
    serde_xml_rs_v8.rs 456-622. The [TagName] of a content element is the default one. *)
Definition serde_name (b : backend) (f : field) : string :=
  match b, f with
  | QuickXml, FAttribute t => "@" ++ tg_name t
  | XmlRs7, FAttribute t => tag_get prefix_of t
  | XmlRs8, FAttribute t => "@" ++ tag_get prefix_of t
  | (QuickXml | XmlRs7), FElement t => tg_name t
  | XmlRs8, FElement t => tag_get prefix_of t
  | QuickXml, FText => "$text"
  | (XmlRs7 | XmlRs8), FText => "#text"
  | (QuickXml | XmlRs7), FContentElement n => n
  | XmlRs8, FContentElement _ => ""
  | QuickXml, FSimple _ => "$text"
  | QuickXml, FContent => "$value"
  | XmlRs7, (FSimple _ | FContent) => "$value"
  | XmlRs8, FSimple (SEnumeration | SBuildIn) => "#text"
  | XmlRs8, (FSimple SOtherSimple | FContent) => "#content"
  end.

(** The types that are rendered, each with the serde names of its fields. *)
Definition rendered (b : backend) (o : options) (c : complex_meta) : list (list (field * string)) :=
  map (map (fun f => (f, serde_name b f))) (generate o c).
End names.

(** Not part of the code: how a derived type of serde finds the field or variant for a name. It
    is a [match] over the names in the order of the fields, so the first one wins. *)
Fixpoint serde_finds {F} (l : list (F * string)) (name : string) : option F :=
  match l with
  | [] => None
  | (f, n) :: r => if String.eqb name n then Some f else serde_finds r name
  end.
