(* The types rendered for `serde` with `quick-xml`, and how they read an element.

   Modelled: xsd-parser/src/pipeline/renderer/steps/serde/quick_xml.rs:186-528
   and serde/mod.rs:18-30, together with the part of
   xsd-parser/src/pipeline/generator/data/complex.rs:342-479, 558-680, 770-846
   that decides which fields a type has.

   Not part of the code, but needed to say what the rendered types do, is the
   reading of the derived types by `serde` and `quick-xml`: `entries`, `missing`,
   `convert`, `read_fields` and `conv` below. They are a small model of these two
   libraries and belong to the trusted base. How the value of an attribute, a
   text and an element is read as a type of the schema is left open (`read_text`,
   `read_node`). *)
From Coq Require Import List String Ascii Arith Bool.
From Verif Require Import BoxModel.
Import ListNotations.
Local Open Scope string_scope.

(* --- documents --- *)

(* An attribute of a document: namespace, local name and value. *)
Record attribute : Type := Attribute { at_ns : string; at_local : string; at_value : string }.

(* An element of a document, or a text. Texts that are empty or consist of
   white space only are no nodes: quick-xml drops them. *)
Inductive node : Type :=
| Element (ns local : string) (attrs : list attribute) (nodes : list node)
| Text (s : string).

Section Serde.
  (* The simple and complex types of the schema and the values of their Rust
     types. *)
  Variable T V : Type.
  (* Reading a text (the value of an attribute, or the text of an element). *)
  Variable read_text : T -> string -> option V.
  (* Reading an element as the given type. *)
  Variable read_node : T -> node -> option V.
  (* What an `Option` field gets from an attribute with an empty value. *)
  Variable read_empty : T -> option (option V).
  (* Reading a variant that holds a list from an element. *)
  Variable read_repeated : T -> node -> option V.
  (* The value of the trait `Default`, for the types that have it. *)
  Variable trait_default : T -> option V.

  (* --- declarations --- *)

  (* xsd-parser/src/models/schema/xs_generated.rs: Use *)
  Inductive use : Type := Required | Optional | Prohibited.

  (* AttributeMeta (models/meta/attribute.rs): `a_default` is the value rendered
     for the default of the schema (complex.rs:805-812). Wildcards are left out. *)
  Record attr_decl : Type := AttrDecl
    { a_ns : string; a_local : string; a_use : use; a_default : option V; a_type : T }.

  (* ElementMeta (models/meta/element.rs) of an element with a type. `e_emptiable`
     is `is_choice_with_optional_elements_only` of its type (complex.rs:869-924). *)
  Record elem_decl : Type := ElemDecl
    { e_ns : string; e_local : string; e_min : nat; e_max : max_occurs;
      e_emptiable : bool; e_type : T }.

  (* What a complex type contains: nothing, a simple type (`is_string` tells that
     it is xs:string, see serde/mod.rs:18-30), the elements of a sequence or an
     `all`, or the alternatives of a choice. *)
  Inductive body : Type :=
  | BEmpty
  | BSimple (t : T) (is_string : bool)
  | BGroup (min : nat) (max : max_occurs) (elems : list elem_decl)
  | BChoice (min : nat) (max : max_occurs) (elems : list elem_decl).

  (* --- rendered types --- *)

  (* The `default` part of `#[serde(..)]`: absent, `default`, or the path of a
     function. *)
  Inductive default : Type := DNo | DTrait | DValue (v : V).

  (* The type of a field: a type of the schema, or the rendered content type, an
     enum or a struct. *)
  Inductive ty : Type :=
  | TNamed (t : T)
  | TEnum (elems : list elem_decl)
  | TStruct (elems : list elem_decl).

  (* A rendered field: the name given by `rename`, the default, how often the
     type occurs in it (`T`, `Option<T>`, `Vec<T>` or `[T; n]`) and the type. *)
  Record field : Type := Field { f_key : string; f_default : default; f_occurs : occurs; f_type : ty }.

  (* ComplexDataAttribute::new_field (complex.rs:770-846) and
     render_field_serde_quick_xml (quick_xml.rs:411-459). Prohibited attributes
     have no field. *)
  Definition render_attr (d : attr_decl) : option field :=
    match a_use d with
    | Prohibited => None
    | u =>
        let is_option := match u, a_default d with Optional, None => true | _, _ => false end in
        Some (Field
          ("@" ++ a_local d)
          (match a_default d with
           | Some v => DValue v
           | None => match u with Optional => DTrait | _ => DNo end
           end)
          (if is_option then OOptional else OSingle)
          (TNamed (a_type d)))
    end.

  (* ComplexDataElement::new (complex.rs:578-680): how often the element occurs. *)
  Definition elem_occurs (d : elem_decl) : occurs :=
    match from_occurs (e_min d) (e_max d) with
    | OSingle => if e_emptiable d then OOptional else OSingle
    | o => o
    end.

  (* ComplexDataElement::new and render_field_serde_quick_xml (quick_xml.rs:461-502).
     Texts of mixed types, boxes and dynamic types are left out. *)
  Definition render_elem (d : elem_decl) : option field :=
    match elem_occurs d with
    | ONone => None
    | o =>
        Some (Field
          (e_local d)
          (match o with OOptional | ODynamic => DTrait | _ => DNo end)
          o
          (TNamed (e_type d)))
    end.

  Fixpoint filter_map {A B} (f : A -> option B) (l : list A) : list B :=
    match l with
    | [] => []
    | x :: r => match f x with Some y => y :: filter_map f r | None => filter_map f r end
    end.

  Definition render_elems (elems : list elem_decl) : list field := filter_map render_elem elems.

  (* ComplexDataContent::render_field_serde_quick_xml (quick_xml.rs:390-409) *)
  Definition render_content (simple is_string : bool) (min : nat) (max : max_occurs) (t : ty) : option field :=
    match from_occurs min max with
    | ONone => None
    | o =>
        Some (Field
          (if simple then "$text" else "$value")
          (if (simple && is_string) || Nat.eqb min 0 then DTrait else DNo)
          o t)
    end.

  (* ComplexData::new_struct and new_enum (complex.rs:217-479): the fields of the
     rendered struct. `flatten` is GeneratorFlags::FLATTEN_STRUCT_CONTENT. A group
     without any element that occurs has no content (complex.rs:423). Simple
     content occurs once (complex.rs:140-215). *)
  Definition render_body (flatten : bool) (b : body) : list field :=
    match b with
    | BEmpty => []
    | BSimple t is_string =>
        match render_content true is_string 1 (Bounded 1) (TNamed t) with Some f => [f] | None => [] end
    | BGroup min max elems =>
        match from_occurs min max with
        | OSingle =>
            if flatten then render_elems elems
            else match render_elems elems with
                 | [] => []
                 | _ => match render_content false false min max (TStruct elems) with Some f => [f] | None => [] end
                 end
        | _ =>
            match render_elems elems with
            | [] => []
            | _ => match render_content false false min max (TStruct elems) with Some f => [f] | None => [] end
            end
        end
    | BChoice min max elems =>
        match render_elems elems with
        | [] => []
        | _ => match render_content false false min max (TEnum elems) with Some f => [f] | None => [] end
        end
    end.

  (* ComplexDataStruct::render_type_serde_quick_xml (quick_xml.rs:338-388) *)
  Definition render_struct (flatten : bool) (attrs : list attr_decl) (b : body) : list field :=
    (filter_map render_attr attrs ++ render_body flatten b)%list.

  (* --- reading (serde and quick-xml) --- *)

  (* What a field holds: a value, an optional value, or a list. *)
  Inductive fval (W : Type) : Type := FOne (w : W) | FOpt (o : option W) | FList (l : list W).
  Arguments FOne {W}. Arguments FOpt {W}. Arguments FList {W}.

  (* What a key of the map that quick-xml offers to serde comes with. *)
  Inductive item : Type := IAttr (value : string) | INode (n : node).

  (* quick-xml: the key of a node. Texts are "$value" if the struct has a field
     of that name, "$text" otherwise. An element has its local name as key; if no
     field has that name but there is a field "$value", it is that one. *)
  Definition node_key (keys : list string) (n : node) : string :=
    let has k := existsb (String.eqb k) keys in
    match n with
    | Text _ => if has "$value" then "$value" else "$text"
    | Element _ local _ _ => if has local then local else if has "$value" then "$value" else local
    end.

  (* quick-xml: nodes with the same key that follow each other belong together. *)
  Fixpoint runs (key : node -> string) (l : list node) : list (string * list item) :=
    match l with
    | [] => []
    | x :: r =>
        match runs key r with
        | (k, xs) :: rest =>
            if String.eqb k (key x) then (k, INode x :: xs) :: rest
            else (key x, [INode x]) :: (k, xs) :: rest
        | [] => [(key x, [INode x])]
        end
    end.

  (* quick-xml: the key of an attribute is "@" followed by its local name. *)
  Definition attr_key (local : string) : string := "@" ++ local.

  (* quick-xml: the map of an element: its attributes and its nodes. *)
  Definition entries (keys : list string) (attrs : list attribute) (nodes : list node)
    : list (string * list item) :=
    (map (fun a => (attr_key (at_local a), [IAttr (at_value a)])) attrs ++ runs (node_key keys) nodes)%list.

  Fixpoint all_some {A B} (f : A -> option B) (l : list A) : option (list B) :=
    match l with
    | [] => Some []
    | x :: r =>
        match f x, all_some f r with Some y, Some ys => Some (y :: ys) | _, _ => None end
    end.

  Section Fields.
    Variable W : Type.
    (* Reading an item as the type of a field; the default of the schema; and the
       value of the trait. *)
    Variable conv : bool -> ty -> item -> option (option W).
    Variable wrap : V -> W.
    Variable trait : ty -> option W.

    (* serde: the value of a field whose key does not occur. *)
    Definition missing (f : field) : option (fval W) :=
      match f_default f, f_occurs f with
      | DValue v, _ => Some (FOne (wrap v))
      | _, OOptional => Some (FOpt None)
      | DTrait, ODynamic => Some (FList [])
      | DTrait, OSingle => match trait (f_type f) with Some w => Some (FOne w) | None => None end
      | _, _ => None
      end.

    (* serde and quick-xml: the value of a field from the items that belong to
       its key. Where one value is expected, a second item is a second occurrence
       of the field, which is an error; an array takes exactly as many items as it
       is long. *)
    Definition convert (f : field) (l : list item) : option (fval W) :=
      match f_occurs f with
      | ONone => None
      | OSingle =>
          match l with
          | [x] => match conv false (f_type f) x with Some (Some w) => Some (FOne w) | _ => None end
          | _ => None
          end
      | OOptional =>
          match l with
          | [x] => match conv true (f_type f) x with Some o => Some (FOpt o) | None => None end
          | _ => None
          end
      | ODynamic =>
          match all_some (fun x => match conv false (f_type f) x with Some o => o | None => None end) l with
          | Some ws => Some (FList ws) | None => None end
      | OStatic n =>
          if Nat.eqb (List.length l) n then
            match all_some (fun x => match conv false (f_type f) x with Some o => o | None => None end) l with
            | Some ws => Some (FList ws) | None => None end
          else None
      end.

    (* serde: a key belongs to the first field of that name; a second entry with
       the same key is an error; other keys are ignored. The model reads field by
       field and not entry by entry: which of several errors is reported is not
       modelled. *)
    Fixpoint read_fields (seen : list string) (fields : list field) (es : list (string * list item))
      : option (list (fval W)) :=
      match fields with
      | [] => Some []
      | f :: r =>
          let here :=
            if existsb (String.eqb (f_key f)) seen then missing f
            else match filter (fun e => String.eqb (fst e) (f_key f)) es with
                 | [] => missing f
                 | [e] => convert f (snd e)
                 | _ => None
                 end in
          match here, read_fields (f_key f :: seen) r es with
          | Some v, Some vs => Some (v :: vs)
          | _, _ => None
          end
      end.

    Definition read_struct (fields : list field) (attrs : list attribute) (nodes : list node)
      : option (list (fval W)) :=
      read_fields [] fields (entries (map f_key fields) attrs nodes).
  End Fields.

  (* Reading an item as a type of the schema. `opt` tells that the field is an
     `Option`. *)
  Definition conv_named (opt : bool) (t : T) (i : item) : option (option V) :=
    let some (o : option V) := match o with Some v => Some (Some v) | None => None end in
    match i with
    | IAttr s => if opt && String.eqb s "" then read_empty t else some (read_text t s)
    | INode (Text s) => some (read_text t s)
    | INode n => some (read_node t n)
    end.

  (* What a field of a rendered type holds: a value of a type of the schema, a
     variant of the content enum, or the content struct. *)
  Inductive val : Type :=
  | VNamed (v : V)
  | VVariant (local : string) (v : V)
  | VStruct (l : list (fval V)).

  (* The variant of the content enum with the local name of an element
     (quick_xml.rs:504-527). *)
  Fixpoint find_variant (elems : list elem_decl) (local : string) : option elem_decl :=
    match elems with
    | [] => None
    | d :: r =>
        match elem_occurs d with
        | ONone => find_variant r local
        | _ => if String.eqb (e_local d) local then Some d else find_variant r local
        end
    end.

  (* Reading an item as the type of a field. The content struct is read from the
     element itself: its fields are looked for among the attributes and nodes of
     that element. *)
  Definition conv (opt : bool) (t : ty) (i : item) : option (option val) :=
    match t with
    | TNamed t =>
        match conv_named opt t i with
        | Some (Some v) => Some (Some (VNamed v)) | Some None => Some None | None => None end
    | TEnum elems =>
        match i with
        | INode (Element _ local _ _ as n) =>
            match find_variant elems local with
            | Some d =>
                match (match elem_occurs d with
                       | OSingle | OOptional => read_node (e_type d) n
                       | _ => read_repeated (e_type d) n
                       end) with
                | Some v => Some (Some (VVariant (e_local d) v))
                | None => None
                end
            | None => None
            end
        | _ => None
        end
    | TStruct elems =>
        match i with
        | INode (Element _ _ attrs nodes) =>
            match read_struct V
                    (fun opt t i => match t with TNamed t => conv_named opt t i | _ => None end)
                    (fun v => v)
                    (fun t => match t with TNamed t => trait_default t | _ => None end)
                    (render_elems elems) attrs nodes with
            | Some l => Some (Some (VStruct l))
            | None => None
            end
        | _ => None
        end
    end.

  Definition trait (t : ty) : option val :=
    match t with
    | TNamed t => match trait_default t with Some v => Some (VNamed v) | None => None end
    | _ => None
    end.

  (* Reading an element with the rendered struct. *)
  Definition read (flatten : bool) (attrs : list attr_decl) (b : body) (n : node) : option (list (fval val)) :=
    match n with
    | Element _ _ attributes nodes =>
        read_struct val conv VNamed trait (render_struct flatten attrs b) attributes nodes
    | Text _ => None
    end.

  (* serde: arrays can be read up to a length of 32. *)
  Definition field_derives (f : field) : bool :=
    match f_occurs f with OStatic n => Nat.leb n 32 | _ => true end.
End Serde.

Arguments FOne {W}. Arguments FOpt {W}. Arguments FList {W}.
Arguments VNamed {V}. Arguments VVariant {V}. Arguments VStruct {V}.
Arguments AttrDecl {T V}. Arguments ElemDecl {T}.
Arguments BEmpty {T}. Arguments BSimple {T}. Arguments BGroup {T}. Arguments BChoice {T}.

(* EnumerationDataVariant::render_variant_serde_quick_xml (quick_xml.rs:218-257):
   the attribute of a variant and whether it holds a value. `typed` is
   `meta.type_.is_some()`; the target type is present exactly then
   (generator/data/enumeration.rs). *)
Inductive variant_attr : Type := VOther | VRename (s : string).
Definition render_variant (name : string) (typed : bool) : variant_attr * bool :=
  (if typed then VOther else VRename name, typed).
(* serde: `other` is accepted on a variant without a value only. *)
Definition variant_derives (v : variant_attr * bool) : bool :=
  match v with (VOther, true) => false | _ => true end.
