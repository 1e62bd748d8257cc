(** Complex types with simple content: how the interpreter finds the type of the text
    (xsd-parser/src/pipeline/interpreter/state/generate_types/variant_processor.rs,
    type_processor.rs), and whether the generated type has a field for it
    (xsd-parser/src/pipeline/generator/data/complex.rs).

    Types are trees instead of names, see SimpleModel.  Simplification: attributes are
    numbers, an attribute is declared once in a derivation (AttrUseModel has the rest); the
    base is not abstract and there is no type that replaces it (SubstModel). *)
From Verif Require Export SimpleModel.

(** ** The schema *)

(** models/schema/xs.rs [ComplexBaseType] with [SimpleContent], and the complex types with other
    content that can be a base: with mixed content that may be empty, or with elements. *)
Inductive cdef :=
| CMixed (attrs : list nat)
| CElements (attrs : list nat)
| CExtension (base : bdef) (attrs : list nat)
| CRestriction (base : bdef) (inline : option sdef) (fs : list facet) (attrs : list nat)
with bdef := BSimple (d : sdef) | BComplex (c : cdef).

(** ** The interpreter *)

(** models/meta/complex.rs 22-49 [ComplexMeta::content]: no content, a simple type, a mixed
    complex type itself, a group of elements. *)
Inductive content := KNone | KType (m : smeta) | KMixed | KElements.

(** models/meta/complex.rs [ComplexMeta]: mixed, the content, the attributes. *)
Record cmeta := CMeta { k_mixed : bool; k_content : content; k_attrs : list nat }.

Inductive cerror := ExpectedSimpleType | Inner (e : ierror).

(** The built-in type [String]: [xs:string] is a reference to it. *)
Definition string_builtin : nat := 0.

(** type_processor.rs 98-120 [get_simple_type_variant], for the content of a type. *)
Definition content_variant (k : content) : option smeta :=
  match k with
  | KType m => Some m
  | KMixed => Some (MBuildIn string_builtin)
  | KElements | KNone => None
  end.

(** variant_processor.rs 1377-1428 [simple_content_builder] in a complex type: [f] runs with a
    new processor, that is not fixed.  A new name is made for the result, so types that share the
    content are not changed. *)
Definition simple_content_builder (f : pstate -> outcome ierror pstate) (k : content) : outcome cerror content :=
  match k with
  | KNone => Panic
  | _ =>
      match content_variant k with
      | None => Err ExpectedSimpleType
      | Some m =>
          match f (m, false) with
          | Ok (m', _) => Ok (KType m')
          | Err e => Err (Inner e)
          | Panic => Panic
          end
      end
  end.

(** variant_processor.rs 1015-1155: the facets, one by one. *)
Fixpoint content_facets (fs : list facet) (k : content) : outcome cerror content :=
  match fs with
  | [] => Ok k
  | f :: fs' =>
      match simple_content_builder (apply_facet f) k with
      | Ok k' => content_facets fs' k'
      | Err e => Err e
      | Panic => Panic
      end
  end.

(** variant_processor.rs 1158-1183 [apply_union], 1187-1215 [apply_list]; 93-109
    [get_or_init_any]. *)
Definition add_union (ms : list smeta) (st : pstate) : outcome ierror pstate :=
  match st with
  | (MUnion c ts, fixed) => Ok (MUnion c (ts ++ ms), fixed)
  | (_, fixed) => if fixed then Panic else Ok (MUnion no_constrains ms, true)
  end.
Definition set_list (m : smeta) (st : pstate) : outcome ierror pstate :=
  match st with
  | (MRef _ _, fixed) => Ok (MRef m true, fixed)
  | (_, fixed) => if fixed then Panic else Ok (MRef m true, true)
  end.

Fixpoint interpret_all (l : list sdef) : outcome ierror (list smeta) :=
  match l with
  | [] => Ok []
  | d :: l' =>
      match interpret d with
      | Ok (m, _) => match interpret_all l' with Ok ms => Ok (m :: ms) | Err e => Err e | Panic => Panic end
      | Err e => Err e
      | Panic => Panic
      end
  end.

(** variant_processor.rs 319-338 [apply_simple_type], 432-469 [apply_simple_type_restriction], in a complex
    type: the base of a restriction is the content only if there is none yet (1332-1337
    [get_or_insert_with]). *)
Fixpoint apply_inline (d : sdef) (k : content) : outcome cerror content :=
  match d with
  | SBuiltin _ _ => Ok k
  | SList item =>
      match interpret item with
      | Ok (m, _) => simple_content_builder (set_list m) k
      | Err e => Err (Inner e)
      | Panic => Panic
      end
  | SUnion members =>
      match interpret_all members with
      | Ok ms => simple_content_builder (add_union ms) k
      | Err e => Err (Inner e)
      | Panic => Panic
      end
  | SRestriction true base fs =>
      match apply_inline base k with
      | Ok k' => content_facets fs k'
      | Err e => Err e
      | Panic => Panic
      end
  | SRestriction false base fs =>
      match interpret base with
      | Ok (m, _) => content_facets fs (match k with KNone => KType m | _ => k end)
      | Err e => Err (Inner e)
      | Panic => Panic
      end
  end.

(** variant_processor.rs 1230-1356 [copy_base_type] for complex types with simple content; type_processor.rs 98-154:
    the base of a complex type with simple content is a simple type, or a mixed
    type that may be empty, or else a complex type whose content and attributes are copied. *)
Definition copy_complex_base (b : cmeta) : cmeta :=
  if k_mixed b then CMeta false KMixed [] else CMeta false (k_content b) (k_attrs b).

(** variant_processor.rs 341-430 [apply_complex_type], 472-553 [apply_simple_content], [apply_simple_content_extension],
    [apply_simple_content_restriction], 588-632 [apply_extension], [apply_restriction]. *)
Fixpoint interpret_complex (c : cdef) : outcome cerror cmeta :=
  match c with
  | CMixed a => Ok (CMeta true KElements a)
  | CElements a => Ok (CMeta false KElements a)
  | CExtension b a =>
      match base_complex b with
      | Ok t => Ok (CMeta (k_mixed t) (k_content t) (k_attrs t ++ a))
      | Err e => Err e
      | Panic => Panic
      end
  | CRestriction b inline fs a =>
      match base_complex b with
      | Ok t =>
          match (match inline with Some d => apply_inline d (k_content t) | None => Ok (k_content t) end) with
          | Ok k =>
              match content_facets fs k with
              | Ok k' => Ok (CMeta (k_mixed t) k' (k_attrs t ++ a))
              | Err e => Err e
              | Panic => Panic
              end
          | Err e => Err e
          | Panic => Panic
          end
      | Err e => Err e
      | Panic => Panic
      end
  end
with base_complex (b : bdef) : outcome cerror cmeta :=
  match b with
  | BSimple d =>
      match interpret d with
      | Ok (m, _) => Ok (CMeta false (KType m) [])
      | Err e => Err (Inner e)
      | Panic => Panic
      end
  | BComplex c =>
      match interpret_complex c with
      | Ok t => Ok (copy_complex_base t)
      | Err e => Err e
      | Panic => Panic
      end
  end.

(** ** The generator *)

(** complex.rs 102-141 [new_complex]: the type of the field for the text, if there is one.  Other complex
    types as content: a warning, and no content at all. *)
Definition text_field (t : cmeta) : option smeta :=
  match k_content t with KType m => Some m | _ => None end.
