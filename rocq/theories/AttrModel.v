(** The attributes of generated types: how they are declared, read and written
    (xsd-parser/src/pipeline/interpreter/state/generate_types/variant_processor.rs,
    xsd-parser/src/pipeline/generator/data/complex.rs,
    xsd-parser/src/pipeline/renderer/steps/quick_xml/deserialize.rs and serialize.rs,
    xsd-parser-types/src/quick_xml/deserialize.rs and serialize.rs). *)
From Verif Require Export WrapModel TextModel.
Local Open Scope string_scope.

Inductive use := UOptional | URequired | UProhibited.

(** The namespaces a wildcard admits ([xs:anyAttribute namespace=...]), after the target
    namespace was put in.  The generated code does not look at them. *)
Inductive wildcard := WAny | WOther (ns : option bytes) | WOnly (l : list (option bytes)).

Section Attributes.
  (** The values of the types of the attributes. *)
  Context {V : Type}.

  (** An attribute of a schema, [xs:attribute].  [sa_ns], [sa_prefix]: the namespace and
      the prefix of the module of its identifier, which is the target namespace of the
      schema or, for a reference ([sa_ref]), the namespace of the attribute that is
      referred to.  [sa_form]: [form] (true for qualified).  [sa_type]: a number for
      the type.  The code does not look at [sa_fixed] (update.rs 46-52). *)
  Record sattr := SAttr {
    sa_name : bytes; sa_ns : option bytes; sa_prefix : option bytes; sa_ref : bool;
    sa_form : option bool; sa_use : use; sa_default : option V; sa_fixed : option V; sa_type : nat
  }.
  Inductive sdecl := SAttribute (a : sattr) | SWildcard (w : wildcard).

  (** complex.rs 771-841: a field of the generated type for attributes.  [af_ns]: the
      constant of the namespace; [af_prefix]: the prefix that [TagName] knows. *)
  Record field := Field {
    af_name : bytes; af_ns : option bytes; af_prefix : option bytes; af_qualified : bool;
    af_required : bool; af_default : option V; af_type : nat
  }.
  Inductive decl := DField (f : field) | DAny.

  (** variant_processor.rs 846-888: the form of an attribute, the same for references. *)
  Definition form_of (form_default : bool) (a : sattr) : bool :=
    match sa_form a with Some f => f | None => form_default end.

  (** complex.rs 771-841 [new_field].  Simplification: names of fields and of types are
      left out; the value of a default is given. *)
  Definition new_field (form_default any_support : bool) (d : sdecl) : option decl * bool :=
    match d with
    | SAttribute a =>
        match sa_use a with
        | UProhibited => (None, false)
        | u => (Some (DField (Field (sa_name a) (sa_ns a) (sa_prefix a) (form_of form_default a)
                                    (match u with URequired => true | _ => false end)
                                    (sa_default a) (sa_type a))), false)
        end
    | SWildcard _ => if any_support then (Some DAny, false) else (None, true)
    end.

  (** complex.rs 182-187, 231-236, 364-369: all fields, and whether any attribute is allowed. *)
  Fixpoint new_fields (form_default any_support : bool) (l : list sdecl) : list decl * bool :=
    match l with
    | [] => ([], false)
    | d :: l' =>
        let (o, allow) := new_field form_default any_support d in
        let (ds, allow') := new_fields form_default any_support l' in
        (match o with Some d' => d' :: ds | None => ds end, allow || allow')
    end.

  (** complex.rs 829 [is_option]. *)
  Definition is_option (f : field) : bool :=
    negb (af_required f) && match af_default f with None => true | Some _ => false end.

  (** What a field holds: the value, if there is one, or the attributes. *)
  Inductive slot := FValue (v : option V) | FAny (l : list attr).

  (** ** Reading *)

  Section Read.
    Variable parse : nat -> resolver -> bytes -> option V.
    Variable charref : bytes -> option bytes.
    Variable utf8_ok : bytes -> bool.
    Variable ds : list decl.
    Variable allow_any : bool.
    Variable r : resolver.

    (** lib deserialize.rs 814-825 [filter_xmlns_attributes]. *)
    Definition is_xmlns (k : bytes) : bool := String.eqb k "xmlns" || starts_with "xmlns:" k.

    (** quick-xml [QName::local_name]. *)
    Definition key_local (k : bytes) : bytes := match split_colon k with Some (_, l) => l | None => k end.

    (** renderer deserialize.rs 2916-3028 [deserializer_matcher]: the condition. *)
    Definition matches (f : field) (k : bytes) : bool :=
      match af_ns f with
      | Some ns => match resolve_local_name r k ns with Some l => String.eqb l (af_name f) | None => false end
      | None => String.eqb (key_local k) (af_name f)
      end.

    (** renderer deserialize.rs 1822-1868: the chain of conditions, and the last field
        for any attribute. *)
    Fixpoint chain (l : list decl) (i : nat) (k : bytes) : option nat :=
      match l with
      | [] => None
      | DField f :: l' => if matches f k then Some i else chain l' (S i) k
      | DAny :: l' => chain l' (S i) k
      end.
    Fixpoint any_field (l : list decl) (i : nat) : option nat :=
      match l with
      | [] => None
      | d :: l' =>
          match any_field l' (S i), d with
          | Some j, _ => Some j
          | None, DAny => Some i
          | None, DField _ => None
          end
      end.
    Definition target (k : bytes) : option nat :=
      match chain ds 0 k with Some i => Some i | None => any_field ds 0 end.

    (** lib deserialize.rs 867-878 [is_globally_allowed_attrib]. *)
    Definition globally_allowed (k : bytes) : bool :=
      match dh_resolve r k true with
      | (RBound x, local) =>
          String.eqb x XSI_NS && existsb (String.eqb local) ["schemaLocation"; "noNamespaceSchemaLocation"; "type"; "nil"]
      | _ => false
      end.

    Fixpoint set_slot (i : nat) (s : slot) (l : list slot) : list slot :=
      match l, i with
      | [], _ => []
      | _ :: l', 0 => s :: l'
      | x :: l', S i' => x :: set_slot i' s l'
      end.

    (** lib deserialize.rs 725-745 [read_attrib]; attributes.rs 36-49 [push]. *)
    Definition read_slot (d : decl) (s : slot) (a : attr) : outcome kind slot :=
      match d, s with
      | DField f, FValue (Some _) => Err (KDuplicateAttribute (af_name f))
      | DField f, FValue None =>
          if utf8_ok (snd a) then
            match unescape charref (snd a) with
            | Some t => match parse (af_type f) r t with Some v => Ok (FValue (Some v)) | None => Err (KInvalidValue t) end
            | None => Err KEscape
            end
          else Err KUtf8
      | DAny, FAny l =>
          if existsb (fun x => String.eqb (fst x) (fst a)) l then Err (KDuplicateAttribute (fst a))
          else Ok (FAny (l ++ [a])%list)
      | _, _ => Panic
      end.

    (** renderer deserialize.rs 1870-1884: what is done for one attribute. *)
    Definition read_one (slots : list slot) (a : attr) : outcome kind (list slot) :=
      match target (fst a) with
      | Some i =>
          match nth_error ds i, nth_error slots i with
          | Some d, Some s =>
              match read_slot d s a with
              | Ok s' => Ok (set_slot i s' slots)
              | Err e => Err e
              | Panic => Panic
              end
          | _, _ => Panic
          end
      | None => if allow_any || globally_allowed (fst a) then Ok slots else Err (KUnexpectedAttribute (fst a))
      end.

    (** renderer deserialize.rs 1875-1882: the loop.  quick-xml reports a key that was
        there before. *)
    Fixpoint read_loop (seen : list bytes) (slots : list slot) (l : list attr) : outcome kind (list slot) :=
      match l with
      | [] => Ok slots
      | a :: l' =>
          if existsb (String.eqb (fst a)) seen then Err (KAttr "duplicate")
          else if is_xmlns (fst a) then read_loop (fst a :: seen) slots l'
          else match read_one slots a with
               | Ok slots' => read_loop (fst a :: seen) slots' l'
               | Err e => Err e
               | Panic => Panic
               end
      end.

    (** renderer deserialize.rs 1822-1833, 1886-1913: the variables and the fields. *)
    Definition init_slot (d : decl) : slot := match d with DField _ => FValue None | DAny => FAny [] end.
    Definition finish_slot (d : decl) (s : slot) : outcome kind slot :=
      match d, s with
      | DField f, FValue None =>
          match af_default f with
          | Some v => Ok (FValue (Some v))
          | None => if af_required f then Err (KMissingAttribute (af_name f)) else Ok s
          end
      | _, _ => Ok s
      end.
    Fixpoint finish_slots (l : list decl) (slots : list slot) : outcome kind (list slot) :=
      match l, slots with
      | [], [] => Ok []
      | d :: l', s :: slots' =>
          match finish_slot d s with
          | Ok s' => match finish_slots l' slots' with Ok ss => Ok (s' :: ss) | Err e => Err e | Panic => Panic end
          | Err e => Err e
          | Panic => Panic
          end
      | _, _ => Panic
      end.

    (** renderer deserialize.rs 1815-1913 [render_deserializer_fn_from_bytes_start].  There
        is no loop if there are no attributes and any attribute is allowed. *)
    Definition read_fields (attrs : list attr) : outcome kind (list slot) :=
      let init := map init_slot ds in
      match ds, allow_any with
      | [], true => Ok []
      | _, _ =>
          match read_loop [] init attrs with
          | Ok slots => finish_slots ds slots
          | Err e => Err e
          | Panic => Panic
          end
      end.
  End Read.

  (** ** Writing *)

  Section Write.
    (** [serialize_bytes]: [None] is an error, [Some None] that there is no text. *)
    Variable render : nat -> V -> option (option bytes).

    (** tag_name.rs 46-58 [get(true)]. *)
    Definition tag_name (f : field) : bytes :=
      if af_qualified f then match af_prefix f with Some p => p ++ ":" ++ af_name f | None => af_name f end
      else af_name f.

    (** renderer serialize.rs 729-746; lib serialize.rs 881-915 [write_attrib],
        [write_attrib_opt]. *)
    Definition write_slot (d : decl) (s : slot) : outcome kind (list attr) :=
      match d, s with
      | DField f, FValue (Some v) =>
          match render (af_type f) v with
          | Some (Some t) => Ok [(tag_name f, escape t)]
          | Some None => Ok []
          | None => Err (KCustom "serialize")
          end
      | DField f, FValue None => if is_option f then Ok [] else Panic
      | DAny, FAny l => Ok l
      | _, _ => Panic
      end.
    Fixpoint write_fields (ds : list decl) (slots : list slot) : outcome kind (list attr) :=
      match ds, slots with
      | [], [] => Ok []
      | d :: ds', s :: slots' =>
          match write_slot d s with
          | Ok l => match write_fields ds' slots' with Ok l' => Ok (l ++ l')%list | Err e => Err e | Panic => Panic end
          | Err e => Err e
          | Panic => Panic
          end
      | _, _ => Panic
      end.
  End Write.

  (** Reading and writing the attributes of a type with these declarations. *)
  Definition read_attributes parse charref utf8_ok (form_default any_support : bool) (l : list sdecl) (r : resolver)
    (attrs : list attr) : outcome kind (list slot) :=
    let (ds, allow) := new_fields form_default any_support l in
    read_fields parse charref utf8_ok ds allow r attrs.
  Definition write_attributes render (form_default any_support : bool) (l : list sdecl) (slots : list slot)
    : outcome kind (list attr) :=
    write_fields render (fst (new_fields form_default any_support l)) slots.
End Attributes.
Arguments sattr : clear implicits.
Arguments sdecl : clear implicits.
Arguments field : clear implicits.
Arguments decl : clear implicits.
Arguments slot : clear implicits.
