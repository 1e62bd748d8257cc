(** The attributes of complex types
    (xsd-parser/src/pipeline/interpreter/state/generate_types/variant_processor.rs, update.rs,
    xsd-parser/src/pipeline/generator/data/complex.rs).

    Namespaces, types and attribute groups are numbers; names of types are resolved. *)
From Verif Require Import Base.
Local Open Scope string_scope.

Inductive use := UOptional | URequired | UProhibited.

(** [xs:attribute] in the content of a type or of an attribute group: a declaration (with
    [type], with a simple type inside or with neither) or a reference to an attribute of the namespace [ns].
    [d_form]: [form] (true for qualified); [d_type]: the type, for references that of the attribute. *)
Inductive decl_name := NLocal (n : string) | NRef (ns : nat) (n : string).
Record adecl := ADecl { d_name : decl_name; d_form : option bool; d_use : use; d_default : option string; d_type : nat }.

(** The parts of the content of a type or group that concern attributes. *)
Inductive acontent := CAttr (d : adecl) | CGroup (g : nat) | CAny.

(** The schema around a component: its target namespace and [attributeFormDefault]. *)
Record home := Home { h_ns : nat; h_form : bool }.
Record agroup := AGroup { g_home : home; g_content : list acontent }.
(** A complex type, with or without a base; [BSimple]: the base is a simple type.  Simplification: a mixed base of
    simple content, whose attributes are not copied, is in SimpleContentModel. *)
Inductive base := BNone | BSimple | BExtension (t : nat) | BRestriction (t : nat).
Record ctype := CType { t_home : home; t_base : base; t_content : list acontent }.

(** models/meta/attribute.rs 19-43 [AttributeMeta], without the names in the code and the documentation. *)
Record meta := Meta { m_ns : nat; m_name : string; m_type : nat; m_use : use; m_form : bool; m_default : option string }.
Inductive attribute_meta := MType (m : meta) | MAny.

(** variant_processor.rs 846-888: the identifier.  Not modelled: the names that a name builder makes
    (that of a reference is the name of the attribute). *)
Definition ident_of (type_ns : nat) (d : adecl) : nat * string :=
  match d_name d with NLocal n => (type_ns, n) | NRef ns n => (ns, n) end.
Definition has_ident (i : nat * string) (a : attribute_meta) : bool :=
  match a with MType m => Nat.eqb (m_ns m) (fst i) && String.eqb (m_name m) (snd i) | MAny => false end.

(** update.rs 45-52 and 17-24: [AttributeMeta::update]. *)
Definition update (d : adecl) (m : meta) : meta :=
  Meta (m_ns m) (m_name m) (m_type m) (d_use d) (m_form m)
    (match d_default d with Some v => Some v | None => m_default m end).

(** traits/vec_helper.rs 37-50 [find_or_insert], followed by an update. *)
Fixpoint find_update (i : nat * string) (f : meta -> meta) (new : meta) (l : list attribute_meta) : list attribute_meta :=
  match l with
  | [] => [MType (f new)]
  | a :: l' =>
      match a with
      | MType m => if has_ident i a then MType (f m) :: l' else a :: find_update i f new l'
      | MAny => a :: find_update i f new l'
      end
  end.

(** variant_processor.rs 829-898 [apply_attribute_ref]: namespace and form come from the schema of the type that is
    made ([current_ns_id], [current_schema]). *)
Definition apply_attribute_ref (h : home) (d : adecl) (l : list attribute_meta) : list attribute_meta :=
  let i := ident_of (h_ns h) d in
  let form := match d_form d with Some f => f | None => h_form h end in
  find_update i (update d) (Meta (fst i) (snd i) (d_type d) UOptional form None) l.

(** variant_processor.rs 989-1012 [apply_any_attribute]: the name is always the same. *)
Definition apply_any_attribute (l : list attribute_meta) : list attribute_meta :=
  if existsb (fun a => match a with MAny => true | MType _ => false end) l then l else l ++ [MAny].

Section Groups.
  Variable groups : nat -> option agroup.

  (** variant_processor.rs 588-633 [apply_extension], [apply_restriction], 729-743
      [apply_attribute_group] and 943-954 [apply_attribute_group_ref]; [None]: the recursion did not end. *)
  Fixpoint apply_content (fuel : nat) (h : home) (c : list acontent) (l : list attribute_meta) {struct fuel}
    : option (list attribute_meta) :=
    match fuel with
    | 0 => None
    | S n =>
        (fix go (c : list acontent) (l : list attribute_meta) : option (list attribute_meta) :=
           match c with
           | [] => Some l
           | CAttr d :: c' => go c' (apply_attribute_ref h d l)
           | CAny :: c' => go c' (apply_any_attribute l)
           | CGroup g :: c' =>
               match groups g with
               | None => None
               | Some gr =>
                   match apply_content n h (g_content gr) l with
                   | Some l' => go c' l'
                   | None => None
                   end
               end
           end) c l
    end.

  Variable types : nat -> option ctype.

  (** variant_processor.rs 341-419 [apply_complex_type], 510-585 and 1229-1323
      [copy_base_type]: a derived type starts with the attributes of its base. *)
  Fixpoint attributes_of (fuel : nat) (t : nat) : option (list attribute_meta) :=
    match fuel with
    | 0 => None
    | S n =>
        match types t with
        | None => None
        | Some ty =>
            match match t_base ty with
                  | BNone | BSimple => Some []
                  | BExtension b | BRestriction b => attributes_of n b
                  end with
            | Some l => apply_content n (t_home ty) (t_content ty) l
            | None => None
            end
        end
    end.
End Groups.

(** complex.rs 771-841 [new_field]: what the generated type has for an attribute: its name (with
    a namespace if it is qualified), its type, whether it is required, its default. *)
Record field := Field { f_name : option nat * string; f_type : nat; f_required : bool; f_default : option string }.
Definition new_field (a : attribute_meta) : list field :=
  match a with
  | MType m =>
      match m_use m with
      | UProhibited => []
      | u => [Field (if m_form m then Some (m_ns m) else None, m_name m) (m_type m)
                    (match u with URequired => true | _ => false end) (m_default m)]
      end
  | MAny => []
  end.
Definition fields (l : list attribute_meta) : list field := flat_map new_field l.
Definition any_attribute (l : list attribute_meta) : bool :=
  existsb (fun a => match a with MAny => true | MType _ => false end) l.
