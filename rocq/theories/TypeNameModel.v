(** The names of the items that are generated for types, for names of ASCII characters.

    Simplification: the formatted names of the modules of a namespace and of a schema file
    are given (traits/naming.rs 76-84, 189-197); characters outside ASCII are left out. *)
From Coq Require Import List String Ascii Arith Bool.
From Verif Require Import BoxModel NsConstModel.
Import ListNotations.
Local Open Scope string_scope.

(** models/ident.rs 59-92 [IdentType]. *)
Inductive kind : Type :=
| KType | KGroup | KElement | KElementType | KAttribute | KAttributeGroup | KBuildIn
| KEnumeration | KNillableContent | KSubstitutionElement | KDynamicVariant.

(** models/name.rs [Name]. *)
Inductive type_name : Type := Named (s : string) | Generated (s : string).
Definition name_text (n : type_name) : string := match n with Named s | Generated s => s end.

(** models/meta/mod.rs [MetaTypeVariant], as far as it matters for names: a reference with
    its target and occurrence, a dynamic type, a complex type that has a type of its own for
    the content or not (complex.rs 274-296, 432-463), an enumeration, a build-in or custom
    type, which is only named and not generated, and any other type. *)
Inductive variant : Type :=
| VReference (target : type_name) (min : nat) (max : max_occurs)
| VDynamic
| VComplex (has_content : bool)
| VEnumeration
| VForeign
| VOther.

(** models/ident.rs 18-32 [TypeIdent] and models/meta/mod.rs [MetaType]. The namespace and
    the schema file are given by the names of their modules, if they have one;
    [t_schema_count] is the number of schema files of the namespace. *)
Record type_info : Type := TypeInfo
  { t_ns : option string; t_schema : option string; t_schema_count : nat; t_kind : kind; t_name : type_name;
    t_display : option string; t_variant : variant }.

(** naming/default.rs 21 [Naming] and naming/explicit.rs 20-25 [ExplicitNaming]. *)
Inductive naming : Type := Default | Explicit (unify : bool).

(** generator/meta.rs [MetaData]: the naming, the postfixes and the flags
    [USE_NAMESPACE_MODULES] and [USE_SCHEMA_MODULES]. *)
Record config : Type := Config
  { c_naming : naming; c_postfix : kind -> string; c_ns_modules : bool; c_schema_modules : bool }.

(** config/generator.rs 333-342 and lib.rs 384-399; the other kinds keep the postfixes of
    generator/mod.rs 99-111. *)
Definition default_postfix (k : kind) : string :=
  match k with
  | KType => "Type"
  | KElementType => "ElementType"
  | KNillableContent => "NotNil"
  | KSubstitutionElement | KDynamicVariant => "Dyn"
  | _ => ""
  end.

(** naming/mod.rs 101-151 [KEYWORDS]. *)
Definition keyword_names : list string :=
  ["Self"; "abstract"; "as"; "become"; "box"; "break"; "const"; "continue"; "crate"; "do"; "else"; "enum";
   "extern"; "false"; "final"; "fn"; "for"; "if"; "impl"; "in"; "let"; "loop"; "macro"; "match"; "mod"; "move";
   "mut"; "override"; "priv"; "pub"; "ref"; "return"; "self"; "static"; "struct"; "super"; "trait"; "true";
   "try"; "type"; "typeof"; "union"; "unsafe"; "unsized"; "use"; "virtual"; "where"; "while"; "yield"].

Fixpoint map_chars (f : ascii -> ascii) (s : string) : string :=
  match s with EmptyString => EmptyString | String c s' => String (f c) (map_chars f s') end.
Definition to_lower (c : ascii) : ascii := if is_upper c then ascii_of_nat (nat_of_ascii c + 32) else c.
Definition replace_other (c : ascii) : ascii := if is_alnum c then c else "_"%char.

(** The crate Inflector 0.11, [to_pascal_case] for ASCII texts, after its documentation and
    source: [new_word] tells that the next letter begins a word, [found] that a letter or
    digit was found, [last_lower] that the last letter inside a word was a small one. *)
Fixpoint pascal_from (new_word found last_lower : bool) (s : string) : string :=
  match s with
  | EmptyString => EmptyString
  | String c s' =>
    if negb (is_alnum c) && found then pascal_from true found last_lower s'
    else if negb found && negb (is_alnum c) then pascal_from new_word found last_lower s'
    else if is_digit c then String c (pascal_from true true last_lower s')
    else if new_word || (last_lower && is_upper c) then String (to_upper c) (pascal_from false true last_lower s')
    else String (to_lower c) (pascal_from new_word true (is_lower c) s')
  end.
Definition pascal_ascii (s : string) : string := pascal_from true false false (trim_right s).

(** naming/mod.rs 52-72 [unify_string]. *)
Definition unify_string (s : string) : string :=
  let r := map_chars (fun c => if Ascii.eqb c "_" then c else replace_other c) s in
  if all_chars (fun c => Ascii.eqb c "_" || negb (is_alnum c)) s then r
  else pascal_ascii (screaming_ascii r).

(** naming/mod.rs 82-97 [format_ident]. *)
Definition format_ident (s : string) : string :=
  let s := if existsb (String.eqb s) keyword_names then s ++ "_" else s in
  let s := match s with
           | String c _ => if is_digit c then String "_" s else s
           | EmptyString => s
           end in
  map_chars replace_other s.

(** default.rs 32-34, explicit.rs 92-98 [unify]. *)
Definition unify (n : naming) (s : string) : string :=
  match n with
  | Explicit false => map_chars replace_other s
  | _ => unify_string s
  end.

(** default.rs 50-54, explicit.rs 123-127 [format_type_name]. *)
Definition format_type_name (n : naming) (s : string) : string := format_ident (unify n s).

(** [str::ends_with]. *)
Fixpoint ends_with (p s : string) : bool :=
  String.eqb s p || match s with String _ s' => ends_with p s' | EmptyString => false end.

(** [ti.max_occurs > MaxOccurs::Bounded(1)]. *)
Definition above_one (m : max_occurs) : bool :=
  match m with Unbounded => true | Bounded n => Nat.ltb 1 n end.

(** naming/mod.rs 21-49 [make_type_name]. *)
Definition default_type_name (n : naming) (postfix : string) (t : type_info) : string :=
  let rest :=
    let s := format_type_name n (name_text (t_name t)) in
    if ends_with postfix s then name_text (t_name t) else s ++ postfix in
  match t_variant t, t_name t with
  | VReference (Named target) min max, Generated _ =>
    let s := format_type_name n target in
    if above_one max then s ++ "List"
    else if Nat.eqb min 0 then s ++ "Opt"
    else rest
  | _, _ => rest
  end.

(** default.rs 35-37, explicit.rs 100-113 [make_type_name]. *)
Definition make_type_name (c : config) (t : type_info) : string :=
  match c_naming c with
  | Default => default_type_name Default (c_postfix c (t_kind t)) t
  | n => format_type_name n (name_text (t_name t)) ++ c_postfix c (t_kind t)
  end.

(** traits/naming.rs 88-92 [format_type_ident], generator/mod.rs 470, 506. *)
Definition type_ident (c : config) (t : type_info) : string :=
  format_type_name (c_naming c)
    (match t_display t with Some d => d | None => make_type_name c t end).

(** models/code/ident_path.rs 288-306, 333-350 [ModuleIdent::new] and
    [ModulePath::from_ident], generator/mod.rs 499-505. *)
Definition module_of (c : config) (t : type_info) : list string :=
  ((if c_ns_modules c then match t_ns t with Some n => [n] | None => [] end else [])
   ++ (if c_schema_modules c && Nat.ltb 1 (t_schema_count t) then match t_schema t with Some n => [n] | None => [] end else []))%list.

(** The Rust types and traits that are rendered for a type, in the module of the type:
    renderer/steps/types.rs, and renderer/steps/serde/serde_xml_rs_v8.rs for [v8] (216-226,
    625-629: the type of the values of an enumeration). The type of the content is that of
    complex.rs 274 and 432, the trait that of dynamic.rs 20. Types and traits share the name
    space of Rust for types. *)
Definition item_names (c : config) (v8 : bool) (t : type_info) : list string :=
  let ident := type_ident c t in
  match t_variant t with
  | VForeign => []
  | VDynamic => [ident; ident ++ "Trait"]
  | VComplex true => [ident; ident ++ "Content"]
  | VEnumeration =>
    if v8 then [ident; format_type_name (c_naming c) (name_text (t_name t)) ++ "Value"] else [ident]
  | _ => [ident]
  end.
Definition items (c : config) (v8 : bool) (t : type_info) : list (list string * string) :=
  map (fun n => (module_of c t, n)) (item_names c v8 t).
