(** Simple types: how the interpreter turns the simple types of a schema into types
    (xsd-parser/src/pipeline/interpreter/state/generate_types/variant_processor.rs), and how
    the generated code reads and writes their values
    (xsd-parser/src/pipeline/renderer/steps/mod.rs,
    xsd-parser/src/pipeline/renderer/steps/quick_xml/deserialize.rs and serialize.rs).

    Texts are sequences of Unicode scalar values.  Simplification: bytes that are no UTF-8
    are not modelled (they are an error everywhere); types are trees instead of names; the
    optimizer and [GeneratorFlags::ADVANCED_ENUMS] are left out. *)
From Verif Require Export FacetModel.

(** ** The schema *)

(** models/meta/simple.rs 26-38 [WhiteSpace]. *)
Inductive white := WPreserve | WReplace | WCollapse.

(** models/schema/xs.rs [Facet].  Simplification: numbers are parsed already; facets that
    the code ignores (assertions, explicit time zones) are left out. *)
Inductive facet :=
| FEnumeration (v : str)
| FPattern (p : str)
| FLength (n : nat)
| FMinLength (n : nat)
| FMaxLength (n : nat)
| FMinInclusive (v : str)
| FMinExclusive (v : str)
| FMaxInclusive (v : str)
| FMaxExclusive (v : str)
| FTotalDigits (n : nat)
| FFractionDigits (n : nat)
| FWhiteSpace (w : white).

(** models/schema/xs.rs [SimpleBaseType].  [SBuiltin b true]: one of the lists
    [xs:NMTOKENS], [xs:IDREFS], [xs:ENTITIES].  [SRestriction inline base facets]: [inline]
    if the base is a child element instead of the attribute [base]. *)
Inductive sdef :=
| SBuiltin (b : nat) (is_list : bool)
| SRestriction (inline : bool) (base : sdef) (facets : list facet)
| SList (item : sdef)
| SUnion (members : list sdef).

(** ** The interpreter *)

Inductive bound := Unbounded | Included (v : str) | Excluded (v : str).

(** models/meta/mod.rs 40-63 [Constrains]. *)
Record constrains := Constrains {
  c_start : bound; c_end : bound; c_total : option nat; c_fraction : option nat;
  c_patterns : list str; c_min : option nat; c_max : option nat; c_white : white }.

(** models/meta/mod.rs 65-80. *)
Definition no_constrains : constrains := Constrains Unbounded Unbounded None None [] None None WPreserve.

(** models/meta/type_.rs 48-94 [MetaTypeVariant], the variants of simple types.  A
    reference occurs once, or any number of times if it is a list
    (interpreter/mod.rs 186-306 [with_default_typedefs], [apply_list]). *)
Inductive smeta :=
| MBuildIn (b : nat)
| MRef (ty : smeta) (is_list : bool)
| MSimple (base : smeta) (is_list : bool) (c : constrains)
| MEnum (c : constrains) (variants : list str)
| MUnion (c : constrains) (types : list smeta).

(** variant_processor.rs 1068-1120: the match on the facet. *)
Definition set_facet (f : facet) (c : constrains) : constrains :=
  let 'Constrains st en tot fra pat mi ma wh := c in
  match f with
  | FMinExclusive v => Constrains (Excluded v) en tot fra pat mi ma wh
  | FMinInclusive v => Constrains (Included v) en tot fra pat mi ma wh
  | FMaxExclusive v => Constrains st (Excluded v) tot fra pat mi ma wh
  | FMaxInclusive v => Constrains st (Included v) tot fra pat mi ma wh
  | FTotalDigits n => Constrains st en (Some n) fra pat mi ma wh
  | FFractionDigits n => Constrains st en tot (Some n) pat mi ma wh
  | FLength n => Constrains st en tot fra pat (Some n) (Some n) wh
  | FMinLength n => Constrains st en tot fra pat (Some n) ma wh
  | FMaxLength n => Constrains st en tot fra pat mi (Some n) wh
  | FWhiteSpace w => Constrains st en tot fra pat mi ma w
  | FPattern p => Constrains st en tot fra (pat ++ [p]) mi ma wh
  | FEnumeration _ => c
  end.

(** The state of [VariantProcessor]: [variant] and [fixed]. *)
Definition pstate := (smeta * bool)%type.

Inductive ierror := InvalidBound.

Definition str_eq_dec (a b : str) : {a = b} + {a <> b} := list_eq_dec N.eq_dec a b.

(** variant_processor.rs 1037-1125 [apply_simple_type_facet]. *)
Definition apply_simple_type_facet (f : facet) (st : pstate) : outcome ierror pstate :=
  let (m, fixed) := st in
  match m with
  | MSimple base l c => Ok (MSimple base l (set_facet f c), fixed)
  | MRef ty l =>
      let c := if l then Constrains Unbounded Unbounded None None [] (Some 0) None WPreserve else no_constrains in
      Ok (MSimple ty l (set_facet f c), true)
  | MEnum c vs => Ok (MEnum (set_facet f c) vs, fixed)
  | MUnion c ts => Ok (MUnion (set_facet f c) ts, fixed)
  | MBuildIn _ => Panic
  end.

(** [find_or_insert]: a name is inserted once. *)
Definition insert_variant (v : str) (vs : list str) : list str :=
  if in_dec str_eq_dec v vs then vs else vs ++ [v].

(** variant_processor.rs 1127-1155 [apply_enumeration], 80-109 [init_any],
    [get_or_init_any]. *)
Definition apply_enumeration (v : str) (st : pstate) : outcome ierror pstate :=
  let name := str_trim v in
  let (m, fixed) :=
    match st with
    | (MSimple _ _ c, _) => (MEnum c [], true)
    | _ => st
    end in
  match m with
  | MEnum c vs => Ok (MEnum c (insert_variant name vs), fixed)
  | _ => if fixed then Panic else Ok (MEnum no_constrains [name], true)
  end.

(** variant_processor.rs 1015-1035 [apply_facet]. *)
Definition apply_facet (f : facet) (st : pstate) : outcome ierror pstate :=
  match f with
  | FEnumeration v => apply_enumeration v st
  | _ => apply_simple_type_facet f st
  end.

Fixpoint apply_facets (fs : list facet) (st : pstate) : outcome ierror pstate :=
  match fs with
  | [] => Ok st
  | f :: fs' =>
      match apply_facet f st with
      | Ok st' => apply_facets fs' st'
      | Err e => Err e
      | Panic => Panic
      end
  end.

(** variant_processor.rs 1230-1345 [copy_base_type], for simple types. *)
Definition copy_base (m : smeta) : smeta :=
  match m with MEnum c _ => MEnum c [] | _ => m end.

(** variant_processor.rs 319-338 [apply_simple_type], 432-469
    [apply_simple_type_restriction], 1158-1183 [apply_union], 1187-1215 [apply_list]. *)
Fixpoint interpret (d : sdef) : outcome ierror pstate :=
  match d with
  | SBuiltin b l => Ok (MRef (MBuildIn b) l, false)
  | SList item =>
      match interpret item with
      | Ok (m, _) => Ok (MRef m true, true)
      | Err e => Err e
      | Panic => Panic
      end
  | SUnion members =>
      match
        (fix all (l : list sdef) : outcome ierror (list smeta) :=
           match l with
           | [] => Ok []
           | d :: l' =>
               match interpret d with
               | Ok (m, _) => match all l' with Ok ms => Ok (m :: ms) | Err e => Err e | Panic => Panic end
               | Err e => Err e
               | Panic => Panic
               end
           end) members
      with
      | Ok ms => Ok (MUnion no_constrains ms, true)
      | Err e => Err e
      | Panic => Panic
      end
  | SRestriction inline base fs =>
      match interpret base with
      | Ok (m, fixed) => apply_facets fs (if inline then (m, fixed) else (copy_base m, false))
      | Err e => Err e
      | Panic => Panic
      end
  end.

(** models/data/mod.rs 76-80 [need_string_validation]; deserialize.rs 855-874
    [render_validation]: whether there is any. *)
Definition need_string_validation (c : constrains) : bool :=
  match c_patterns c, c_total c, c_fraction c with [], None, None => false | _, _, _ => true end.
Definition has_validation (c : constrains) : bool :=
  match c_white c with WPreserve => need_string_validation c | _ => true end.

(** ** The generated code *)

Section Code.
  (** The values of the built-in types, [FromStr], [Display] and the operators of the Rust
      types that stand for them; the regular expressions. *)
  Context {atom : Type}.
  Variable parse : nat -> str -> option atom.
  Variable lt le : atom -> atom -> bool.
  Variable size : atom -> nat.
  Variable matches : str -> str -> bool.

  (** Values of generated types.  Simplification: new-type structures are left out. *)
  Inductive value :=
  | VAtom (a : atom)
  | VList (l : list value)
  | VEnum (name : str)
  | VUnion (variant : nat) (v : value).

  Inductive rerror :=
  | RInvalid | RUnknown | RUnion | RPattern | RDigits
  | RLessThan | RLessEqualThan | RGreaterThan | RGreaterEqualThan | RMinLength | RMaxLength.

  (** generator/context.rs 182-370 [make_value_renderer] for the values of bounds: those of
      built-in types, references are followed.  Simplification: other types cannot have
      bounds. *)
  Fixpoint make_bound (m : smeta) (v : str) : option atom :=
    match m with
    | MBuildIn b => parse b v
    | MRef ty false => make_bound ty v
    | _ => None
    end.

  (** generator/data/constrains.rs 10-46 [ConstrainsData::new]. *)
  Definition bound_ok (m : smeta) (b : bound) : bool :=
    match b with
    | Unbounded => true
    | Included v | Excluded v => match make_bound m v with Some _ => true | None => false end
    end.

  (** generator/data/simple.rs 10-43 [SimpleData::new]; deserialize.rs (renderer) 816-835:
      the code of a type is generated, or this fails or panics. *)
  Fixpoint generate (m : smeta) : outcome ierror unit :=
    match m with
    | MBuildIn _ => Ok tt
    | MRef ty _ => generate ty
    | MSimple base l c =>
        match generate base with
        | Ok _ =>
            if bound_ok base (c_start c) && bound_ok base (c_end c)
            then if l && has_validation c then Panic else Ok tt
            else Err InvalidBound
        | r => r
        end
    | MEnum _ _ => Ok tt
    | MUnion _ types =>
        (fix all (l : list smeta) : outcome ierror unit :=
           match l with
           | [] => Ok tt
           | m :: l' => match generate m with Ok _ => all l' | r => r end
           end) types
    end.

  (** deserialize.rs (renderer) 876-901 [render_whitespace]; steps/mod.rs 173-194
      [render_fn_validate_str], 225-252 [render_validate_pattern], 254-274 the digits. *)
  Definition normalized (w : white) (s : str) : str :=
    match w with
    | WPreserve => s
    | WReplace => whitespace_replace s
    | WCollapse => str_trim (whitespace_collapse s)
    end.
  Definition validate_str (c : constrains) (s : str) : outcome rerror unit :=
    match c_patterns c with
    | [] => Ok tt
    | ps => if existsb (fun p => matches p s) ps then Ok tt else Err RPattern
    end.
  Definition validate_digits (c : constrains) (s : str) : outcome rerror unit :=
    match (match c_total c with Some n => total_digits s n | None => Ok tt end) with
    | Ok _ =>
        match (match c_fraction c with Some n => fraction_digits s n | None => Ok tt end) with
        | Ok _ => Ok tt
        | Err _ => Err RDigits
        | Panic => Panic
        end
    | Err _ => Err RDigits
    | Panic => Panic
    end.
  Definition validation (c : constrains) (t : str) : outcome rerror str :=
    let s := normalized (c_white c) t in
    match validate_str c s with
    | Ok _ => match validate_digits c s with Ok _ => Ok s | Err e => Err e | Panic => Panic end
    | Err e => Err e
    | Panic => Panic
    end.

  (** steps/mod.rs 196-223 [render_fn_validate_value], 318-388 the bounds, 276-316 the
      lengths.  [len()] is the number of bytes of a string and the number of items of a
      list.  Simplification: code that compares or measures other values does not compile;
      here they pass. *)
  Definition check (b : bool) (e : rerror) : outcome rerror unit := if b then Err e else Ok tt.
  Definition compare_with (base : smeta) (v : str) (x : value) (f : atom -> atom -> bool) : bool :=
    match x, make_bound base v with VAtom a, Some y => f a y | _, _ => false end.
  Definition validate_range (base : smeta) (c : constrains) (x : value) : outcome rerror unit :=
    match
      match c_start c with
      | Unbounded => Ok tt
      | Included v => check (compare_with base v x lt) RLessThan
      | Excluded v => check (compare_with base v x le) RLessEqualThan
      end
    with
    | Ok _ =>
        match c_end c with
        | Unbounded => Ok tt
        | Included v => check (compare_with base v x (fun a y => lt y a)) RGreaterThan
        | Excluded v => check (compare_with base v x (fun a y => le y a)) RGreaterEqualThan
        end
    | r => r
    end.
  Definition len (x : value) : option nat :=
    match x with VAtom a => Some (size a) | VList l => Some (length l) | _ => None end.
  Definition validate_length (c : constrains) (x : value) : outcome rerror unit :=
    match len x with
    | None => Ok tt
    | Some n =>
        match match c_min c with None => Ok tt | Some k => check (Nat.ltb n k) RMinLength end with
        | Ok _ => match c_max c with None => Ok tt | Some k => check (Nat.ltb k n) RMaxLength end
        | r => r
        end
    end.
  Definition validate_value (base : smeta) (c : constrains) (x : value) : outcome rerror unit :=
    match validate_range base c x with Ok _ => validate_length c x | r => r end.

  (** [deserialize_list] (xsd-parser-types/src/quick_xml/deserialize.rs 752-767) on
      characters: [trim_ascii], then [split]. *)
  Definition ascii_ws (c : N) : bool := ((c =? 9) || (c =? 10) || (c =? 12) || (c =? 13) || (c =? 32))%N.
  Definition item_sep (c : N) : bool := ((c =? 32) || (c =? 9) || (c =? 13) || (c =? 10))%N.
  Fixpoint ascii_trim_start (s : str) : str :=
    match s with
    | [] => []
    | c :: s' => if ascii_ws c then ascii_trim_start s' else s
    end.
  Definition ascii_trim (s : str) : str := rev (ascii_trim_start (rev (ascii_trim_start s))).
  Fixpoint split_items (s : str) : list str :=
    match s with
    | [] => [[]]
    | c :: s' =>
        if item_sep c then [] :: split_items s'
        else match split_items s' with w :: ws => (c :: w) :: ws | [] => [[c]] end
    end.
  Definition list_items (t : str) : list str :=
    match ascii_trim t with [] => [] | s => split_items s end.

  Section Items.
    Variable item : str -> outcome rerror value.
    Fixpoint read_items (l : list str) : outcome rerror (list value) :=
      match l with
      | [] => Ok []
      | t :: l' =>
          match item t with
          | Ok v => match read_items l' with Ok vs => Ok (v :: vs) | Err e => Err e | Panic => Panic end
          | Err e => Err e
          | Panic => Panic
          end
      end.
  End Items.

  (** deserialize.rs (renderer) 89-168 [UnionData], 557-625 [ReferenceData], 627-790
      [EnumerationData], 792-850 [SimpleData]: the generated [deserialize_bytes].  [s] is
      the text after the validation. *)
  Fixpoint read (m : smeta) (t : str) : outcome rerror value :=
    match m with
    | MBuildIn b => match parse b t with Some a => Ok (VAtom a) | None => Err RInvalid end
    | MRef ty false => read ty t
    | MRef ty true => match read_items (read ty) (list_items t) with Ok l => Ok (VList l) | Err e => Err e | Panic => Panic end
    | MSimple base l c =>
        match validation c t with
        | Ok s =>
            match
              (if l then match read_items (read base) (list_items t) with Ok vs => Ok (VList vs) | Err e => Err e | Panic => Panic end
               else read base s)
            with
            | Ok x => match validate_value base c x with Ok _ => Ok x | Err e => Err e | Panic => Panic end
            | r => r
            end
        | Err e => Err e
        | Panic => Panic
        end
    | MEnum c vs =>
        match validation c t with
        | Ok _ => if in_dec str_eq_dec t vs then Ok (VEnum t) else Err RUnknown
        | Err e => Err e
        | Panic => Panic
        end
    | MUnion c types =>
        match validation c t with
        | Ok s =>
            (fix try (i : nat) (l : list smeta) : outcome rerror value :=
               match l with
               | [] => Err RUnion
               | m :: l' =>
                   match read m s with
                   | Ok v => Ok (VUnion i v)
                   | Err _ => try (S i) l'
                   | Panic => Panic
                   end
               end) 0 types
        | Err e => Err e
        | Panic => Panic
        end
    end.
End Code.
Arguments value : clear implicits.
