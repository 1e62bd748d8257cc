(** Interpreted types (xsd-parser/src/models/meta/): the data, resolution of plain
    references, structural equality and hashing. *)
From Verif Require Export IdentModel OccursModel.

(** meta/mod.rs 42-63 [Constrains]; simple.rs 27-38 [WhiteSpace]. *)
Inductive bound := BUnbounded | BIncluded (s : string) | BExcluded (s : string).
Inductive white_space := WPreserve | WReplace | WCollapse.
Record constrains := Constrains {
  co_start : bound; co_end : bound; co_total : option nat; co_fraction : option nat;
  co_patterns : list string; co_min_length : option nat; co_max_length : option nat; co_ws : white_space }.
Definition no_constrains : constrains := Constrains BUnbounded BUnbounded None None [] None None WPreserve.

(** base.rs 11-22 [Base]. *)
Inductive base_meta := BaseNone | BaseExt (t : tident) | BaseRes (t : tident).

(** union.rs 12-35 [UnionMeta], [UnionMetaType]. *)
Record union_type := UType { ut_type : tident; ut_display : option string }.
Record union_meta := UnionMeta { un_base : base_meta; un_types : list union_type; un_constrains : constrains }.

(** type_.rs 85-106 [BuildInMeta]. *)
Inductive build_in :=
| BU8 | BU16 | BU32 | BU64 | BU128 | BUsize | BI8 | BI16 | BI32 | BI64 | BI128 | BIsize
| BF32 | BF64 | BBool | BStr | BString.

(** custom.rs 14-39 [CustomMeta].  Simplification: everything but the name is an opaque
    text (generators are functions). *)
Record custom_meta := CustomMeta { cu_name : string; cu_rest : string }.

(** reference.rs 13-26 [ReferenceMeta]. *)
Record ref_meta := RefMeta { rf_type : tident; rf_nillable : bool; rf_min : nat; rf_max : max_occurs }.

(** [Use] and [FormChoiceType] of the schema model. *)
Inductive use_meta := UseOptional | UseProhibited | UseRequired.
Inductive form_meta := Unqualified | Qualified.

(** enumeration.rs 13-49 [EnumerationMeta], [EnumerationMetaVariant].  Simplification:
    the namespaces attached to a variant are an opaque text. *)
Record enum_variant := EVariant {
  ev_ident : pident; ev_use : use_meta; ev_type : option tident; ev_display : option string;
  ev_doc : list string; ev_ns : option string }.
Record enum_meta := EnumMeta { en_base : base_meta; en_variants : list enum_variant; en_constrains : constrains }.

(** dynamic.rs 12-22 [DynamicMeta], 51-74 [DerivedTypeMeta], [DeriveRelationship].
    The [IndexMap] of derived types is the list of its entries. *)
Inductive relationship := RelConcrete | RelDirect | RelIndirect.
Record derived_meta := Derived { dt_type : tident; dt_display : option string; dt_rel : relationship }.
Record dynamic_meta := DynMeta { dy_type : option tident; dy_abstract : bool; dy_derived : list (tident * derived_meta) }.

(** element.rs 22-46 [ElementMeta], 79-97 [ElementMetaVariant], 103-109 [AnyMeta],
    117-123 [ElementMode]; the flags 51-67 are the bits of a number.  Simplification: of
    the [xs:any] information only the id is kept apart, the rest is an opaque text. *)
Inductive element_mode := ModeElement | ModeGroup.
Record any_meta := AnyMeta { am_id : option string; am_rest : string }.
Inductive element_variant := EVText | EVAny (m : any_meta) | EVType (t : tident) (mode : element_mode).
Record element_meta := ElementMeta {
  el_ident : pident; el_variant : element_variant; el_form : form_meta; el_flags : nat;
  el_min : nat; el_max : max_occurs; el_display : option string; el_doc : list string }.

(** complex.rs 17-49 [GroupMeta], [ComplexMeta]. *)
Record group_meta := GroupMeta { gr_mixed : bool; gr_elements : list element_meta }.

(** attribute.rs 18-67 [AttributeMeta], [AttributeMetaVariant], [AnyAttributeMeta]. *)
Inductive attr_variant := AVAny (m : any_meta) | AVType (t : tident).
Record attr_meta := AttrMeta {
  at_ident : pident; at_variant : attr_variant; at_use : use_meta; at_form : form_meta;
  at_default : option string; at_display : option string; at_doc : list string; at_ns : option string }.

Record complex_meta := ComplexMeta {
  cx_base : base_meta; cx_content : option tident; cx_min : nat; cx_max : max_occurs;
  cx_dynamic : bool; cx_mixed : bool; cx_attrs : list attr_meta }.

(** simple.rs 13-23 [SimpleMeta]. *)
Record simple_meta := SimpleMeta { sm_base : tident; sm_list : bool; sm_constrains : constrains }.

(** type_.rs 46-79 [MetaTypeVariant]. *)
Inductive variant :=
| VUnion (x : union_meta)
| VBuildIn (x : build_in)
| VCustom (x : custom_meta)
| VReference (x : ref_meta)
| VEnumeration (x : enum_meta)
| VDynamic (x : dynamic_meta)
| VAll (x : group_meta)
| VChoice (x : group_meta)
| VSequence (x : group_meta)
| VComplex (x : complex_meta)
| VSimple (x : simple_meta).

(** type_.rs 24-42 [MetaType]. *)
Record mtype := MType {
  m_variant : variant; m_form : option form_meta; m_schema : option nat;
  m_display : option string; m_redefined : option tident; m_doc : list string }.

(** type_.rs 131-140 [MetaType::new]. *)
Definition mtype_new (v : variant) : mtype := MType v None None None None [].
Definition set_variant (t : mtype) (v : variant) : mtype :=
  MType v (m_form t) (m_schema t) (m_display t) (m_redefined t) (m_doc t).

(** types.rs 29: the field [items] of [MetaTypes]; a [BTreeMap] is the list of its
    entries. *)
Definition types := list (tident * mtype).

Fixpoint lookup {V} (i : tident) (l : list (tident * V)) : option V :=
  match l with
  | [] => None
  | (j, v) :: l' => if tident_eq_dec i j then Some v else lookup i l'
  end.

(** [Vec::contains] / [HashSet::contains] of an identifier. *)
Definition contains (i : tident) (l : list tident) : bool :=
  existsb (fun j => is_left (tident_eq_dec i j)) l.

(** reference.rs 31-41 [ReferenceMeta::new], 47-49 [is_single], 56-58 [is_simple]. *)
Definition ref_new (t : tident) : ref_meta := RefMeta t false 1 (Bounded 1).
Definition ref_single (r : ref_meta) : bool := Nat.eqb (rf_min r) 1 && max_eqb (rf_max r) (Bounded 1).
Definition ref_simple (r : ref_meta) : bool := ref_single r && negb (rf_nillable r).

(** A plain reference (a type definition): its target. *)
Definition plain_ref (v : variant) : option tident :=
  match v with
  | VReference r => if ref_simple r then Some (rf_type r) else None
  | _ => None
  end.

(** types.rs 191-226 [get_resolved_impl].  The outer [None] is out of fuel. *)
Fixpoint get_resolved_impl (fuel : nat) (ts : types) (i : tident) (visited : list tident)
  : option (option (tident * mtype)) :=
  match fuel with
  | 0 => None
  | S fuel =>
      if contains i visited then Some None
      else
        match lookup i ts with
        | None => Some None
        | Some ty =>
            match plain_ref (m_variant ty) with
            | Some target =>
                match get_resolved_impl fuel ts target (visited ++ [i]) with
                | None => None
                | Some None => Some (Some (i, ty))
                | Some (Some r) => Some (Some r)
                end
            | None => Some (Some (i, ty))
            end
        end
  end.

(** types.rs 94-119 [get_resolved], [get_resolved_type], [get_resolved_ident].  The fuel
    is never used up (C28). *)
Definition get_resolved (ts : types) (i : tident) : option (tident * mtype) :=
  match get_resolved_impl (S (length ts)) ts i [] with
  | Some r => r
  | None => None
  end.
Definition get_resolved_type (ts : types) (i : tident) : option mtype := option_map snd (get_resolved ts i).
Definition get_resolved_ident (ts : types) (i : tident) : option tident := option_map fst (get_resolved ts i).

(** types.rs 126-128 [get_variant]. *)
Definition get_variant (ts : types) (i : tident) : option variant := option_map m_variant (lookup i ts).

(** The derived [Eq] of the parts. *)
Definition opt_dec {A} (d : forall a b : A, {a = b} + {a <> b}) (a b : option A) : {a = b} + {a <> b}.
Proof. decide equality. Defined.
Definition bound_dec (a b : bound) : {a = b} + {a <> b}.
Proof. decide equality; apply string_dec. Defined.
Definition strs_dec : forall a b : list string, {a = b} + {a <> b} := list_eq_dec string_dec.
Definition constrains_dec (a b : constrains) : {a = b} + {a <> b}.
Proof.
  decide equality; try (apply opt_dec, Nat.eq_dec); try apply bound_dec; try apply strs_dec.
  decide equality.
Defined.
Definition build_in_dec (a b : build_in) : {a = b} + {a <> b}.
Proof. decide equality. Defined.
Definition use_dec (a b : use_meta) : {a = b} + {a <> b}.
Proof. decide equality. Defined.
Definition form_dec (a b : form_meta) : {a = b} + {a <> b}.
Proof. decide equality. Defined.
Definition mode_dec (a b : element_mode) : {a = b} + {a <> b}.
Proof. decide equality. Defined.
Definition rel_dec (a b : relationship) : {a = b} + {a <> b}.
Proof. decide equality. Defined.
Definition any_dec (a b : any_meta) : {a = b} + {a <> b}.
Proof. decide equality; [apply string_dec|apply opt_dec, string_dec]. Defined.
Definition optstr_dec : forall a b : option string, {a = b} + {a <> b} := opt_dec string_dec.

Section TypeEq.
  Variable ts : types.

  (** type_eq.rs 58-69 [TypeEq for TypeIdent]. *)
  Definition resolved_or_self (i : tident) : tident :=
    match get_resolved_ident ts i with Some j => j | None => i end.
  Definition ti_type_eq (a b : tident) : bool := is_left (tident_eq_dec (resolved_or_self a) (resolved_or_self b)).

  (** type_eq.rs 36-55 [type_eq_iter]. *)
  Fixpoint type_eq_iter {A} (eq : A -> A -> bool) (x y : list A) : bool :=
    match x, y with
    | [], [] => true
    | a :: x', b :: y' => if eq a b then type_eq_iter eq x' y' else false
    | _, _ => false
    end.

  (** type_eq.rs 99-118 [TypeEq for Option]. *)
  Definition opt_type_eq (a b : option tident) : bool :=
    match a, b with
    | Some x, Some y => ti_type_eq x y
    | None, None => true
    | _, _ => false
    end.

  (** base.rs 71-81. *)
  Definition base_type_eq (a b : base_meta) : bool :=
    match a, b with
    | BaseNone, BaseNone => true
    | BaseExt x, BaseExt y => ti_type_eq x y
    | BaseRes x, BaseRes y => ti_type_eq x y
    | _, _ => false
    end.

  (** union.rs 52-62, 89-96, 120-122. *)
  Definition utype_type_eq (a b : union_type) : bool :=
    ti_type_eq (ut_type a) (ut_type b) && is_left (optstr_dec (ut_display a) (ut_display b)).
  Definition union_type_eq (a b : union_meta) : bool :=
    base_type_eq (un_base a) (un_base b) && type_eq_iter utype_type_eq (un_types a) (un_types b) &&
    is_left (constrains_dec (un_constrains a) (un_constrains b)).

  (** reference.rs 118-130. *)
  Definition ref_type_eq (a b : ref_meta) : bool :=
    ti_type_eq (rf_type a) (rf_type b) && Bool.eqb (rf_nillable a) (rf_nillable b) &&
    Nat.eqb (rf_min a) (rf_min b) && max_eqb (rf_max a) (rf_max b).

  (** enumeration.rs 66-76, 123-139, 163-165. *)
  Definition evariant_type_eq (a b : enum_variant) : bool :=
    is_left (pident_eq_dec (ev_ident a) (ev_ident b)) && is_left (use_dec (ev_use a) (ev_use b)) &&
    opt_type_eq (ev_type a) (ev_type b) && is_left (optstr_dec (ev_display a) (ev_display b)) &&
    is_left (strs_dec (ev_doc a) (ev_doc b)) && is_left (optstr_dec (ev_ns a) (ev_ns b)).
  Definition enum_type_eq (a b : enum_meta) : bool :=
    base_type_eq (en_base a) (en_base b) && type_eq_iter evariant_type_eq (en_variants a) (en_variants b) &&
    is_left (constrains_dec (en_constrains a) (en_constrains b)).

  (** dynamic.rs 37-47, 131-141; the entries are pairs (type_eq.rs 84-97). *)
  Definition derived_type_eq (a b : derived_meta) : bool :=
    ti_type_eq (dt_type a) (dt_type b) && is_left (optstr_dec (dt_display a) (dt_display b)) &&
    is_left (rel_dec (dt_rel a) (dt_rel b)).
  Definition entry_type_eq (a b : tident * derived_meta) : bool :=
    ti_type_eq (fst a) (fst b) && derived_type_eq (snd a) (snd b).
  Definition dynamic_type_eq (a b : dynamic_meta) : bool :=
    opt_type_eq (dy_type a) (dy_type b) && Bool.eqb (dy_abstract a) (dy_abstract b) &&
    type_eq_iter entry_type_eq (dy_derived a) (dy_derived b).

  (** element.rs 322-337, 231-251, 299-301. *)
  Definition evariant_eq (a b : element_variant) : bool :=
    match a, b with
    | EVAny x, EVAny y => is_left (any_dec x y)
    | EVType x m, EVType y n => is_left (mode_dec m n) && ti_type_eq x y
    | _, _ => false
    end.
  Definition element_type_eq (a b : element_meta) : bool :=
    is_left (pident_eq_dec (el_ident a) (el_ident b)) && evariant_eq (el_variant a) (el_variant b) &&
    is_left (form_dec (el_form a) (el_form b)) && Nat.eqb (el_flags a) (el_flags b) &&
    Nat.eqb (el_min a) (el_min b) && max_eqb (el_max a) (el_max b) &&
    is_left (optstr_dec (el_display a) (el_display b)) && is_left (strs_dec (el_doc a) (el_doc b)).

  (** complex.rs 94-98. *)
  Definition group_type_eq (a b : group_meta) : bool :=
    Bool.eqb (gr_mixed a) (gr_mixed b) && type_eq_iter element_type_eq (gr_elements a) (gr_elements b).

  (** attribute.rs 154-174, 198-200, 219-225. *)
  Definition avariant_eq (a b : attr_variant) : bool :=
    match a, b with
    | AVAny x, AVAny y => is_left (any_dec x y)
    | AVType x, AVType y => ti_type_eq x y
    | _, _ => false
    end.
  Definition attr_type_eq (a b : attr_meta) : bool :=
    is_left (pident_eq_dec (at_ident a) (at_ident b)) && avariant_eq (at_variant a) (at_variant b) &&
    is_left (use_dec (at_use a) (at_use b)) && is_left (form_dec (at_form a) (at_form b)) &&
    is_left (optstr_dec (at_default a) (at_default b)) && is_left (optstr_dec (at_display a) (at_display b)) &&
    is_left (strs_dec (at_doc a) (at_doc b)) && is_left (optstr_dec (at_ns a) (at_ns b)).

  (** complex.rs 222-240. *)
  Definition complex_type_eq (a b : complex_meta) : bool :=
    base_type_eq (cx_base a) (cx_base b) && opt_type_eq (cx_content a) (cx_content b) &&
    Nat.eqb (cx_min a) (cx_min b) && max_eqb (cx_max a) (cx_max b) &&
    Bool.eqb (cx_dynamic a) (cx_dynamic b) && Bool.eqb (cx_mixed a) (cx_mixed b) &&
    type_eq_iter attr_type_eq (cx_attrs a) (cx_attrs b).

  (** simple.rs 65-75. *)
  Definition simple_type_eq (a b : simple_meta) : bool :=
    ti_type_eq (sm_base a) (sm_base b) && Bool.eqb (sm_list a) (sm_list b) &&
    is_left (constrains_dec (sm_constrains a) (sm_constrains b)).

  (** type_.rs 208-229 [type_eq]. *)
  Definition type_eq (a b : mtype) : bool :=
    if optstr_dec (m_display a) (m_display b) then
      match m_variant a, m_variant b with
      | VUnion x, VUnion y => union_type_eq x y
      | VBuildIn x, VBuildIn y => is_left (build_in_dec x y)
      | VReference x, VReference y => ref_type_eq x y
      | VEnumeration x, VEnumeration y => enum_type_eq x y
      | VDynamic x, VDynamic y => dynamic_type_eq x y
      | VAll x, VAll y => group_type_eq x y
      | VChoice x, VChoice y => group_type_eq x y
      | VSequence x, VSequence y => group_type_eq x y
      | VComplex x, VComplex y => complex_type_eq x y
      | VSimple x, VSimple y => simple_type_eq x y
      | _, _ => false
      end
    else false.

  (** What a hasher is fed with.  Simplification: a derived [Hash] feeds some function of
      the value, so the value itself stands for it. *)
  Inductive htok :=
  | HByte (n : nat) | HCount (n : nat) | HIdent (i : tident) | HProp (p : pident) | HOptStr (s : option string)
  | HStrs (l : list string) | HCons (c : constrains) | HBool (b : bool) | HNat (n : nat) | HMax (m : max_occurs)
  | HUse (u : use_meta) | HForm (f : form_meta) | HMode (m : element_mode) | HRel (r : relationship)
  | HBuildIn (b : build_in) | HStr (s : string).

  (** type_eq.rs 59-61, 18-29, 103-110. *)
  Definition ti_hash (i : tident) : list htok := [HIdent (resolved_or_self i)].
  Definition hash_iter {A} (h : A -> list htok) (l : list A) : list htok := flat_map h l ++ [HCount (length l)].
  Definition opt_hash (o : option tident) : list htok :=
    match o with Some i => HByte 1 :: ti_hash i | None => [HByte 0] end.
  (** base.rs 57-69. *)
  Definition base_hash (b : base_meta) : list htok :=
    match b with BaseNone => [HByte 0] | BaseExt i => HByte 1 :: ti_hash i | BaseRes i => HByte 2 :: ti_hash i end.
  (** union.rs 40-50, 79-87. *)
  Definition utype_hash (u : union_type) : list htok := ti_hash (ut_type u) ++ [HOptStr (ut_display u)].
  Definition union_hash (u : union_meta) : list htok :=
    base_hash (un_base u) ++ hash_iter utype_hash (un_types u) ++ [HCons (un_constrains u)].
  (** reference.rs 104-116. *)
  Definition ref_hash (r : ref_meta) : list htok :=
    ti_hash (rf_type r) ++ [HBool (rf_nillable r); HNat (rf_min r); HMax (rf_max r)].
  (** enumeration.rs 54-64, 105-121. *)
  Definition evariant_hash (v : enum_variant) : list htok :=
    [HProp (ev_ident v); HUse (ev_use v)] ++ opt_hash (ev_type v) ++
    [HOptStr (ev_display v); HStrs (ev_doc v); HOptStr (ev_ns v)].
  Definition enum_hash (e : enum_meta) : list htok :=
    base_hash (en_base e) ++ hash_iter evariant_hash (en_variants e) ++ [HCons (en_constrains e)].
  (** dynamic.rs 25-35, 119-129. *)
  Definition entry_hash (e : tident * derived_meta) : list htok :=
    ti_hash (fst e) ++ ti_hash (dt_type (snd e)) ++ [HOptStr (dt_display (snd e)); HRel (dt_rel (snd e))].
  Definition dynamic_hash (d : dynamic_meta) : list htok :=
    opt_hash (dy_type d) ++ [HBool (dy_abstract d)] ++ hash_iter entry_hash (dy_derived d).
  (** element.rs 307-320, 209-229; 342-349: only the id of an [xs:any] is hashed. *)
  Definition element_hash (e : element_meta) : list htok :=
    [HProp (el_ident e)] ++
    match el_variant e with
    | EVAny m => [HByte 0; HOptStr (am_id m)]
    | EVType t mode => HByte 1 :: ti_hash t ++ [HMode mode]
    | EVText => [HByte 2]
    end ++
    [HForm (el_form e); HNat (el_flags e); HNat (el_min e); HMax (el_max e); HOptStr (el_display e); HStrs (el_doc e)].
  (** complex.rs 87-92. *)
  Definition group_hash (g : group_meta) : list htok := HBool (gr_mixed g) :: hash_iter element_hash (gr_elements g).
  (** attribute.rs 132-152, 206-217, 230-237. *)
  Definition attr_hash (a : attr_meta) : list htok :=
    [HProp (at_ident a)] ++
    match at_variant a with
    | AVAny m => [HByte 0; HOptStr (am_id m)]
    | AVType t => HByte 1 :: ti_hash t
    end ++
    [HUse (at_use a); HForm (at_form a); HOptStr (at_default a); HOptStr (at_display a); HStrs (at_doc a); HOptStr (at_ns a)].
  (** complex.rs 202-220. *)
  Definition complex_hash (c : complex_meta) : list htok :=
    base_hash (cx_base c) ++ opt_hash (cx_content c) ++
    [HNat (cx_min c); HMax (cx_max c); HBool (cx_dynamic c); HBool (cx_mixed c)] ++ hash_iter attr_hash (cx_attrs c).
  (** simple.rs 53-63. *)
  Definition simple_hash (s : simple_meta) : list htok :=
    ti_hash (sm_base s) ++ [HBool (sm_list s); HCons (sm_constrains s)].

  (** type_.rs 187-206 [type_hash]. *)
  Definition type_hash (t : mtype) : list htok :=
    HOptStr (m_display t) ::
    match m_variant t with
    | VUnion x => union_hash x
    | VCustom x => [HStr (cu_name x)]
    | VBuildIn x => [HBuildIn x]
    | VReference x => ref_hash x
    | VEnumeration x => enum_hash x
    | VDynamic x => dynamic_hash x
    | VAll x | VChoice x | VSequence x => group_hash x
    | VComplex x => complex_hash x
    | VSimple x => simple_hash x
    end.
End TypeEq.
