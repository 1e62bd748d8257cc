(** What resolving and comparing types means. *)
From Verif Require Import MetaModel.

(** [a] is a plain type definition for [b]: a reference that is not nillable and stands
    for exactly one value. *)
Definition plain_step (ts : types) (a b : tident) : Prop :=
  exists ty, lookup a ts = Some ty /\ m_variant ty = VReference (RefMeta b false 1 (Bounded 1)).

(** Following plain type definitions, zero or more times. *)
Inductive leads (ts : types) : tident -> tident -> Prop :=
| leads_refl a : leads ts a a
| leads_step a b c : plain_step ts a b -> leads ts b c -> leads ts a c.

(** No type is defined, directly or indirectly, as itself. *)
Definition no_loops (ts : types) : Prop := forall a b, plain_step ts a b -> ~ leads ts b a.

(** The identifiers in a type replaced by their images. *)
Section Rename.
  Variable f : tident -> tident.
  Definition rename_base (b : base_meta) : base_meta :=
    match b with BaseNone => BaseNone | BaseExt t => BaseExt (f t) | BaseRes t => BaseRes (f t) end.
  Definition rename_utype (u : union_type) : union_type := UType (f (ut_type u)) (ut_display u).
  Definition rename_evariant (v : enum_variant) : enum_variant :=
    EVariant (ev_ident v) (ev_use v) (option_map f (ev_type v)) (ev_display v) (ev_doc v) (ev_ns v).
  Definition rename_entry (e : tident * derived_meta) : tident * derived_meta :=
    (f (fst e), Derived (f (dt_type (snd e))) (dt_display (snd e)) (dt_rel (snd e))).
  Definition rename_elvar (v : element_variant) : element_variant :=
    match v with EVText => EVText | EVAny m => EVAny m | EVType t m => EVType (f t) m end.
  Definition rename_element (e : element_meta) : element_meta :=
    ElementMeta (el_ident e) (rename_elvar (el_variant e)) (el_form e) (el_flags e) (el_min e) (el_max e) (el_display e) (el_doc e).
  Definition rename_group (g : group_meta) : group_meta := GroupMeta (gr_mixed g) (map rename_element (gr_elements g)).
  Definition rename_avar (v : attr_variant) : attr_variant :=
    match v with AVAny m => AVAny m | AVType t => AVType (f t) end.
  Definition rename_attr (a : attr_meta) : attr_meta :=
    AttrMeta (at_ident a) (rename_avar (at_variant a)) (at_use a) (at_form a) (at_default a) (at_display a) (at_doc a) (at_ns a).
  Definition rename (v : variant) : variant :=
    match v with
    | VUnion x => VUnion (UnionMeta (rename_base (un_base x)) (map rename_utype (un_types x)) (un_constrains x))
    | VReference x => VReference (RefMeta (f (rf_type x)) (rf_nillable x) (rf_min x) (rf_max x))
    | VEnumeration x =>
        VEnumeration (EnumMeta (rename_base (en_base x)) (map rename_evariant (en_variants x)) (en_constrains x))
    | VDynamic x => VDynamic (DynMeta (option_map f (dy_type x)) (dy_abstract x) (map rename_entry (dy_derived x)))
    | VAll x => VAll (rename_group x)
    | VChoice x => VChoice (rename_group x)
    | VSequence x => VSequence (rename_group x)
    | VComplex x =>
        VComplex (ComplexMeta (rename_base (cx_base x)) (option_map f (cx_content x)) (cx_min x) (cx_max x)
          (cx_dynamic x) (cx_mixed x) (map rename_attr (cx_attrs x)))
    | VSimple x => VSimple (SimpleMeta (f (sm_base x)) (sm_list x) (sm_constrains x))
    | VBuildIn x => VBuildIn x
    | VCustom x => VCustom x
    end.
End Rename.

(** Two types are the same up to the names of the types they use: same name to render,
    same data, and the identifiers in them resolve to the same type. *)
Definition same_structure (ts : types) (a b : mtype) : Prop :=
  m_display a = m_display b /\
  rename (resolved_or_self ts) (m_variant a) = rename (resolved_or_self ts) (m_variant b).

(** The types the code can compare: no custom type and no text element. *)
Definition comparable (v : variant) : Prop :=
  match v with
  | VCustom _ => False
  | VAll g | VChoice g | VSequence g => Forall (fun e => el_variant e <> EVText) (gr_elements g)
  | _ => True
  end.
