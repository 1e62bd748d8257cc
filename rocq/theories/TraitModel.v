(** The traits of dynamic types: which generated types implement them
    (xsd-parser/src/pipeline/generator/mod.rs, state.rs, context.rs 129-178).

    The types that the code of a type asks for are those of BoxModel; here the state has,
    in addition, the table of traits. *)
From Verif Require Export BoxModel.

(** config/generator.rs [TypedefMode]. *)
Inductive typedef_mode := TDAuto | TDTypedef | TDNewType.

Section Traits.
  Variable ts : types.
  Variable flags : box_flags.
  (** As in BoxModel; asked for last here. *)
  Variable mentions : tident -> list tident.

  (** What the code of a type asks for before and after its traits are looked up:
      data/reference.rs 21-25 and data/simple.rs 29-33 ask first; data/union.rs 19,
      enumeration.rs 27, dynamic.rs 21-22 and complex.rs 526 (called at 175, 228 and 359,
      before the fields) look up first. *)
  Definition asks_first (v : variant) : bool :=
    match v with VReference _ | VSimple _ => true | _ => false end.
  Definition asked (v : variant) : list tident := map us_target (uses ts flags v).

  (** state.rs 15-20 [State], 118-122 [TraitInfo]: [tg_impl] and [tg_derive] are the
      entries (derived type, base type) of [traits_to_impl] and [traits_to_derive];
      [tg_done]: the generated types with their [trait_impls] and [sub_traits]. *)
  Record tgen := TGen {
    tg_cache : list tident; tg_pending : list tident;
    tg_impl : list (tident * tident); tg_derive : list (tident * tident);
    tg_done : list (tident * (list tident * list tident)) }.

  (** state.rs 74-107 [TraitInfos::update]. *)
  Definition is_dynamic_type (i : tident) : bool :=
    match get_variant ts i with Some (VDynamic _) => true | _ => false end.
  Definition derived_of (b : tident) : list derived_meta :=
    match get_variant ts b with Some (VDynamic d) => map snd (dy_derived d) | _ => [] end.
  Definition same_kind (a b : tident) : bool := if ident_type_eq_dec (ti_type a) (ti_type b) then true else false.
  Definition is_direct_child (m : derived_meta) : bool := match dt_rel m with RelDirect => true | _ => false end.
  Definition impl_entries (b : tident) : list (tident * tident) :=
    map (fun m => (dt_type m, b)) (derived_of b).
  Definition derive_entries (b : tident) : list (tident * tident) :=
    flat_map (fun m => if is_dynamic_type (dt_type m) && same_kind b (dt_type m) && is_direct_child m
                       then [(dt_type m, b)] else []) (derived_of b).

  (** mod.rs 442-457 [get_or_create_type_ref_mut], 459-523 [create_type_ref]. *)
  Definition request (g : tgen) (i : tident) : outcome gen_error tgen :=
    if contains i (tg_cache g) then Ok g
    else match lookup i ts with
         | None => Err (UnknownType i)
         | Some _ => Ok (TGen (tg_cache g ++ [i]) (tg_pending g ++ [i])
                              (tg_impl g ++ impl_entries i) (tg_derive g ++ derive_entries i) (tg_done g))
         end.
  Fixpoint requests (g : tgen) (l : list tident) : outcome gen_error tgen :=
    match l with
    | [] => Ok g
    | i :: l' => match request g i with Ok g' => requests g' l' | Err e => Err e | Panic => Panic end
    end.

  (** The entry of a type in one of the tables: a [BTreeSet].  Simplification: its order
      is left out. *)
  Definition entry (i : tident) (l : list (tident * tident)) : list tident :=
    nodup tident_eq_dec (map snd (filter (fun p => if tident_eq_dec (fst p) i then true else false) l)).

  (** data/mod.rs 24-30 [BuildInData::new], data/custom.rs: these types have no traits. *)
  Definition has_impls (v : variant) : bool := match v with VBuildIn _ | VCustom _ => false | _ => true end.

  (** mod.rs 426-437 [generate_type_intern] with data/type_.rs 14-35 [DataType::new];
      context.rs 129-150 [make_trait_impls], 152-178 [make_traits_derive], which is only
      called for dynamic types. *)
  Definition generate_one (g : tgen) (i : tident) : outcome gen_error tgen :=
    let v := match get_variant ts i with Some v => v | None => VBuildIn BString end in
    match requests g (if asks_first v then asked v else []) with
    | Err e => Err e
    | Panic => Panic
    | Ok g1 =>
      let bases := if has_impls v then entry i (tg_impl g1) else [] in
      match requests g1 bases with
      | Err e => Err e
      | Panic => Panic
      | Ok g2 =>
        let supers := if is_dynamic_type i then entry i (tg_derive g2) else [] in
        match requests g2 supers with
        | Err e => Err e
        | Panic => Panic
        | Ok g3 =>
          match requests g3 ((if asks_first v then [] else asked v) ++ mentions i) with
          | Err e => Err e
          | Panic => Panic
          | Ok g4 => Ok (TGen (tg_cache g4) (tg_pending g4) (tg_impl g4) (tg_derive g4)
                              (tg_done g4 ++ [(i, (bases, supers))]))
          end
        end
      end
    end.

  (** mod.rs 417-423 [generate_pending]; a panic stands for running out of fuel. *)
  Fixpoint trait_pending (fuel : nat) (g : tgen) : outcome gen_error tgen :=
    match tg_pending g with
    | [] => Ok g
    | i :: rest =>
      match fuel with
      | 0 => Panic
      | S fuel =>
        match generate_one (TGen (tg_cache g) rest (tg_impl g) (tg_derive g) (tg_done g)) i with
        | Ok g' => trait_pending fuel g'
        | Err e => Err e
        | Panic => Panic
        end
      end
    end.

  (** mod.rs 344-405: a call to [generate_type], [generate_named_types] or
      [generate_all_types] requests its types, then works off the queue. *)
  Definition trait_call (g : tgen) (l : list tident) : outcome gen_error tgen :=
    match requests g l with
    | Ok g' => trait_pending (S (length ts)) g'
    | Err e => Err e
    | Panic => Panic
    end.
  Fixpoint trait_calls (g : tgen) (l : list (list tident)) : outcome gen_error tgen :=
    match l with
    | [] => Ok g
    | b :: l' => match trait_call g b with Ok g' => trait_calls g' l' | Err e => Err e | Panic => Panic end
    end.

  (** mod.rs 263-278 [with_type]. *)
  Definition trait_new (fixed : list tident) : tgen := TGen (nodup tident_eq_dec fixed) [] [] [] [].

  (** A whole use of the generator. *)
  Definition trait_generate (fixed : list tident) (calls : list (list tident)) : outcome gen_error tgen :=
    trait_calls (trait_new fixed) calls.
End Traits.

(** data/reference.rs 18-32, renderer/steps/types.rs 152-162: an alias is the same Rust
    type as its target. *)
Definition alias_target (ts : types) (mode : typedef_mode) (nillable_support : bool) (i : tident) : option tident :=
  match get_variant ts i with
  | Some (VReference r) =>
    match mode, from_occurs (rf_min r) (rf_max r) with
    | TDNewType, _ => None
    | _, OSingle => if rf_nillable r && nillable_support then None else Some (rf_type r)
    | _, _ => None
    end
  | _ => None
  end.
