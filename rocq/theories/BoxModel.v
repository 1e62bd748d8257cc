(** The generator: which types get generated, and which fields are boxed
    (xsd-parser/src/pipeline/generator/).

    Simplification: a type gets a number when it enters the cache (state.rs 127-133
    [next_id]) and the sets of types are bit sets of these numbers; the numbers are
    one-to-one with the identifiers, so the sets are lists of identifiers here. *)
From Verif Require Export MetaModel.

(** models/data/occurs.rs 5-22 [Occurs], 28-36 [from_occurs], 46-49 [is_direct]. *)
Inductive occurs := ONone | OSingle | OOptional | ODynamic | OStatic (n : nat).
Definition from_occurs (min : nat) (max : max_occurs) : occurs :=
  match min, max with
  | 0, Bounded 0 => ONone
  | 1, Bounded 1 => OSingle
  | 0, Bounded 1 => OOptional
  | a, Bounded b => if Nat.eqb a b then OStatic a else ODynamic
  | _, Unbounded => ODynamic
  end.
Definition is_direct (o : occurs) : bool :=
  match o with OSingle | OOptional | OStatic _ => true | _ => false end.

(** config/generator.rs 265-310 [BoxFlags]. *)
Record box_flags := BoxFlags { bx_enum : bool; bx_struct : bool }.

(** How the code of one type asks for another one: context.rs 49-53
    [get_or_create_type_ref], 61-73 [.._for_value], 82-95 [.._for_element]. *)
Inductive ask := AskPlain | AskValue (by_value : bool) | AskElement (by_value : bool).
(** One such request.  [us_inline]: the generated type keeps the other one in place (as
    [T], [Option<T>] or [[T; N]], not in a [Vec] or behind a [dyn]) unless it is boxed. *)
Record use := Use { us_target : tident; us_ask : ask; us_inline : bool; us_element : bool }.

(** data/complex.rs 561-690 [ComplexDataElement::new]; [direct] is [direct_usage].
    [occurs = Optional] for a choice of optional elements (637-641) changes nothing here,
    both are direct.  [xs:any] and text use types of the library. *)
Definition element_uses (force direct : bool) (e : element_meta) : list use :=
  let o := from_occurs (el_min e) (el_max e) in
  match o with
  | ONone => []
  | _ =>
      match el_variant e with
      | EVType t _ =>
          [Use t (AskElement (negb force && direct && is_direct o)) (negb force && direct && is_direct o) true]
      | EVAny _ | EVText => []
      end
  end.

(** data/complex.rs 765-836 [ComplexDataAttribute::new_field]. *)
Definition attribute_uses (a : attr_meta) : list use :=
  match at_use a, at_variant a with
  | UseProhibited, _ => []
  | _, AVType t => [Use t AskPlain true false]
  | _, AVAny _ => []
  end.

Section Uses.
  Variable ts : types.
  Variable flags : box_flags.
  (** Simplification: the types a type merely mentions because a default value, a facet
      or a constant of theirs is rendered (context.rs 180-370 [make_value_renderer],
      data/enumeration.rs 30-44 [simple_base_type], custom generators) are this
      parameter. *)
  Variable mentions : tident -> list tident.

  (** data/complex.rs 213-321 [new_enum], 325-505 [new_struct]: the type keeps its
      attributes and, itself or in its [..Content] type, its elements.  The content type
      is kept in place if the occurrence is direct. *)
  Definition choice_uses (o : occurs) (attrs : list attr_meta) (es : list element_meta) : list use :=
    flat_map attribute_uses attrs ++ flat_map (element_uses (bx_enum flags) (is_direct o)) es.
  Definition struct_uses (o : occurs) (attrs : list attr_meta) (es : list element_meta) : list use :=
    flat_map attribute_uses attrs ++ flat_map (element_uses (bx_struct flags) (is_direct o)) es.

  (** data/complex.rs 99-142 [new_complex] with 166-210 [new_simple]. *)
  Definition complex_uses (c : complex_meta) : list use :=
    let o := from_occurs (cx_min c) (cx_max c) in
    match cx_content c with
    | None => struct_uses o (cx_attrs c) []
    | Some i =>
        match option_map m_variant (get_resolved_type ts i) with
        | None => struct_uses o (cx_attrs c) []
        | Some (VAll g) | Some (VSequence g) => struct_uses o (cx_attrs c) (gr_elements g)
        | Some (VChoice g) => choice_uses o (cx_attrs c) (gr_elements g)
        | Some (VDynamic _) | Some (VComplex _) => struct_uses o (cx_attrs c) []
        | Some _ => Use i (AskValue (is_direct o)) (is_direct o) false :: flat_map attribute_uses (cx_attrs c)
        end
    end.

  (** data/enumeration.rs 60-72: the variants that are not prohibited. *)
  Definition variant_uses (v : enum_variant) : list use :=
    match ev_use v, ev_type v with
    | UseProhibited, _ => []
    | _, Some t => [Use t (AskValue true) true false]
    | _, None => []
    end.

  (** data/type_.rs 14-35 [DataType::new] with data/union.rs 14-37, 45;
      data/dynamic.rs 24-28, 59 (a [Box<dyn Trait>]); data/reference.rs 14-22;
      data/simple.rs 18-30. *)
  Definition uses (v : variant) : list use :=
    match v with
    | VBuildIn _ | VCustom _ => []
    | VUnion x => map (fun u => Use (ut_type u) (AskValue true) true false) (un_types x)
    | VDynamic x => map (fun p => Use (dt_type (snd p)) AskPlain false false) (dy_derived x)
    | VReference x =>
        let d := is_direct (from_occurs (rf_min x) (rf_max x)) in [Use (rf_type x) (AskValue d) d false]
    | VEnumeration x => flat_map variant_uses (en_variants x)
    | VAll g | VSequence g => struct_uses OSingle [] (gr_elements g)
    | VChoice g => choice_uses OSingle [] (gr_elements g)
    | VComplex c => complex_uses c
    | VSimple x => [Use (sm_base x) AskPlain (negb (sm_list x)) false]
    end.

  (** state.rs 15-20 [State]: the cache with the field [reachable] of each entry, and the
      queue.  [g_done] is [DataTypes::items] (mod.rs 428-437) in the order of generation. *)
  Record field := Field { f_target : tident; f_inline : bool; f_element : bool }.
  Record gen := Gen {
    g_cache : list (tident * list tident); g_pending : list tident; g_done : list (tident * list field) }.
  Inductive gen_error := UnknownType (i : tident).

  Definition cached (g : gen) (i : tident) : list tident :=
    match lookup i (g_cache g) with Some r => r | None => [] end.
  Definition is_cached (c : list (tident * list tident)) (i : tident) : bool :=
    match lookup i c with Some _ => true | None => false end.

  (** mod.rs 442-457 [get_or_create_type_ref_mut], 459-523 [create_type_ref].
      Simplification: the path of the type is left out. *)
  Definition get_or_create (g : gen) (i : tident) : outcome gen_error gen :=
    if is_cached (g_cache g) i then Ok g
    else match lookup i ts with
         | None => Err (UnknownType i)
         | Some _ => Ok (Gen (g_cache g ++ [(i, [])]) (g_pending g ++ [i]) (g_done g))
         end.

  (** [type_ref.reachable.union_with(..)]. *)
  Definition add_reachable (g : gen) (i : tident) (r : list tident) : gen :=
    Gen (map (fun p => if tident_eq_dec (fst p) i then (fst p, snd p ++ r) else p) (g_cache g))
        (g_pending g) (g_done g).

  (** state.rs 135-152 [get_reachable]. *)
  Definition get_reachable (g : gen) (i : tident) : list tident :=
    i :: flat_map (fun j => j :: cached g j) (cached g i).

  (** context.rs 389-444 [need_box].  The set is the same again when the function
      returns, so it is only an argument; the outer [None] is out of fuel.  [||] does not
      evaluate its second argument if the first is true. *)
  Definition box_targets (v : variant) : list tident :=
    match v with
    | VReference x => if is_direct (from_occurs (rf_min x) (rf_max x)) then [rf_type x] else []
    | VUnion x => map ut_type (un_types x)
    | VEnumeration x => flat_map (fun v => map us_target (variant_uses v)) (en_variants x)
    | _ => []
    end.
  Fixpoint any_box (f : tident -> option bool) (l : list tident) : option bool :=
    match l with
    | [] => Some false
    | i :: l' => match f i with Some true => Some true | Some false => any_box f l' | None => None end
    end.
  Fixpoint need_box (fuel : nat) (reach : list tident) (c : list (tident * list tident)) (i : tident) : option bool :=
    match fuel with
    | 0 => None
    | S fuel =>
        match lookup i ts with
        | None => Some false
        | Some ty =>
            if is_cached c i then
              if contains i reach then Some true
              else any_box (need_box fuel (i :: reach) c) (box_targets (m_variant ty))
            else Some false
        end
    end.

  (** context.rs 49-95. *)
  Definition do_use (reach : list tident) (g : gen) (u : use) : outcome gen_error (gen * field) :=
    let i := us_target u in
    match us_ask u with
    | AskPlain =>
        match get_or_create g i with
        | Ok g' => Ok (g', Field i (us_inline u) (us_element u))
        | Err e => Err e
        | Panic => Panic
        end
    | AskValue by_value =>
        match get_or_create g i with
        | Ok g' => Ok (if by_value then add_reachable g' i reach else g', Field i (us_inline u) (us_element u))
        | Err e => Err e
        | Panic => Panic
        end
    | AskElement by_value =>
        match (if by_value then need_box (S (S (length ts))) reach (g_cache g) i else Some false) with
        | None => Panic
        | Some boxed =>
            match get_or_create g i with
            | Ok g' => Ok (if boxed then g' else add_reachable g' i reach,
                           Field i (us_inline u && negb boxed) (us_element u))
            | Err e => Err e
            | Panic => Panic
            end
        end
    end.
  Fixpoint do_uses (reach : list tident) (g : gen) (l : list use) : outcome gen_error (gen * list field) :=
    match l with
    | [] => Ok (g, [])
    | u :: l' =>
        match do_use reach g u with
        | Ok (g', f) =>
            match do_uses reach g' l' with
            | Ok (g'', fs) => Ok (g'', f :: fs)
            | Err e => Err e
            | Panic => Panic
            end
        | Err e => Err e
        | Panic => Panic
        end
    end.

  (** mod.rs 426-437 [generate_type_intern] with context.rs 97-111 [Context::new]. *)
  Definition all_uses (i : tident) : list use :=
    map (fun t => Use t AskPlain false false) (mentions i) ++
    match lookup i ts with Some ty => uses (m_variant ty) | None => [] end.
  Definition generate_intern (g : gen) (i : tident) : outcome gen_error gen :=
    match do_uses (get_reachable g i) g (all_uses i) with
    | Ok (g', fs) => Ok (Gen (g_cache g') (g_pending g') (g_done g' ++ [(i, fs)]))
    | Err e => Err e
    | Panic => Panic
    end.

  (** mod.rs 417-423 [generate_pending].  A panic stands for running out of fuel. *)
  Fixpoint generate_pending (fuel : nat) (g : gen) : outcome gen_error gen :=
    match g_pending g with
    | [] => Ok g
    | i :: rest =>
        match fuel with
        | 0 => Panic
        | S fuel =>
            match generate_intern (Gen (g_cache g) rest (g_done g)) i with
            | Ok g' => generate_pending fuel g'
            | Err e => Err e
            | Panic => Panic
            end
        end
    end.

  (** mod.rs 344-350 [generate_type], 367-376 [generate_all_types], 395-405
      [generate_named_types]: register some types, then work off the queue. *)
  Fixpoint register (g : gen) (l : list tident) : outcome gen_error gen :=
    match l with
    | [] => Ok g
    | i :: l' => match get_or_create g i with Ok g' => register g' l' | Err e => Err e | Panic => Panic end
    end.
  Definition generate_batch (g : gen) (l : list tident) : outcome gen_error gen :=
    match register g l with
    | Ok g' => generate_pending (S (length ts)) g'
    | Err e => Err e
    | Panic => Panic
    end.
  Fixpoint generate_batches (g : gen) (l : list (list tident)) : outcome gen_error gen :=
    match l with
    | [] => Ok g
    | b :: l' =>
        match generate_batch g b with Ok g' => generate_batches g' l' | Err e => Err e | Panic => Panic end
    end.

  (** mod.rs 263-278 [with_type]: types the user supplies enter the cache but not the
      queue ([BTreeMap::insert]: an identifier given twice is one entry). *)
  Definition gen_new (fixed : list tident) : gen :=
    Gen (map (fun i => (i, [])) (nodup tident_eq_dec fixed)) [] [].

  (** A whole use of the generator: supplied types, then calls to generate. *)
  Definition generate (fixed : list tident) (calls : list (list tident)) : outcome gen_error (list (tident * list field)) :=
    match generate_batches (gen_new fixed) calls with
    | Ok g => Ok (g_done g)
    | Err e => Err e
    | Panic => Panic
    end.
End Uses.

(** The calls [generate_all_types], [generate_named_types] and [generate_type]. *)
Definition all_types (ts : types) : list tident := map fst ts.
Definition named_types (ts : types) : list tident :=
  filter (fun i => match ti_name i with Named _ => true | Generated _ => false end) (map fst ts).
