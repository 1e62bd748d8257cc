(** The optimizer and its passes over references, unions and enumerations
    (xsd-parser/src/pipeline/optimizer/). *)
From Verif Require Export DupModel.

(** mod.rs 52-57 [Optimizer]; misc/typedef_map.rs 9 and misc/base_map.rs 9, hash maps,
    are lists of entries. *)
Record optimizer := Optimizer {
  o_types : types; o_bases : option (list (tident * base_meta)); o_typedefs : option (list (tident * tident)) }.

(** mod.rs 151-157 [Optimizer::new]. *)
Definition opt_new (ts : types) : optimizer := Optimizer ts None None.

(** misc/typedef_map.rs 12-24 [TypedefMap::new]. *)
Definition typedef_map (ts : types) : list (tident * tident) :=
  flat_map (fun p => match plain_ref (m_variant (snd p)) with Some t => [(fst p, t)] | None => [] end) ts.

(** misc/typedef_map.rs 26-30 [TypedefMap::resolve]; [None] is out of fuel. *)
Fixpoint td_resolve_fuel (fuel : nat) (m : list (tident * tident)) (i : tident) : option tident :=
  match fuel with
  | 0 => None
  | S fuel => match lookup i m with None => Some i | Some x => td_resolve_fuel fuel m x end
  end.
(** With one unit of fuel per entry and one more, running out means that the recursion
    does not end (C31_endless). *)
Definition td_resolve (m : list (tident * tident)) (i : tident) : option tident :=
  td_resolve_fuel (S (length m)) m i.

(** mod.rs 136-144 [get_typedefs!]. *)
Definition get_typedefs (o : optimizer) : list (tident * tident) :=
  match o_typedefs o with Some m => m | None => typedef_map (o_types o) end.
(** mod.rs 126-134 [get_bases!] with misc/base_map.rs 12-48 [BaseMap::new]. *)
Definition base_ident (b : base_meta) : option tident :=
  match b with BaseNone => None | BaseExt t | BaseRes t => Some t end.
Definition base_entry (ts : types) (v : variant) : option base_meta :=
  match v with
  | VEnumeration x =>
      match base_ident (en_base x) with
      | Some b => match get_variant ts b with Some (VEnumeration _) => Some (en_base x) | _ => None end
      | None => None
      end
  | VUnion x =>
      match base_ident (un_base x) with
      | Some b => match get_variant ts b with Some (VUnion _) => Some (un_base x) | _ => None end
      | None => None
      end
  | VSimple x => Some (BaseRes (sm_base x))
  | VComplex x =>
      match base_ident (cx_base x) with
      | Some b => match get_variant ts b with Some (VComplex _) => Some (cx_base x) | _ => None end
      | None => None
      end
  | _ => None
  end.
Definition base_map (ts : types) : list (tident * base_meta) :=
  flat_map (fun p => match base_entry ts (m_variant (snd p)) with Some b => [(fst p, b)] | None => [] end) ts.
Definition get_bases (o : optimizer) : list (tident * base_meta) :=
  match o_bases o with Some m => m | None => base_map (o_types o) end.

(** misc/base_map.rs 50-56 [get_unrestricted]; [None] is out of fuel. *)
Fixpoint unrestricted_fuel (fuel : nat) (m : list (tident * base_meta)) (i : tident) : option tident :=
  match fuel with
  | 0 => None
  | S fuel => match lookup i m with Some (BaseRes b) => unrestricted_fuel fuel m b | _ => Some i end
  end.
Definition get_unrestricted (m : list (tident * base_meta)) (i : tident) : option tident :=
  unrestricted_fuel (S (length m)) m i.

(** A traversal that ends only if every step of it ends. *)
Fixpoint mapM {A B} (f : A -> option B) (l : list A) : option (list B) :=
  match l with
  | [] => Some []
  | a :: l' =>
      match f a with
      | Some b => match mapM f l' with Some l'' => Some (b :: l'') | None => None end
      | None => None
      end
  end.
Definition optM {A B} (f : A -> option B) (o : option A) : option (option B) :=
  match o with None => Some None | Some a => option_map Some (f a) end.

(** resolve_typedefs.rs 32-101: the rewriting of one type, for a function [f] that
    resolves an identifier. *)
Section Retarget.
  Variable f : tident -> option tident.
  Definition retarget_base (b : base_meta) : option base_meta :=
    match b with
    | BaseNone => Some BaseNone
    | BaseExt t => option_map BaseExt (f t)
    | BaseRes t => option_map BaseRes (f t)
    end.
  Definition retarget_utype (u : union_type) : option union_type :=
    option_map (fun t => UType t (ut_display u)) (f (ut_type u)).
  Definition retarget_evariant (v : enum_variant) : option enum_variant :=
    option_map (fun t => EVariant (ev_ident v) (ev_use v) t (ev_display v) (ev_doc v) (ev_ns v)) (optM f (ev_type v)).
  Definition retarget_entry (e : tident * derived_meta) : option (tident * derived_meta) :=
    option_map (fun t => (fst e, Derived t (dt_display (snd e)) (dt_rel (snd e)))) (f (dt_type (snd e))).
  Definition retarget_element (e : element_meta) : option element_meta :=
    match el_variant e with
    | EVType t m =>
        option_map (fun t => ElementMeta (el_ident e) (EVType t m) (el_form e) (el_flags e) (el_min e) (el_max e)
          (el_display e) (el_doc e)) (f t)
    | _ => Some e
    end.
  Definition retarget_group (g : group_meta) : option group_meta :=
    option_map (GroupMeta (gr_mixed g)) (mapM retarget_element (gr_elements g)).
  Definition retarget_attr (a : attr_meta) : option attr_meta :=
    match at_variant a with
    | AVType t =>
        option_map (fun t => AttrMeta (at_ident a) (AVType t) (at_use a) (at_form a) (at_default a) (at_display a)
          (at_doc a) (at_ns a)) (f t)
    | AVAny _ => Some a
    end.
  Definition retarget (v : variant) : option variant :=
    match v with
    | VReference x =>
        if ref_single x then
          option_map (fun t => VReference (RefMeta t (rf_nillable x) (rf_min x) (rf_max x))) (f (rf_type x))
        else Some v
    | VUnion x =>
        match retarget_base (un_base x), mapM retarget_utype (un_types x) with
        | Some b, Some l => Some (VUnion (UnionMeta b l (un_constrains x)))
        | _, _ => None
        end
    | VDynamic x =>
        match optM f (dy_type x), mapM retarget_entry (dy_derived x) with
        | Some t, Some l => Some (VDynamic (DynMeta t (dy_abstract x) l))
        | _, _ => None
        end
    | VEnumeration x =>
        match retarget_base (en_base x), mapM retarget_evariant (en_variants x) with
        | Some b, Some l => Some (VEnumeration (EnumMeta b l (en_constrains x)))
        | _, _ => None
        end
    | VComplex x =>
        match retarget_base (cx_base x), optM f (cx_content x), mapM retarget_attr (cx_attrs x) with
        | Some b, Some c, Some l => Some (VComplex (ComplexMeta b c (cx_min x) (cx_max x) (cx_dynamic x) (cx_mixed x) l))
        | _, _, _ => None
        end
    | VAll g => option_map VAll (retarget_group g)
    | VChoice g => option_map VChoice (retarget_group g)
    | VSequence g => option_map VSequence (retarget_group g)
    | _ => Some v
    end.
End Retarget.

Definition with_type (p : tident * mtype) (v : variant) : tident * mtype := (fst p, set_variant (snd p) v).

(** resolve_typedefs.rs 27-103 [resolve_typedefs]; [None] is a stack overflow.  The local
    [replaced_references] is not used by the code and left out. *)
Definition resolve_typedefs (o : optimizer) : option optimizer :=
  let m := get_typedefs o in
  option_map (fun ts => Optimizer ts (o_bases o) (Some m))
    (mapM (fun p => option_map (with_type p) (retarget (td_resolve m) (m_variant (snd p)))) (o_types o)).

(** empty_enums.rs 27-38 [remove_empty_enum_variants]. *)
Definition empty_name (n : name) : bool :=
  match n with Named s => String.eqb s "" | Generated _ => false end.
Definition drop_empty_variants (v : variant) : variant :=
  match v with
  | VEnumeration x =>
      VEnumeration (EnumMeta (en_base x) (filter (fun e => negb (empty_name (pi_name (ev_ident e)))) (en_variants x))
        (en_constrains x))
  | _ => v
  end.
Definition remove_empty_enum_variants (o : optimizer) : optimizer :=
  Optimizer (map (fun p => with_type p (drop_empty_variants (m_variant (snd p)))) (o_types o)) (o_bases o) (o_typedefs o).

(** The two passes below reset the cached type definitions as soon as a type is
    replaced. *)
Definition replace_types (f : variant -> option variant) (o : optimizer) : optimizer :=
  Optimizer
    (map (fun p => match f (m_variant (snd p)) with Some v => with_type p v | None => p end) (o_types o))
    (o_bases o)
    (if existsb (fun p => is_some (f (m_variant (snd p)))) (o_types o) then None else o_typedefs o).

(** empty_enums.rs 63-79 [remove_empty_enums]. *)
Definition empty_enum (v : variant) : option variant :=
  match v with
  | VEnumeration x =>
      match en_variants x with
      | [] => option_map (fun b => VReference (ref_new b)) (base_ident (en_base x))
      | _ => None
      end
  | _ => None
  end.
Definition remove_empty_enums : optimizer -> optimizer := replace_types empty_enum.

(** empty_unions.rs 72-89 [remove_empty_unions]. *)
Definition empty_union (v : variant) : option variant :=
  match v with
  | VUnion x =>
      match un_types x with
      | [] => option_map (fun b => VReference (ref_new b)) (base_ident (un_base x))
      | [t] => Some (VReference (ref_new (ut_type t)))
      | _ => None
      end
  | _ => None
  end.
Definition remove_empty_unions : optimizer -> optimizer := replace_types empty_union.

(** empty_unions.rs 34-48: the loop over the members of one union; [seen] is [types_]. *)
Fixpoint dedup_members (f : tident -> option tident) (l : list union_type) (seen : list tident)
  : option (list union_type) :=
  match l with
  | [] => Some []
  | t :: l' =>
      match f (ut_type t) with
      | None => None
      | Some r =>
          if contains r seen then dedup_members f l' seen
          else option_map (cons t) (dedup_members f l' (r :: seen))
      end
  end.
Definition dedup_union (f : tident -> option tident) (v : variant) : option variant :=
  match v with
  | VUnion x => option_map (fun l => VUnion (UnionMeta (un_base x) l (un_constrains x))) (dedup_members f (un_types x) [])
  | _ => Some v
  end.
(** empty_unions.rs 29-51 [remove_duplicate_union_variants]. *)
Definition remove_duplicate_union_variants (o : optimizer) : option optimizer :=
  let m := get_typedefs o in
  option_map (fun ts => Optimizer ts (o_bases o) (Some m))
    (mapM (fun p => option_map (with_type p) (dedup_union (td_resolve m) (m_variant (snd p)))) (o_types o)).

(** unrestricted_base.rs 13-30 [UnrestrictedBaseFlags]. *)
Record base_flags := BaseFlags { bf_complex : bool; bf_simple : bool; bf_enum : bool; bf_union : bool }.
Definition selected (fl : base_flags) (v : variant) : bool :=
  match v with
  | VComplex _ => bf_complex fl
  | VSimple x => negb (sm_list x) && bf_simple fl
  | VEnumeration _ => bf_enum fl
  | VUnion _ => bf_union fl
  | _ => false
  end.
(** unrestricted_base.rs 51-77 [use_unrestricted_base_type]. *)
Definition unrestricted_type (fl : base_flags) (m : list (tident * base_meta)) (p : tident * mtype)
  : option (option variant) :=
  if selected fl (m_variant (snd p)) then
    match get_unrestricted m (fst p) with
    | None => None
    | Some b => Some (if tident_eq_dec (fst p) b then None else Some (VReference (ref_new b)))
    end
  else Some None.
Definition use_unrestricted_base_type (fl : base_flags) (o : optimizer) : option optimizer :=
  let m := get_bases o in
  match mapM (fun p => option_map (pair p) (unrestricted_type fl m p)) (o_types o) with
  | None => None
  | Some l =>
      Some (Optimizer
        (map (fun q => match snd q with Some v => with_type (fst q) v | None => fst q end) l)
        (Some m)
        (if existsb (fun q => is_some (snd q)) l then None else o_typedefs o))
  end.

(** The pass [remove_duplicates] on the optimizer: remove_duplicates.rs 100-103 resets
    the cached type definitions if there is anything to replace. *)
Definition opt_remove_duplicates (fuel : nat) (o : optimizer) : option optimizer :=
  option_map
    (fun ts => Optimizer ts (o_bases o)
       (match dup_scan (o_types o) (o_types o) [] [] with [] => o_typedefs o | _ => None end))
    (remove_duplicates fuel (o_types o)).
