(** The remaining passes of the optimizer and any sequence of passes
    (xsd-parser/src/pipeline/optimizer/merge_dynamic_types.rs, dynamic_to_choice.rs,
    simplify_mixed_types.rs, replace_xs_any_type_with_any_element.rs). *)
From Verif Require NameModel.
From Verif Require Export FlatModel.

(** mod.rs 60-121 [Error]; only the errors of the passes modelled here. *)
Inductive pass_error :=
| PsUnknownType (i : tident) | PsExpectedDynamic (i : tident) | PsExpectedComplex (i : tident)
| PsMissingContent (i : tident) | PsExpectedUnbound (i : tident) | PsUnexpectedContent (i : tident)
| PsUnexpectedElement (i : tident).

(** ** merge_dynamic_types.rs *)

(** [IndexMap::entry(key).or_insert_with]. *)
Definition or_insert (e : tident * derived_meta) (l : list (tident * derived_meta)) : list (tident * derived_meta) :=
  match lookup (fst e) l with Some _ => l | None => l ++ [e] end.

(** merge_dynamic_types.rs 107-126 [add_derived_types]; [None] is out of fuel (endless
    recursion). *)
Fixpoint add_derived_types (fuel : nat) (ts : types) (base : tident) (old new : list (tident * derived_meta))
  : option (list (tident * derived_meta)) :=
  match fuel with
  | 0 => None
  | S fuel =>
      foldM (fun e new =>
        match get_resolved ts (dt_type (snd e)) with
        | Some (i, ty) =>
            if tident_eq_dec base i then
              match m_variant ty with
              | VDynamic dm => add_derived_types fuel ts base (dy_derived dm) new
              | _ => Some (or_insert e new)
              end
            else Some (or_insert e new)
        | None => Some (or_insert e new)
        end) old new
  end.

(** merge_dynamic_types.rs 78-105 [merge_dynamic_types_impl]; 46-52 [merge_dynamic_type]. *)
Definition merge_dynamic_type (fuel : nat) (o : optimizer) (i : tident) : option (outcome pass_error optimizer) :=
  match get_variant (o_types o) i with
  | None => Some (Err (PsUnknownType i))
  | Some (VDynamic dm) =>
      match match dy_type dm with Some t => get_resolved_ident (o_types o) t | None => None end with
      | None => Some (Ok o)
      | Some base =>
          match add_derived_types fuel (o_types o) base (dy_derived dm) [] with
          | None => None
          | Some l =>
              Some (Ok (with_types o (set_type i (VDynamic (DynMeta (dy_type dm) (dy_abstract dm) l)) (o_types o))))
          end
      end
  | Some _ => Some (Err (PsExpectedDynamic i))
  end.

Definition is_dynamic (v : variant) : bool := match v with VDynamic _ => true | _ => false end.
Definition dynamic_idents (ts : types) : list tident :=
  map fst (filter (fun p => is_dynamic (m_variant (snd p))) ts).

(** merge_dynamic_types.rs 57-76 [merge_dynamic_types]: errors are ignored. *)
Definition merge_dynamic_types (fuel : nat) (o : optimizer) : option (outcome pass_error optimizer) :=
  fold_left (fun acc i =>
    match acc with
    | Some (Ok o) => match merge_dynamic_type fuel o i with Some (Err _) => Some (Ok o) | r => r end
    | r => r
    end) (dynamic_idents (o_types o)) (Some (Ok o)).

(** ** dynamic_to_choice.rs *)

(** element.rs 48-67 [ElementMetaFlags]. *)
Definition fl_default : nat := 2.
Definition fl_by_tag : nat := 4.
Definition fl_by_type : nat := 8.
Definition add_flag (f : nat) (e : element_meta) : element_meta :=
  ElementMeta (el_ident e) (el_variant e) (el_form e) (Nat.lor (el_flags e) f) (el_min e) (el_max e) (el_display e) (el_doc e).

(** dynamic_to_choice.rs 116-128: the new element. *)
Definition derived_element (id : pident) (form : form_meta) (m : derived_meta) : element_meta :=
  ElementMeta id (EVType (dt_type m) ModeElement) form 0 1 (Bounded 1) (dt_display m) [].
(** dynamic_to_choice.rs 130-140. *)
Definition mark_element (key : tident) (m : derived_meta) (e : element_meta) : element_meta :=
  match ti_type key with
  | ITType =>
      let e := add_flag fl_by_type e in
      match dt_rel m with RelConcrete => add_flag fl_default e | _ => e end
  | ITElement => add_flag fl_by_tag e
  | _ => e
  end.
(** traits/vec_helper.rs 37-50 [find_or_insert] and the update of the entry found. *)
Fixpoint update_element (id : pident) (new : element_meta) (upd : element_meta -> element_meta) (l : list element_meta)
  : list element_meta :=
  match l with
  | [] => [upd new]
  | e :: l' => if pident_eq_dec (el_ident e) id then upd e :: l' else e :: update_element id new upd l'
  end.
(** dynamic_to_choice.rs 109-142 [add_elements]. *)
Definition add_elements (form : form_meta) (d : list (tident * derived_meta)) (l : list element_meta) : list element_meta :=
  fold_left (fun l p =>
    update_element (ti_property (fst p)) (derived_element (ti_property (fst p)) form (snd p)) (mark_element (fst p) (snd p)) l)
    d l.

(** traits/naming.rs 410-418 [shared_name] and naming/default.rs 122-163 [finish]: the
    name of the new content; the second part is the counter of the [Naming].
    Simplification: the naming is the default one. *)
Definition content_name (counter : nat) : name * nat :=
  NameModel.builder_finish (fun s => s)
    (NameModel.set_with_id true (NameModel.set_name "Content" NameModel.builder_new)) counter.

(** type_.rs 144-146 [form]. *)
Definition form_of (ty : mtype) : form_meta := match m_form ty with Some f => f | None => Unqualified end.

(** dynamic_to_choice.rs 71-106 [convert_dynamic_to_choice_impl]; an occupied entry is
    [unreachable!].  The identifier of the content belongs to no schema
    (ident.rs 147-154 [TypeIdent::new]). *)
Definition content_ident (ns : nat) (n : name) : tident := TIdent ns id_unknown n ITType.
Definition convert_dynamic (o : optimizer) (counter : nat) (i : tident)
  : outcome pass_error (optimizer * nat) :=
  match lookup i (o_types o) with
  | None => Err (PsUnknownType i)
  | Some ty =>
      match m_variant ty with
      | VDynamic dm =>
          let (n, counter') := content_name counter in
          let c := content_ident (ti_ns i) n in
          let es := add_elements (form_of ty) (dy_derived dm) [] in
          let g := GroupMeta false es in
          let ts := set_type i (VComplex (ComplexMeta BaseNone (Some c) 1 (Bounded 1) true false [])) (o_types o) in
          match lookup c ts with
          | Some _ => Panic
          | None =>
              Ok (with_types o (ts ++ [(c, mtype_new (match es with [] => VSequence g | _ => VChoice g end))]), counter')
          end
      | _ => Err (PsExpectedDynamic i)
      end
  end.

(** dynamic_to_choice.rs 48-69 [convert_dynamics_to_choices]: errors are ignored. *)
Definition convert_dynamics (o : optimizer) (counter : nat) : outcome pass_error (optimizer * nat) :=
  fold_left (fun acc i =>
    match acc with
    | Ok (o, n) => match convert_dynamic o n i with Err _ => Ok (o, n) | r => r end
    | r => r
    end) (dynamic_idents (o_types o)) (Ok (o, counter)).

(** ** simplify_mixed_types.rs *)

(** element.rs 160-173 [ElementMeta::text] with the flags 70-74; ident.rs
    [ElementIdent::named], [ElementIdent::new]: no namespace. *)
Definition text_element (n : string) (mn : nat) : element_meta :=
  ElementMeta (PIdent id_unknown (Named n)) EVText Unqualified fl_by_tag mn (Bounded 1) None [].
Definition is_text (e : element_meta) : bool := match el_variant e with EVText => true | _ => false end.
(** simplify_mixed_types.rs 85, 152-154. *)
Definition at_most_one (e : element_meta) : bool := Nat.leb (el_min e) 1 && max_eqb (el_max e) (Bounded 1).

(** simplify_mixed_types.rs 78-104: the text elements in between. *)
Definition with_texts (l : list element_meta) : list element_meta :=
  text_element "text_before" 0 ::
  flat_map (fun e => [e; text_element (("text_after_" ++ name_str (pi_name (el_ident e)))%string) 0]) l.

(** simplify_mixed_types.rs 48-118 [simplify_mixed_type]. *)
Definition simplify_mixed_type (o : optimizer) (i : tident) : outcome pass_error optimizer :=
  match get_variant (o_types o) i with
  | None => Err (PsUnknownType i)
  | Some (VComplex x) =>
      match cx_content x with
      | None => Err (PsMissingContent i)
      | Some c =>
          let finish v :=
            let ts := set_type c v (o_types o) in
            match get_variant ts i with
            | Some (VComplex x') =>
                Ok (with_types o (set_type i (VComplex (ComplexMeta (cx_base x') (cx_content x') (cx_min x') (cx_max x')
                  (cx_dynamic x') false (cx_attrs x'))) ts))
            | _ => Ok (with_types o ts)
            end in
          match get_variant (o_types o) c with
          | None => Err (PsMissingContent i)
          | Some (VChoice g) =>
              match cx_max x with
              | Unbounded =>
                  finish (VChoice (GroupMeta (gr_mixed g)
                    (if existsb is_text (gr_elements g) then gr_elements g else gr_elements g ++ [text_element "text" 1])))
              | Bounded _ => Err (PsExpectedUnbound i)
              end
          | Some (VSequence g) =>
              if forallb at_most_one (gr_elements g)
              then finish (VSequence (GroupMeta (gr_mixed g) (with_texts (gr_elements g))))
              else Err (PsUnexpectedElement i)
          | Some _ => Err (PsUnexpectedContent i)
          end
      end
  | Some _ => Err (PsExpectedComplex i)
  end.

(** simplify_mixed_types.rs 124-155: the types the pass is applied to. *)
Definition can_simplify (ts : types) (x : complex_meta) : bool :=
  cx_mixed x &&
  match content_variant ts x with
  | Some (VSequence g) => forallb at_most_one (gr_elements g)
  | Some (VChoice _) => match cx_max x with Unbounded => true | Bounded _ => false end
  | _ => false
  end.

(** simplify_mixed_types.rs 120-161 [simplify_mixed_types]: a hash set gives the types in
    any order; [unwrap] panics on an error. *)
Definition simplify_in_order (ids : list tident) (o : optimizer) : outcome pass_error optimizer :=
  fold_left (fun acc i =>
    match acc with
    | Ok o => match simplify_mixed_type o i with Err _ => Panic | r => r end
    | r => r
    end) ids (Ok o).
Definition mixed_idents (ts : types) : list tident := complex_idents (can_simplify ts) ts.

(** ** replace_xs_any_type_with_any_element.rs *)

(** 45-74 [replace_xs_any_type]; [modules] are the numbers and the names of the
    namespaces, found in the order of the modules. *)
Definition xs_namespace : string := "http://www.w3.org/2001/XMLSchema".
Definition xs_id (modules : list (nat * option string)) : nat :=
  match find (fun m => match snd m with Some n => String.eqb n xs_namespace | None => false end) modules with
  | Some m => fst m
  | None => ns_anonymous
  end.
Definition any_type_ident (modules : list (nat * option string)) : tident := TIdent (xs_id modules) id_unknown (Named "anyType") ITType.
Definition replace_xs_any_type (modules : list (nat * option string)) (include : string) (o : optimizer) : optimizer :=
  with_types o (set_type (any_type_ident modules) (VCustom (CustomMeta "AnyElement" include)) (o_types o)).

(** ** Sequences of passes *)

(** The public methods of the optimizer.  [fuel] bounds recursion that need not end; the
    order of a hash set is an argument. *)
Inductive pass :=
| PUnrestrictedOf (fl : base_flags)
| PReplaceAny (include : string)
| PEmptyVariants | PEmptyEnums | PDuplicateVariants | PEmptyUnions
| PMergeDynamic (i : tident) | PMergeDynamics
| PConvertDynamic (i : tident) | PConvertDynamics
| PFlattenComplex (i : tident) | PFlattenComplexes
| PFlattenUnion (i : tident) | PFlattenUnions
| PMergeEnum (i : tident) | PMergeEnums
| PResolve | PDuplicates
| PCardinality (i : tident) | PCardinalities
| PSimplify (i : tident) | PSimplifies (order : list tident).

Record pstate := PState { ps_opt : optimizer; ps_counter : nat }.

(** A pass that fails returns the error and no optimizer; running out of fuel and panics
    give none either. *)
Definition ok {E A} (r : outcome E A) : option A := match r with Ok a => Some a | _ => None end.
Definition ended {E A} (r : option (outcome E A)) : option A := match r with Some r => ok r | None => None end.

Section Passes.
  Variable modules : list (nat * option string).
  Variable fuel : nat.
  Definition run_pass (p : pass) (s : pstate) : option pstate :=
    let o := ps_opt s in
    let keep r := option_map (fun o => PState o (ps_counter s)) r in
    match p with
    | PUnrestrictedOf fl => keep (use_unrestricted_base_type fl o)
    | PReplaceAny include => Some (PState (replace_xs_any_type modules include o) (ps_counter s))
    | PEmptyVariants => Some (PState (remove_empty_enum_variants o) (ps_counter s))
    | PEmptyEnums => Some (PState (remove_empty_enums o) (ps_counter s))
    | PDuplicateVariants => keep (remove_duplicate_union_variants o)
    | PEmptyUnions => Some (PState (remove_empty_unions o) (ps_counter s))
    | PMergeDynamic i => keep (ended (merge_dynamic_type fuel o i))
    | PMergeDynamics => keep (ended (merge_dynamic_types fuel o))
    | PConvertDynamic i => option_map (fun r => PState (fst r) (snd r)) (ok (convert_dynamic o (ps_counter s) i))
    | PConvertDynamics => option_map (fun r => PState (fst r) (snd r)) (ok (convert_dynamics o (ps_counter s)))
    | PFlattenComplex i => keep (ended (flatten_complex_type fuel o i))
    | PFlattenComplexes => keep (ended (flatten_complex_types fuel o))
    | PFlattenUnion i => keep (ended (flatten_union fuel o i))
    | PFlattenUnions => keep (ended (flatten_unions fuel o))
    | PMergeEnum i => keep (ended (merge_enum_union fuel o i))
    | PMergeEnums => keep (ended (merge_enum_unions fuel o))
    | PResolve => keep (resolve_typedefs o)
    | PDuplicates => keep (opt_remove_duplicates fuel o)
    | PCardinality i => keep (ok (merge_choice_cardinality o i))
    | PCardinalities => keep (ok (merge_choice_cardinalities o))
    | PSimplify i => keep (ok (simplify_mixed_type o i))
    | PSimplifies order => keep (ok (simplify_in_order order o))
    end.
  Fixpoint run_passes (l : list pass) (s : pstate) : option pstate :=
    match l with
    | [] => Some s
    | p :: l' => match run_pass p s with Some s' => run_passes l' s' | None => None end
    end.
End Passes.
