(** Flattening unions and merging enumerations
    (xsd-parser/src/pipeline/optimizer/flatten_unions.rs, merge_enum_unions.rs). *)
From Verif Require Export OptModel.

(** mod.rs 60-121 [Error]; only the errors of the passes modelled here. *)
Inductive opt_error := UnknownType (i : tident) | ExpectedUnion (i : tident).

(** Result of a fallible pass; the outer [None] is out of fuel (endless recursion). *)
Definition pass_result := option (outcome opt_error optimizer).

(** [self.types.items.get_mut(&ident).unwrap()] and the assignment of the variant. *)
Definition set_type (i : tident) (v : variant) (ts : types) : types :=
  map (fun p => if tident_eq_dec i (fst p) then with_type p v else p) ts.
Definition with_types (o : optimizer) (ts : types) : optimizer := Optimizer ts (o_bases o) (o_typedefs o).

(** flatten_unions.rs 7-10 [FlattenUnionInfo]: the number of unions met and the members
    collected so far. *)
Definition flat_info := (nat * list union_type)%type.

(** A loop over the members that stops when one step does not end. *)
Definition foldM {A B} (f : A -> B -> option B) (l : list A) (b : B) : option B :=
  fold_left (fun acc a => match acc with Some x => f a x | None => None end) l (Some b).

(** flatten_unions.rs 88-118 [flatten_union_impl]. *)
Fixpoint flatten_impl (fuel : nat) (ts : types) (i : tident) (display : option string) (next : flat_info)
  : option flat_info :=
  match fuel with
  | 0 => None
  | S fuel =>
      match get_variant ts i with
      | None => Some next
      | Some v =>
          match v with
          | VUnion x =>
              foldM (fun t n => flatten_impl fuel ts (ut_type t) (ut_display t) n) (un_types x) (S (fst next), snd next)
          | VReference r =>
              if ref_simple r then flatten_impl fuel ts (rf_type r) display next
              else Some (fst next, snd next ++ [UType i display])
          | _ => Some (fst next, snd next ++ [UType i display])
          end
      end
  end.

(** flatten_unions.rs 36-63 [flatten_union]. *)
Definition flatten_union (fuel : nat) (o : optimizer) (i : tident) : pass_result :=
  match get_variant (o_types o) i with
  | None => Some (Err (UnknownType i))
  | Some (VUnion x) =>
      match flatten_impl fuel (o_types o) i None (0, []) with
      | None => None
      | Some (count, members) =>
          Some (Ok (if Nat.ltb 1 count
                    then with_types o (set_type i (VUnion (UnionMeta (un_base x) members no_constrains)) (o_types o))
                    else o))
      end
  | Some _ => Some (Err (ExpectedUnion i))
  end.

Definition is_union (v : variant) : bool := match v with VUnion _ => true | _ => false end.
Definition union_idents (ts : types) : list tident :=
  map fst (filter (fun p => is_union (m_variant (snd p))) ts).

(** flatten_unions.rs 68-86, merge_enum_unions.rs 63-81: apply a pass to every union;
    [unwrap] panics on an error. *)
Definition on_unions (pass : optimizer -> tident -> pass_result) (o : optimizer) : pass_result :=
  fold_left (fun acc i =>
    match acc with
    | Some (Ok o) => match pass o i with Some (Err _) => Some Panic | r => r end
    | r => r
    end) (union_idents (o_types o)) (Some (Ok o)).

Definition flatten_unions (fuel : nat) : optimizer -> pass_result := on_unions (flatten_union fuel).

(** traits/vec_helper.rs 37-50 [find_or_insert] followed by an update of the entry. *)
Fixpoint find_or_insert (id : pident) (new : enum_variant) (upd : enum_variant -> enum_variant) (l : list enum_variant)
  : list enum_variant :=
  match l with
  | [] => [upd new]
  | v :: l' => if pident_eq_dec (ev_ident v) id then upd v :: l' else v :: find_or_insert id new upd l'
  end.
(** enumeration.rs 84-100 [EnumerationMetaVariant::new], [with_type]. *)
Definition evariant_new (id : pident) (t : option tident) : enum_variant := EVariant id UseOptional t None [] None.
Definition set_display (d : option string) (v : enum_variant) : enum_variant :=
  EVariant (ev_ident v) (ev_use v) (ev_type v) d (ev_doc v) (ev_ns v).
Definition add_variant (id : pident) (t : option tident) (d : option string) (l : list enum_variant) : list enum_variant :=
  find_or_insert id (evariant_new id t) (set_display d) l.

(** The variant built up by [merge_enum_union_impl]: an enumeration or a union, both with
    default base and constraints. *)
Inductive merged := MEnum (l : list enum_variant) | MUnion (l : list union_type).
Definition merged_variant (m : merged) : variant :=
  match m with
  | MEnum l => VEnumeration (EnumMeta BaseNone l no_constrains)
  | MUnion l => VUnion (UnionMeta BaseNone l no_constrains)
  end.

(** merge_enum_unions.rs 101-122: the enumeration to add variants to. *)
Definition merge_start (next : option merged) : list enum_variant :=
  match next with
  | None => []
  | Some (MEnum l) => l
  | Some (MUnion l) =>
      fold_left (fun acc t => add_variant (ti_property (ut_type t)) (Some (ut_type t)) (ut_display t) acc) l []
  end.
(** merge_enum_unions.rs 128-133. *)
Definition merge_enum (x : enum_meta) (next : option merged) : merged :=
  MEnum (fold_left (fun acc v => add_variant (ev_ident v) (ev_type v) (ev_display v) acc) (en_variants x) (merge_start next)).
(** merge_enum_unions.rs 138-158. *)
Definition merge_other (i : tident) (display : option string) (next : option merged) : merged :=
  match next with
  | None => MUnion [UType i display]
  | Some (MUnion l) => MUnion (l ++ [UType i display])
  | Some (MEnum l) => MEnum (add_variant (ti_property i) (Some i) display l)
  end.

(** merge_enum_unions.rs 83-161 [merge_enum_union_impl]. *)
Fixpoint merge_impl (fuel : nat) (ts : types) (i : tident) (display : option string) (next : option merged)
  : option (option merged) :=
  match fuel with
  | 0 => None
  | S fuel =>
      match get_variant ts i with
      | None => Some next
      | Some v =>
          match v with
          | VUnion x => foldM (fun t n => merge_impl fuel ts (ut_type t) (ut_display t) n) (un_types x) next
          | VEnumeration x => Some (Some (merge_enum x next))
          | VReference r =>
              if ref_simple r then merge_impl fuel ts (rf_type r) display next
              else Some (Some (merge_other i display next))
          | _ => Some (Some (merge_other i display next))
          end
      end
  end.

(** merge_enum_unions.rs 36-58 [merge_enum_union]. *)
Definition merge_enum_union (fuel : nat) (o : optimizer) (i : tident) : pass_result :=
  match get_variant (o_types o) i with
  | None => Some (Err (UnknownType i))
  | Some (VUnion _) =>
      match merge_impl fuel (o_types o) i None None with
      | None => None
      | Some None => Some (Ok o)
      | Some (Some m) => Some (Ok (with_types o (set_type i (merged_variant m) (o_types o))))
      end
  | Some _ => Some (Err (ExpectedUnion i))
  end.
Definition merge_enum_unions (fuel : nat) : optimizer -> pass_result := on_unions (merge_enum_union fuel).
