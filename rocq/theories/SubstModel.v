(** Substitution groups and derived types
    (xsd-parser/src/pipeline/interpreter/state/generate_types/variant_processor.rs, type_processor.rs,
    state/generate_types.rs, state/fix_derived_types.rs).

    Names with their namespaces are numbers; references are resolved. *)
From Verif Require Import Base.

(** models/ident.rs 59-92 [IdentType], the kinds in use here. *)
Inductive ikind := KType | KElement | KElementType | KNillable | KSubst | KVariant.
Definition ident := (ikind * nat)%type.
Definition ikind_dec (a b : ikind) : {a = b} + {a <> b}.
Proof. decide equality. Defined.
Definition ident_dec (a b : ident) : {a = b} + {a <> b}.
Proof. decide equality; [apply Nat.eq_dec|apply ikind_dec]. Defined.

(** The declarations.  An element has a named type ([xs:anyType] if it says nothing), a complex type of its own (with or
    without a base) or a simple one.  [e_blocked]: [block] names [substitution]; the code does not look at it. *)
Inductive etype := TNamed (t : nat) | TComplex (base : option nat) | TSimple.
Record element := Element {
  e_name : nat; e_type : etype; e_nillable : bool; e_abstract : bool; e_heads : list nat; e_blocked : bool }.
Record ctype := CType { c_name : nat; c_base : option nat; c_abstract : bool }.
Inductive node := NElement (e : element) | NType (c : ctype) | NSimple (n : nat).

(** models/meta/dynamic.rs 50-76. *)
Inductive relation := Concrete | Direct | Indirect.
Record derived := Derived { d_type : ident; d_rel : relation }.
(** models/meta/types.rs [MetaTypeVariant]; references occur once, complex types without their content. *)
Inductive variant :=
| VRef (t : ident) (nillable : bool)
| VDyn (t : option ident) (abstract : bool) (ds : list (ident * derived))
| VComplex (base : option ident)
| VOther.

(** [MetaTypes::items], a map. *)
Definition types := ident -> option variant.
Definition set (i : ident) (v : variant) (ts : types) : types := fun j => if ident_dec j i then Some v else ts j.

(** The errors [TypeAlreadyDefined] and [ExpectedDynamicElement]; [EFuel]: the recursion did not end. *)
Inductive error := EDefined (i : ident) | EExpected (i : ident) | EFuel.

(** type_processor.rs 205-231 [add_type]. *)
Definition add_type (i : ident) (v : variant) (ts : types) : outcome error types :=
  match ts i with Some _ => Err (EDefined i) | None => Ok (set i v ts) end.

(** [IndexMap::entry] with [or_insert]. *)
Definition or_insert (k : ident) (d : derived) (ds : list (ident * derived)) : list (ident * derived) :=
  if in_dec ident_dec k (map fst ds) then ds else ds ++ [(k, d)].
(** models/meta/dynamic.rs 103-113 [new_child]. *)
Definition child (t : ident) (is_direct : bool) : derived := Derived t (if is_direct then Direct else Indirect).

(** variant_processor.rs 406-424: the loop over the bases of a complex type. *)
Fixpoint register (fuel : nat) (current id : ident) (base : option ident) (is_direct : bool) (ts : types) : outcome error types :=
  match fuel with
  | 0 => Err EFuel
  | S n =>
      match base with
      | None => Ok ts
      | Some b =>
          match ts b with
          | None => Panic
          | Some (VDyn t a ds) => register n current id t false (set b (VDyn t a (or_insert current (child id is_direct) ds)) ts)
          | Some (VComplex b') => register n current id b' false ts
          | Some _ => Ok ts
          end
      end
  end.

Section Config.
  (** config/interpreter.rs: the named complex types that are made dynamic. *)
  Variable dynamic : nat -> bool.
  (** type_processor.rs 255-257 [is_dynamic]; types of elements cannot be chosen here. *)
  Definition is_dynamic (i : ident) : bool := match fst i with KType => dynamic (snd i) | _ => false end.

  (** variant_processor.rs 341-427 [apply_complex_type], the part about derivation; [copy_base_type] (1229-1335) takes
      the base from the caller. *)
  Definition apply_complex_type (fuel : nat) (i : ident) (base : option nat) (abstract : bool) (ts : types) : outcome error (variant * types) :=
    let base := option_map (pair KType) base in
    if (abstract || is_dynamic i)%bool then
      let id := (KVariant, snd i) in
      match add_type id (VComplex base) ts with
      | Ok ts =>
          match register fuel i id base true ts with
          | Ok ts => Ok (VDyn (Some id) abstract (if abstract then [] else [(i, Derived id Concrete)]), ts)
          | Err e => Err e
          | Panic => Panic
          end
      | Err e => Err e
      | Panic => Panic
      end
    else
      match register fuel i i base true ts with
      | Ok ts => Ok (VComplex base, ts)
      | Err e => Err e
      | Panic => Panic
      end.

  (** type_processor.rs 156-183 [create_type]. *)
  Definition create_type (i : ident) (f : types -> outcome error (variant * types)) (ts : types) : outcome error types :=
    match ts i with
    | Some _ => Ok ts
    | None =>
        match f ts with
        | Ok (v, ts) => add_type i v ts
        | Err e => Err e
        | Panic => Panic
        end
    end.

  (** variant_processor.rs 1727-1775 [prepare_substitution_group]. *)
  Definition prepare (current head : nat) (depth : nat) (ts : types) : outcome error types :=
    let h := (KElement, head) in
    let insert ds := or_insert (KElement, current) (child (KElement, current) (Nat.eqb depth 0)) ds in
    match ts h with
    | None => Panic
    | Some (VRef t nillable) =>
        let t' := if nillable then (KSubst, head) else t in
        let ts := set h (VDyn (Some t') false (insert [(h, Derived t' Concrete)])) ts in
        if nillable then add_type (KSubst, head) (VRef t nillable) ts else Ok ts
    | Some (VDyn t a ds) => Ok (set h (VDyn t a (insert ds)) ts)
    | Some _ => Err (EExpected h)
    end.

  (** The elements of the node cache. *)
  Variable elements : nat -> option element.

  (** variant_processor.rs 1337-1374 [walk_substitution_groups]. *)
  Fixpoint walk (fuel current : nat) (heads : list nat) (depth : nat) (ts : types) {struct fuel} : outcome error types :=
    match fuel with
    | 0 => Err EFuel
    | S n =>
        (fix go (heads : list nat) (ts : types) : outcome error types :=
           match heads with
           | [] => Ok ts
           | h :: heads' =>
               match prepare current h depth ts with
               | Ok ts =>
                   match elements h with
                   | None => Panic
                   | Some e =>
                       match walk n current (e_heads e) (S depth) ts with
                       | Ok ts => go heads' ts
                       | Err e => Err e
                       | Panic => Panic
                       end
                   end
               | Err e => Err e
               | Panic => Panic
               end
           end) heads ts
    end.

  (** variant_processor.rs 198-290 [apply_element]: the type, [nillable], [substitutionGroup], [abstract]. *)
  Definition element_type (fuel : nat) (e : element) (ts : types) : outcome error (ident * types) :=
    let i := (KElementType, e_name e) in
    match e_type e with
    | TNamed t => Ok ((KType, t), ts)
    | TComplex base =>
        match create_type i (apply_complex_type fuel i base false) ts with
        | Ok ts => Ok (i, ts)
        | Err e => Err e
        | Panic => Panic
        end
    | TSimple =>
        match create_type i (fun ts => Ok (VOther, ts)) ts with
        | Ok ts => Ok (i, ts)
        | Err e => Err e
        | Panic => Panic
        end
    end.
  Definition apply_element (fuel : nat) (e : element) (ts : types) : outcome error (variant * types) :=
    let n := e_name e in
    match element_type fuel e ts with
    | Ok (t, ts) =>
        match (if e_nillable e then
                 match add_type (KNillable, n) (VRef t false) ts with
                 | Ok ts => Ok ((KNillable, n), true, ts)
                 | Err e => Err e
                 | Panic => Panic
                 end
               else Ok (t, false, ts)) with
        | Ok (t, nillable, ts) =>
            match (match e_heads e with
                   | [] => Ok (t, nillable, ts)
                   | heads =>
                       match add_type (KSubst, n) (VRef t nillable) ts with
                       | Ok ts =>
                           match walk fuel n heads 0 ts with
                           | Ok ts => Ok ((KSubst, n), false, ts)
                           | Err e => Err e
                           | Panic => Panic
                           end
                       | Err e => Err e
                       | Panic => Panic
                       end
                   end) with
            | Ok (t, nillable, ts) => Ok (if e_abstract e then VDyn (Some t) true [] else VRef t nillable, ts)
            | Err e => Err e
            | Panic => Panic
            end
        | Err e => Err e
        | Panic => Panic
        end
    | Err e => Err e
    | Panic => Panic
    end.

  (** type_processor.rs 48-88 [process_ident], [process_node]. *)
  Definition process_node (fuel : nat) (x : node) (ts : types) : outcome error types :=
    match x with
    | NElement e => create_type (KElement, e_name e) (apply_element fuel e) ts
    | NType c => create_type (KType, c_name c) (apply_complex_type fuel (KType, c_name c) (c_base c) (c_abstract c)) ts
    | NSimple n => create_type (KType, n) (fun ts => Ok (VOther, ts)) ts
    end.
  (** generate_types.rs 30-44 [generate_types]. *)
  Fixpoint generate_types (fuel : nat) (l : list node) (ts : types) : outcome error types :=
    match l with
    | [] => Ok ts
    | x :: l' =>
        match process_node fuel x ts with
        | Ok ts => generate_types fuel l' ts
        | Err e => Err e
        | Panic => Panic
        end
    end.
End Config.

(** models/meta/types.rs 191-226 [get_resolved]. *)
Fixpoint get_resolved (fuel : nat) (visited : list ident) (ts : types) (i : ident) : option (ident * variant) :=
  match fuel with
  | 0 => None
  | S n =>
      if in_dec ident_dec i visited then None
      else match ts i with
           | None => None
           | Some (VRef t false) =>
               match get_resolved n (i :: visited) ts t with Some r => Some r | None => Some (i, VRef t false) end
           | Some v => Some (i, v)
           end
  end.
(** fix_derived_types.rs 26-42: the loop for one entry; [None]: it did not end. *)
Fixpoint fix_one (fuel : nat) (ts : types) (key : ident) (d : derived) : option derived :=
  match fuel with
  | 0 => None
  | S n =>
      match get_resolved fuel [] ts (d_type d) with
      | None => Some d
      | Some (i, v) =>
          if ikind_dec (fst key) (fst i) then
            match v with
            | VDyn (Some b) _ _ => fix_one n ts key (Derived b (d_rel d))
            | _ => Some d
            end
          else Some (Derived i (d_rel d))
      end
  end.
Fixpoint fix_all (fuel : nat) (ts : types) (ds : list (ident * derived)) : option (list (ident * derived)) :=
  match ds with
  | [] => Some []
  | (k, d) :: ds' =>
      match fix_one fuel ts k d, fix_all fuel ts ds' with
      | Some d', Some r => Some ((k, d') :: r)
      | _, _ => None
      end
  end.
(** fix_derived_types.rs 15-48; meanwhile the type itself is a placeholder. *)
Fixpoint fix_derived_types (fuel : nat) (keys : list ident) (ts : types) : option types :=
  match keys with
  | [] => Some ts
  | i :: keys' =>
      match ts i with
      | Some (VDyn t a ds) =>
          match fix_all fuel (set i VOther ts) ds with
          | Some ds' => fix_derived_types fuel keys' (set i (VDyn t a ds') ts)
          | None => None
          end
      | _ => fix_derived_types fuel keys' ts
      end
  end.
