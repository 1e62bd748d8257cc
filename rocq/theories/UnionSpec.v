(** The members of a union. *)
From Verif Require Import MetaModel MetaSpec UnionModel.

(** [leaves ts i d l]: [l] lists, in order, the types that a value of type [i] can have:
    unions are replaced by their members and aliases by what they stand for; [d] is the
    name [i] is displayed with.  Undefined types have no values. *)
Inductive leaves (ts : types) : tident -> option string -> list union_type -> Prop :=
| leaves_missing i d : lookup i ts = None -> leaves ts i d []
| leaves_alias i d j l : plain_step ts i j -> leaves ts j d l -> leaves ts i d l
| leaves_union i d ty x l : lookup i ts = Some ty -> m_variant ty = VUnion x ->
    leaves_all ts (un_types x) l -> leaves ts i d l
| leaves_other i d ty : lookup i ts = Some ty -> (forall x, m_variant ty <> VUnion x) ->
    (forall j, ~ plain_step ts i j) -> leaves ts i d [UType i d]
with leaves_all (ts : types) : list union_type -> list union_type -> Prop :=
| la_nil : leaves_all ts [] []
| la_cons t ms l1 l2 : leaves ts (ut_type t) (ut_display t) l1 -> leaves_all ts ms l2 ->
    leaves_all ts (t :: ms) (l1 ++ l2).
Scheme leaves_ind2 := Induction for leaves Sort Prop with leaves_all_ind2 := Induction for leaves_all Sort Prop.
Combined Scheme leaves_mut from leaves_ind2, leaves_all_ind2.

(** The type is a union, or an alias of one. *)
Definition stands_for_union (ts : types) (i : tident) : Prop :=
  exists j ty x, leads ts i j /\ lookup j ts = Some ty /\ m_variant ty = VUnion x.

(** [offers ts i id]: a value of type [i] can be the literal [id] of an enumeration, or a
    value of the type named [id]. *)
Inductive offers (ts : types) : tident -> pident -> Prop :=
| offers_alias i j id : plain_step ts i j -> offers ts j id -> offers ts i id
| offers_union i ty x t id : lookup i ts = Some ty -> m_variant ty = VUnion x -> In t (un_types x) ->
    offers ts (ut_type t) id -> offers ts i id
| offers_literal i ty x v : lookup i ts = Some ty -> m_variant ty = VEnumeration x -> In v (en_variants x) ->
    offers ts i (ev_ident v)
| offers_other i ty : lookup i ts = Some ty -> (forall x, m_variant ty <> VUnion x) ->
    (forall x, m_variant ty <> VEnumeration x) -> (forall j, ~ plain_step ts i j) -> offers ts i (ti_property i).

(** What a type of a union contributes to the merged enumeration: the literals of an
    enumeration, or a variant that holds a value of the type. *)
Definition contributions (ts : types) (t : union_type) : list (pident * option tident * option string) :=
  match get_variant ts (ut_type t) with
  | Some (VEnumeration x) => map (fun v => (ev_ident v, ev_type v, ev_display v)) (en_variants x)
  | _ => [(ti_property (ut_type t), Some (ut_type t), ut_display t)]
  end.

(** No union is a member of itself, however indirectly. *)
Definition finite_unions (ts : types) : Prop :=
  forall i ty x, lookup i ts = Some ty -> m_variant ty = VUnion x -> exists l, leaves ts i None l.

Definition is_enum (ts : types) (t : union_type) : Prop :=
  exists x, get_variant ts (ut_type t) = Some (VEnumeration x).

(** The variant of an enumeration with the given name, type and display name and nothing
    else. *)
Definition variant_of (c : pident * option tident * option string) : enum_variant :=
  EVariant (fst (fst c)) UseOptional (snd (fst c)) (snd c) [] None.
