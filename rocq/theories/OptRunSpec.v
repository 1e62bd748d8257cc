(** What the flags of the optimizer promise about its result. *)
From Verif Require Import MetaModel MetaSpec OptSpec.
From Verif Require Export OptRunModel.

(** No enumeration has a value without a name. *)
Definition no_empty_variants (ts : types) : Prop :=
  forall i ty x v, In (i, ty) ts -> m_variant ty = VEnumeration x -> In v (en_variants x) -> pi_name (ev_ident v) <> Named "".
(** No enumeration with a base has no values at all. *)
Definition no_empty_enums (ts : types) : Prop :=
  forall i ty x, In (i, ty) ts -> m_variant ty = VEnumeration x -> en_variants x = [] -> en_base x = BaseNone.
(** No union has one member only, and none with a base has none. *)
Definition no_empty_unions (ts : types) : Prop :=
  forall i ty x, In (i, ty) ts -> m_variant ty = VUnion x ->
    (forall t, un_types x <> [t]) /\ (un_types x = [] -> un_base x = BaseNone).
(** No union names the same type twice. *)
Definition no_repeated_members (ts : types) : Prop :=
  forall i ty x, In (i, ty) ts -> m_variant ty = VUnion x -> NoDup (map ut_type (un_types x)).
(** No union has two members that stand for the same type. *)
Definition no_equal_members (ts : types) : Prop :=
  forall i ty x l1 a l2 b l3 e, In (i, ty) ts -> m_variant ty = VUnion x -> un_types x = l1 ++ a :: l2 ++ b :: l3 ->
    alias_end ts (ut_type a) e -> ~ alias_end ts (ut_type b) e.
(** No type names a mere alias of another type. *)
Definition no_aliases_used (ts : types) : Prop :=
  forall i ty x t c, In (i, ty) ts -> m_variant ty = VUnion x -> In t (un_types x) -> ~ plain_step ts (ut_type t) c.
(** No two types that are not references are equal. *)
Definition no_duplicates (ts : types) : Prop :=
  forall i j a b, In (i, a) ts -> In (j, b) ts -> i <> j -> type_eq ts a b = true ->
    (exists r, m_variant a = VReference r) \/ (exists r, m_variant b = VReference r).
