(** What the generated code needs of the traits of dynamic types; see TraitModel.v.  A
    value of a dynamic type is a box of a value of one of its derived types, so each of
    them must implement its trait. *)
From Verif Require Export TraitModel.

(** [m] is a derived type of the dynamic type [b]. *)
Definition derives (ts : types) (b : tident) (m : derived_meta) : Prop :=
  exists ty x k, lookup b ts = Some ty /\ m_variant ty = VDynamic x /\ In (k, m) (dy_derived x).
Definition dynamic (ts : types) (i : tident) : Prop :=
  exists ty x, lookup i ts = Some ty /\ m_variant ty = VDynamic x.
(** Types that the generator defines: all but those of Rust and of the user. *)
Definition own (ts : types) (i : tident) : Prop :=
  exists ty, lookup i ts = Some ty /\ match m_variant ty with VBuildIn _ | VCustom _ => False | _ => True end.

(** The generated code has [impl Trait for d], [Trait] being the trait of [b]; and the
    trait of [d] is declared as [trait D: B]. *)
Definition implements (g : tgen) (d b : tident) : Prop :=
  exists impls supers, In (d, (impls, supers)) (tg_done g) /\ In b impls.
Definition subtrait (g : tgen) (d b : tident) : Prop :=
  exists impls supers, In (d, (impls, supers)) (tg_done g) /\ In b supers.

(** [b] was asked for before [d]. *)
Definition before (g : tgen) (b d : tident) : Prop := exists x y z, tg_cache g = x ++ b :: y ++ d :: z.

(** [i] is [k] or an alias of it. *)
Inductive stands_for (ts : types) (mode : typedef_mode) (nillable : bool) : tident -> tident -> Prop :=
| stands_self i : stands_for ts mode nillable i i
| stands_alias i j k : alias_target ts mode nillable i = Some j -> stands_for ts mode nillable j k -> stands_for ts mode nillable i k.

(** The trait of [b] is implemented twice for one Rust type: an error of the compiler. *)
Definition conflict (ts : types) (mode : typedef_mode) (nillable : bool) (g : tgen) (b : tident) : Prop :=
  exists i j k, i <> j /\ implements g i b /\ implements g j b /\ stands_for ts mode nillable i k /\ stands_for ts mode nillable j k.
