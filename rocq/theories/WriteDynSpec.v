(** The elements in a value and the namespaces of their types.  Independent of the
    generated code. *)
From Verif Require Import WriteModel DocSpec WriteSpec.
Local Open Scope string_scope.
Local Open Scope list_scope.

Section Inside.
  Context {T A : Type}.
  Notation val := (val T A).
  Variable ff : flat_flags.
  Variable no_attrs : A.
  Variable env : nat -> tdef.

  (** [child_of_group ps w ty u], [child_of_particle p w ty u]: [u] is the value of an
      element of type [ty] in the value [w] of a group with the particles [ps], or of one
      occurrence of [p]. *)
  Inductive child_of_group : list particle -> val -> nat -> val -> Prop :=
  | child_field ps a fields i p vals w ty u : nth_error ps i = Some p -> nth_error fields i = Some vals -> In w vals ->
      child_of_particle p w ty u -> child_of_group ps (VStruct a fields) ty u
  | child_variant ps i p vals w ty u : nth_error ps i = Some p -> In w vals ->
      child_of_particle p w ty u -> child_of_group ps (VEnum i vals) ty u
  with child_of_particle : particle -> val -> nat -> val -> Prop :=
  | child_element min max ns name ty u : child_of_particle (PElement min max ns name ty) u ty u
  | child_group min max c ps w ty u : child_of_group ps w ty u ->
      child_of_particle (PGroup min max c ps) (packed ff no_attrs c w) ty u.

  (** The same for the content of an element of type [ty]. *)
  Definition child (ty : nat) (v : val) (ty' : nat) (u : val) : Prop :=
    match env ty with
    | TComplex attributed min max c ps =>
        nothing_allowed max ps = false /\
        (if direct ff attributed min max c then child_of_group ps v ty' u
         else exists a vals w, v = VStruct a [vals] /\ In w vals /\ child_of_group ps w ty' u)
    | _ => False
    end.
  (** The element itself and all elements in it. *)
  Inductive in_element : nat -> val -> nat -> val -> Prop :=
  | in_itself ty v : in_element ty v ty v
  | in_child ty v ty1 v1 ty2 v2 : child ty v ty1 v1 -> in_element ty1 v1 ty2 v2 -> in_element ty v ty2 v2.
End Inside.

(** The namespaces with a prefix that the start tag of an element of this type can need:
    the one of the type, if its elements are qualified, and those of its qualified
    attributes. *)
Definition type_namespace (cfg : wconfig) (ty : nat) (x : option bytes * bytes) : Prop :=
  exists p, wc_prefix cfg (snd x) = Some p /\ fst x = Some p /\
    ((wc_type_ns cfg ty = Some (snd x) /\ wc_type_qualified cfg ty = true) \/ In (snd x) (wc_attr_ns cfg ty)).
