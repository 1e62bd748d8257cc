(** When the default of an attribute is the value that is read from its text. *)
From Verif Require Import SimpleModel SimpleSpec DefaultModel.

Section Spec.
  Context {atom : Type}.
  Variable class : nat -> builtin_class.
  Variable parse : nat -> list N -> option atom.
  Variable finite : atom -> bool.
  Variable truth : bool -> atom.

  (** Texts of truth values are read as the library reads them. *)
  Definition reads_bools : Prop :=
    forall b, class b = CBool -> forall s, parse b s = option_map truth (read_bool s).

  (** The text is no infinite number. *)
  Definition finite_text (t : list N) : Prop :=
    forall b a, class b = CFloat -> parse b t = Some a -> finite a = true.

  (** Types whose texts are not restricted: no lists, no facets besides enumerations without patterns
      and digits; neither truth values, which are taken from more texts than are read, nor
      types of other libraries. *)
  Fixpoint unrestricted (m : smeta) : Prop :=
    match m with
    | MBuildIn b => class b <> CBool /\ class b <> CFromStr
    | MRef ty l => l = false /\ unrestricted ty
    | MSimple _ _ _ => False
    | MEnum c _ => c_patterns c = [] /\ c_total c = None /\ c_fraction c = None
    | MUnion c types => c_white c = WPreserve /\ c_patterns c = [] /\ c_total c = None /\ c_fraction c = None /\
        (fix all l := match l with [] => True | m :: l' => unrestricted m /\ all l' end) types
    end.

  (** There are no lists, and all members of unions but the last are not restricted. *)
  Fixpoint single_values (m : smeta) : Prop :=
    match m with
    | MBuildIn _ | MEnum _ _ => True
    | MRef ty l => l = false /\ single_values ty
    | MSimple base l _ => l = false /\ single_values base
    | MUnion _ types =>
        (fix all l := match l with [] => True | m :: l' => single_values m /\ (l' = [] \/ unrestricted m) /\ all l' end) types
    end.

  (** White space is kept. *)
  Fixpoint keeps_blanks (m : smeta) : Prop :=
    match m with
    | MBuildIn _ | MEnum _ _ => True
    | MRef ty _ => keeps_blanks ty
    | MSimple base _ c => c_white c = WPreserve /\ keeps_blanks base
    | MUnion c types => c_white c = WPreserve /\
        (fix all l := match l with [] => True | m :: l' => keeps_blanks m /\ all l' end) types
    end.
End Spec.
