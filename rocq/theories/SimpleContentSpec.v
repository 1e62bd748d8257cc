(** Independent specification of complex types with simple content (XML Schema 1.0, part 1,
    3.4.2: complex type definition with simple content). *)
From Verif Require Import SimpleModel SimpleSpec SimpleContentModel.

(** The content type: that of the base, restricted by the facets; in a restriction, the simple
    type inside of it takes the place of the content type of the base.  A mixed base needs such a
    type.  [None]: the content is not simple, or the type is not allowed. *)
Fixpoint content_type (c : cdef) : option sdef :=
  match c with
  | CMixed _ | CElements _ => None
  | CExtension (BSimple d) _ => Some d
  | CExtension (BComplex b) _ => content_type b
  | CRestriction (BSimple _) _ _ _ => None
  | CRestriction (BComplex b) inline fs _ =>
      match inline, content_type b with
      | Some d, _ => Some (SRestriction true d fs)
      | None, Some d => Some (SRestriction false d fs)
      | None, None => None
      end
  end.

(** 3.14.6: [d] is derived from [d0] by restriction. *)
Inductive derived (d0 : sdef) : sdef -> Prop :=
| D_same : derived d0 d0
| D_step i d fs : derived d0 d -> derived d0 (SRestriction i d fs)
| D_member i d ms fs : d0 = SUnion ms -> In d ms -> derived d0 (SRestriction i d fs).

(** The simple type in a restriction is derived from the content type of the base; a mixed base
    admits every type. *)
Fixpoint allowed (c : cdef) : Prop :=
  match c with
  | CMixed _ | CElements _ => True
  | CExtension (BSimple _) _ => True
  | CExtension (BComplex b) _ => allowed b /\ content_type b <> None
  | CRestriction (BSimple _) _ _ _ => False
  | CRestriction (BComplex b) inline fs _ =>
      allowed b /\
      match content_type b, inline with
      | Some d0, Some d => derived d0 d
      | Some _, None => True
      | None, Some _ => exists a, b = CMixed a
      | None, None => False
      end
  end.

(** [c] is [b] or is derived from [b]. *)
Inductive derives (b : cdef) : cdef -> Prop :=
| V_same : derives b b
| V_extension c a : derives b c -> derives b (CExtension (BComplex c) a)
| V_restriction c i fs a : derives b c -> derives b (CRestriction (BComplex c) i fs a).

(** 3.4.2: a type has the attributes of its base, and its own. *)
Fixpoint attributes (c : cdef) : list nat :=
  match c with
  | CMixed a | CElements a => a
  | CExtension (BSimple _) a => a
  | CExtension (BComplex b) a => attributes b ++ a
  | CRestriction (BSimple _) _ _ a => a
  | CRestriction (BComplex b) _ _ a => attributes b ++ a
  end.

(** ** Where the code is right *)

(** Lists, unions, and restrictions of them, all in one place. *)
Fixpoint self_contained (d : sdef) : Prop :=
  match d with
  | SList _ | SUnion _ => True
  | SRestriction true base _ => self_contained base
  | _ => False
  end.
Fixpoint is_union (d : sdef) : bool :=
  match d with SUnion _ => true | SRestriction _ base _ => is_union base | _ => false end.

(** A restriction in the derivation of [c] *)
Fixpoint straight (c : cdef) : Prop :=
  match c with
  | CMixed _ | CElements _ => True
  | CExtension (BSimple _) _ => True
  | CExtension (BComplex b) _ => straight b
  | CRestriction (BSimple _) _ _ _ => False
  | CRestriction (BComplex b) inline fs _ =>
      straight b /\
      match content_type b, inline with
      (** does not restrict an enumeration, *)
      | Some d0, None => enumerated d0 = false
      (** and a simple type inside of it either names the content type of the base, *)
      | Some d0, Some d =>
          enumerated d0 = false /\
          ((exists fs', d = SRestriction false d0 fs') \/
      (** or names no type at all. *)
           (self_contained d /\ is_union d = false))
      | None, Some d => (exists a, b = CMixed a) /\ self_contained d
      | None, None => False
      end
  end.

(** No type of the derivation restricts a mixed type. *)
Fixpoint no_mixed (c : cdef) : Prop :=
  match c with
  | CMixed _ => False
  | CElements _ => True
  | CExtension (BSimple _) _ | CRestriction (BSimple _) _ _ _ => True
  | CExtension (BComplex b) _ | CRestriction (BComplex b) _ _ _ => no_mixed b
  end.

(** The simple types that a derivation mentions. *)
Fixpoint mentions (c : cdef) (d : sdef) : Prop :=
  match c with
  | CMixed _ | CElements _ => False
  | CExtension (BSimple b) _ => d = b
  | CExtension (BComplex b) _ => mentions b d
  | CRestriction b inline _ _ =>
      match b with BSimple b => d = b | BComplex b => mentions b d end \/
      match inline with Some i => d = i | None => False end
  end.
