(** Identifiers of types and properties (xsd-parser/src/models/ident.rs, name.rs). *)
From Verif Require Export Base.

(** name.rs 8-14 [Name]. *)
Inductive name := Named (s : string) | Generated (s : string).

(** ident.rs 59-92 [IdentType]. *)
Inductive ident_type :=
| ITType | ITGroup | ITElement | ITElementType | ITAttribute | ITAttributeGroup | ITBuildIn
| ITEnumeration | ITNillableContent | ITSubstitutionElement | ITDynamicVariant.

(** schema/mod.rs [NamespaceId], [SchemaId]: numbers; 0 is [UNKNOWN], namespace 1 is
    [ANONYMOUS]. *)
Definition id_unknown : nat := 0.
Definition ns_anonymous : nat := 1.

(** ident.rs 12-28 [TypeIdent]. *)
Record tident := TIdent { ti_ns : nat; ti_schema : nat; ti_name : name; ti_type : ident_type }.

(** ident.rs 36-42 [PropertyIdent]. *)
Record pident := PIdent { pi_ns : nat; pi_name : name }.

(** The derived [Eq] of these types. *)
Definition name_eq_dec (a b : name) : {a = b} + {a <> b}.
Proof. decide equality; apply string_dec. Defined.
Definition ident_type_eq_dec (a b : ident_type) : {a = b} + {a <> b}.
Proof. decide equality. Defined.
Definition tident_eq_dec (a b : tident) : {a = b} + {a <> b}.
Proof. decide equality; [apply ident_type_eq_dec|apply name_eq_dec|apply Nat.eq_dec|apply Nat.eq_dec]. Defined.
Definition pident_eq_dec (a b : pident) : {a = b} + {a <> b}.
Proof. decide equality; [apply name_eq_dec|apply Nat.eq_dec]. Defined.

(** A boolean from a decision. *)
Definition is_left {A B : Prop} (d : {A} + {B}) : bool := if d then true else false.

(** name.rs 59-86. *)
Definition name_is_generated (n : name) : bool := match n with Generated _ => true | Named _ => false end.
Definition name_str (n : name) : string := match n with Named s | Generated s => s end.

(** ident.rs 226-238 [TypeIdent::matches]. *)
Definition ti_matches (a b : tident) : bool :=
  (Nat.eqb (ti_ns a) 0 || Nat.eqb (ti_ns b) 0 || Nat.eqb (ti_ns a) (ti_ns b)) &&
  (Nat.eqb (ti_schema a) 0 || Nat.eqb (ti_schema b) 0 || Nat.eqb (ti_schema a) (ti_schema b)) &&
  is_left (name_eq_dec (ti_name a) (ti_name b)) && is_left (ident_type_eq_dec (ti_type a) (ti_type b)).

(** ident.rs 243-255 [to_property_ident]. *)
Definition ti_property (a : tident) : pident := PIdent (ti_ns a) (ti_name a).

(** ident.rs 268-270 [is_fully_qualified]. *)
Definition ti_qualified (a : tident) : bool :=
  negb (Nat.eqb (ti_ns a) 0) && negb (Nat.eqb (ti_schema a) 0).

(** ident.rs 191-219 [with_*]. *)
Definition ti_with_ns (a : tident) (n : nat) := TIdent n (ti_schema a) (ti_name a) (ti_type a).
Definition ti_with_schema (a : tident) (s : nat) := TIdent (ti_ns a) s (ti_name a) (ti_type a).
Definition ti_with_name (a : tident) (n : name) := TIdent (ti_ns a) (ti_schema a) n (ti_type a).
Definition ti_with_type (a : tident) (t : ident_type) := TIdent (ti_ns a) (ti_schema a) (ti_name a) t.
