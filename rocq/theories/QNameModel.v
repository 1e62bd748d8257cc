(** Model of equality and hashing of [QName] (xsd-parser-types/src/xml/qname.rs). *)
From Verif Require Export SerHelperModel.
Local Open Scope string_scope.

(** qname.rs 196-204 [PartialEq::eq]. *)
Definition qname_eq (a b : qname) : bool :=
  match q_ns a, q_ns b with
  | Some n1, Some n2 => String.eqb n1 n2 && String.eqb (q_local a) (q_local b)
  | _, _ => String.eqb (q_raw a) (q_raw b)
  end.

(** qname.rs 206-215 [Hash::hash]: the sequence of byte slices fed to the
    hasher.  Each slice is fed with its length, so the hasher sees exactly this
    list. *)
Definition qname_hash (q : qname) : list bytes :=
  match q_ns q with
  | Some ns => [ns; q_local q]
  | None => [q_raw q]
  end.

(** qname.rs 63-72 [from_helper].  [resolve] is the reader's resolver for the
    current scope: namespace of a raw name if bound. *)
Definition qname_from_helper (resolve : bytes -> option bytes) (raw : bytes) : qname :=
  QName raw (colon_pos raw) (resolve raw).
