(** Independent specification of the names of elements. *)
From Verif Require Import SerHelperModel DeModel DeSpec.
Local Open Scope string_scope.

(** Namespaces in XML 1.0, 3 and 6.1: the prefix [xml] is bound, other prefixes are bound by
    the innermost declaration. *)
Definition stands_for (els : list (bytes * list attr)) (p ns : bytes) : Prop :=
  (p = "xml" /\ ns = XML_NS) \/ (p <> "xml" /\ p <> "xmlns" /\ bound (Some p) ns els).

(** 6.2: the expanded name of an element with the tag [n] inside [els] (the element is the
    last of them); without prefix it is in the default namespace, if there is one. *)
Definition expanded (els : list (bytes * list attr)) (n : bytes) (x : option bytes * bytes) : Prop :=
  match split_colon n with
  | Some (p, l) => exists ns, stands_for els p ns /\ x = (Some ns, l)
  | None => (exists ns, bound None ns els /\ x = (Some ns, n)) \/
            ((forall ns, ~ bound None ns els) /\ x = (None, n))
  end.

(** The name of the tag of an event. *)
Definition tag_of (e : event) (n : bytes) : Prop := exists a, e = EStart n a \/ e = EEmpty n a.
