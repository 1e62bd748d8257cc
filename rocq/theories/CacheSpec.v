(** What the identifier cache has been told, in terms of the calls made on it. *)
From Verif Require Export CacheModel.
From Coq Require Export Sorting.Permutation.

(** The types the history [h] has inserted. *)
Definition inserted (h : list cache_op) (t : tident) : Prop := In (OpInsert t) h.

(** The history puts the schema [s] into the namespace [n]. *)
Definition places (h : list cache_op) (s n : nat) : Prop :=
  In (OpSchema n s) h \/ exists t, inserted h t /\ ti_schema t = s /\ s <> id_unknown /\ ti_ns t = n.

(** Every schema belongs to one namespace. *)
Definition one_namespace (h : list cache_op) : Prop :=
  forall s n n', places h s n -> places h s n' -> n = n'.

(** Types are only inserted for schemas that have been added, now or later. *)
Definition schemas_added (h : list cache_op) : Prop :=
  forall t, inserted h t -> ti_schema t <> id_unknown -> exists n, In (OpSchema n (ti_schema t)) h.

(** The type [t] is one the query [q] asks for: same kind, same name, and same namespace and
    schema as far as the query knows them. *)
Definition fits (q t : tident) : Prop :=
  (ti_ns q = id_unknown \/ ti_ns q = ti_ns t) /\
  (ti_schema q = id_unknown \/ ti_schema q = ti_schema t) /\
  ti_type q = ti_type t /\ name_str (ti_name q) = name_str (ti_name t).

(** Two types are the same up to whether their name counts as generated. *)
Definition same_type (t u : tident) : Prop :=
  ti_ns t = ti_ns u /\ ti_schema t = ti_schema u /\ ti_type t = ti_type u /\
  name_str (ti_name t) = name_str (ti_name u).

(** Every name is one found in a schema, not a generated one. *)
Definition named (t : tident) : Prop := exists s, ti_name t = Named s.

(** The dependency of [s] on [s'] was announced when [s] was already known. *)
Definition depends (h : list cache_op) (s s' : nat) : Prop :=
  exists h1 d h2 n, h = h1 ++ OpDependency s d :: h2 /\ places h1 s n /\ dep_id d = s'.

(** [s'] can be reached from [s] along dependencies. *)
Inductive reaches (h : list cache_op) : nat -> nat -> Prop :=
| reaches_self s : reaches h s s
| reaches_dep s s' s'' : depends h s s' -> reaches h s' s'' -> reaches h s s''.

(** The type is defined in a schema reachable from [s]. *)
Definition in_reach (h : list cache_op) (s : nat) (t : tident) : Prop :=
  inserted h t /\ ti_schema t <> id_unknown /\ reaches h s (ti_schema t).

(** The type is defined in a schema reachable from one of a global namespace. *)
Definition in_global (h : list cache_op) (t : tident) : Prop :=
  exists g s, In (OpGlobal g) h /\ In (OpSchema g s) h /\ in_reach h s t.

(** The type belongs to no schema. *)
Definition in_no_schema (h : list cache_op) (t : tident) : Prop :=
  inserted h t /\ ti_schema t = id_unknown.

(** Hash tables may be iterated in any order. *)
Definition any_order_of (o : order) : Prop :=
  (forall l, Permutation (or_ids o l) l) /\
  (forall l, Permutation (or_types o l) l) /\
  (forall l, Permutation (or_entries o l) l).

(** The kind and the name of a type. *)
Definition kind_name (t : tident) : tkey := (ti_type t, name_str (ti_name t)).
