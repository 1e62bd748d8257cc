(** What a type named in the configuration refers to. *)
From Verif Require Export QuadModel ParserSpec.
Local Open Scope string_scope.

(** The namespace meant: given by its number, its URI, its prefix, or none at all. *)
Definition means_namespace (s : schemas) (n : option ns_ident) (ns : nat) : Prop :=
  match n with
  | None | Some NAnonymous => exists i, get ns (sm_infos s) = Some i /\ ni_namespace i = None
  | Some (NId k) => ns = k /\ exists i, get ns (sm_infos s) = Some i
  | Some (NPrefix p) => resolve_prefix s p = Some ns /\ exists i, get ns (sm_infos s) = Some i
  | Some (NNamespace u) => exists i, get ns (sm_infos s) = Some i /\ ni_namespace i = Some u
  end.

(** The components of a schema: those at its top, and those inside <xs:redefine> and <xs:override>. *)
Definition at_top (cs : list RedefModel.content) (k : NodeModel.node_kind) (n : string) : Prop :=
  exists p, In (RedefModel.CComponent (k, n, p)) cs.
Definition inside (cs : list RedefModel.content) (k : NodeModel.node_kind) (n : string) : Prop :=
  exists x l p, (In (RedefModel.CRedefine x l) cs \/ In (RedefModel.COverride x l) cs) /\ In (k, n, p) l.

(** The kind of identifier that belongs to a kind of component. *)
Definition kind_of (k : NodeModel.node_kind) : ident_type :=
  match k with
  | NodeModel.NElement => ITElement | NodeModel.NAttribute => ITAttribute
  | NodeModel.NGroup => ITGroup | NodeModel.NAttributeGroup => ITAttributeGroup
  | NodeModel.NSimpleType | NodeModel.NComplexType => ITType
  end.

(** [t] is a component of one of the schemas. *)
Definition schema_type (comps : schema_doc -> list RedefModel.content) (s : schemas) (t : tident) : Prop :=
  exists i k n, get (ti_schema t) (sm_schemas s) = Some i /\ si_namespace i = ti_ns t /\
    (at_top (comps (si_schema i)) k n \/ inside (comps (si_schema i)) k n) /\
    ti_type t = kind_of k /\ ti_name t = Named n.
(** ... and it is at the top of its schema. *)
Definition top_type (comps : schema_doc -> list RedefModel.content) (s : schemas) (t : tident) : Prop :=
  exists i k n, get (ti_schema t) (sm_schemas s) = Some i /\ si_namespace i = ti_ns t /\
    at_top (comps (si_schema i)) k n /\ ti_type t = kind_of k /\ ti_name t = Named n.

(** The types there are: those of the schemas and those added to the interpreter. *)
Definition exists_type comps s (added : list tident) (t : tident) : Prop := schema_type comps s t \/ In t added.

(** [t] has the kind, the name and the namespace asked for. *)
Definition asked_for (q : quadruple) (ns : nat) (t : tident) : Prop :=
  ti_type t = q_type q /\ name_str (ti_name t) = q_name q /\ ti_ns t = ns.

(** Added types belong to no schema, or to one of the schemas and its namespace. *)
Definition added_fits (s : schemas) (added : list tident) : Prop :=
  forall t, In t added -> ti_schema t = id_unknown \/
    exists i, get (ti_schema t) (sm_schemas s) = Some i /\ si_namespace i = ti_ns t.

(** The result of loading schemas with one resolver. *)
Definition loads resolver parse (s : schemas) : Prop :=
  exists fuel ops order p, keeps_resolver ops /\ parser_run resolver parse fuel ops parser_new = Some (Ok p) /\
    parser_finish order p = Ok s.

(** The namespace consists of a single schema. *)
Definition single (s : schemas) (ns : nat) : Prop := exists i k, get ns (sm_infos s) = Some i /\ ni_schemas i = [k].

(** The quadruple refers to the type [t] of a schema: it is the only one at the top of a schema
    with the name asked for, or its namespace has only one schema. *)
Definition refers_to comps (s : schemas) (q : quadruple) (t : tident) : Prop :=
  q_schema q = None /\ means_namespace s (q_ns q) (ti_ns t) /\ asked_for q (ti_ns t) t /\ schema_type comps s t /\
  ((top_type comps s t /\ (q_type q = ITElement \/ q_type q = ITType) /\
    forall u, top_type comps s u -> asked_for q (ti_ns t) u -> u = t) \/ single s (ti_ns t)).

(** The only schema with the given property has the number [k]. *)
Definition only_schema (s : schemas) (f : schema_info -> Prop) (k : nat) : Prop :=
  (exists i, get k (sm_schemas s) = Some i /\ f i) /\ forall k' i, get k' (sm_schemas s) = Some i -> f i -> k' = k.
(** The schema meant: given by its number, its name or its location. *)
Definition means_schema (s : schemas) (x : schema_ident) (k : nat) : Prop :=
  match x with
  | SId j => k = j
  | SName n => only_schema s (fun i => si_name i = Some n) k
  | SLocation l => only_schema s (fun i => si_location i = Some l) k
  end.
