(** Which namespaces the documents of a type need. *)
From Verif Require Import CollectModel.

Section Spec.
  Variable nillable_support : bool.
  Variable ts : mtypes.
  Variable default_ns : option bytes.

  (** Types that are mentioned in the definition of a type. *)
  Definition mentions_type (v : mvariant) (ty : nat) : Prop :=
    match v with
    | MUnion l => In ty l
    | MReference t _ => ty = t
    | MEnumeration l => In (Some ty) l
    | MDynamic ds => exists d, In d ds /\ de_type d = ty
    | MGroup _ es => exists e, In e es /\ el_type e = Some ty
    | MComplex content _ => content = Some ty
    | MBuildIn | MCustom _ | MSimple => False
    end.
  Definition mentions (a b : nat) : Prop :=
    exists t, get a (ts_items ts) = Some t /\ mentions_type (mt_variant t) b.

  (** Types that a document of a type may contain. *)
  Inductive reaches : nat -> nat -> Prop :=
  | reaches_self a : reaches a a
  | reaches_next a b c : mentions a b -> reaches b c -> reaches a c.

  (** A type that contains itself. *)
  Definition recursive (a : nat) : Prop := exists b, mentions a b /\ reaches b a.

  (** The first module with a namespace. *)
  Definition module_of (ns : bytes) (id : nat) : Prop :=
    exists before m after, ts_modules ts = before ++ (id, m) :: after /\ mm_namespace m = Some ns /\
      forall x, In x before -> mm_namespace (snd x) <> Some ns.

  (** A derived type that has to be named by [xsi:type]: there is no element for it. *)
  Definition named_by_type (ds : list derived) (d : derived) : Prop :=
    In d ds /\ de_key d = IdType /\ de_concrete d = false /\
    forall d', In d' ds -> de_key d' = IdElement -> de_type d' <> de_type d.

  (** Attributes of the namespace of schema instances are written for a type. *)
  Definition writes_xsi (v : mvariant) : Prop :=
    match v with
    | MReference _ nillable => nillable_support = true /\ nillable = true
    | MDynamic ds => exists d, named_by_type ds d
    | MGroup k es => exists e, In e es /\ (nillable_support = true /\ el_nillable e = true \/ k = GChoice /\ el_by_type e = true)
    | _ => False
    end.

  (** Declarations that the definition of a type itself calls for: [KNormal]: of a prefix
      for a namespace, [KDefault]: of the default namespace. *)
  Inductive calls_for (t : mtype) : ns_key -> Prop :=
  | calls_xsi id : writes_xsi (mt_variant t) -> module_of xsi_ns id -> calls_for t (KNormal id)
  | calls_attribute content attrs a : mt_variant t = MComplex content attrs -> In a attrs -> at_qualified a = true ->
      calls_for t (KNormal (at_ns a))
  | calls_custom_id l id : mt_variant t = MCustom l -> In (CId id) l -> calls_for t (KDefault id)
  | calls_custom_ns l ns id : mt_variant t = MCustom l -> In (CNamespace ns) l -> module_of ns id -> calls_for t (KNormal id)
  | calls_default m ns : mt_qualified t = true -> get (mt_ns t) (ts_modules ts) = Some m -> mm_namespace m = Some ns ->
      default_ns = Some ns -> calls_for t (KDefault (mt_ns t))
  | calls_prefix : mt_qualified t = true ->
      (forall m ns, get (mt_ns t) (ts_modules ts) = Some m -> mm_namespace m = Some ns -> default_ns <> Some ns) ->
      calls_for t (KNormal (mt_ns t)).

  (** A declaration can be written: the module has a namespace and, for a prefix, a name. *)
  Definition declarable (key : ns_key) : Prop :=
    match key with
    | KNormal id => exists m ns, get id (ts_modules ts) = Some m /\ mm_namespace m = Some ns /\ (mm_name m <> None \/ mm_prefix m <> None)
    | KDefault id => exists m ns, get id (ts_modules ts) = Some m /\ mm_namespace m = Some ns
    end.

  (** The declarations for the documents of a type: for it and all types it may contain. *)
  Definition needed (ty : nat) (key : ns_key) : Prop :=
    declarable key /\ exists ty' t, reaches ty ty' /\ get ty' (ts_items ts) = Some t /\ calls_for t key.

  (** Every type that is mentioned is defined. *)
  Definition complete (ty : nat) : Prop := forall ty', reaches ty ty' -> get ty' (ts_items ts) <> None.
End Spec.
