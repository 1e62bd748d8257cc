(** The namespaces that a serializer declares at the root element, with
    [NamespaceSerialization::Global]
    (xsd-parser/src/pipeline/renderer/steps/quick_xml/serialize.rs). *)
From Verif Require Export Base.

(** models/meta/types.rs 45-58 [ModuleMeta].  Identifiers of namespaces and of types are
    numbers. *)
Record module_meta := ModuleMeta { mm_name : option bytes; mm_prefix : option bytes; mm_namespace : option bytes }.

(** models/meta/types.rs 139-143 [name]. *)
Definition mm_any_name (m : module_meta) : option bytes :=
  match mm_name m with Some n => Some n | None => mm_prefix m end.

(** models/meta/types.rs 166-176 [make_ns_const], 180-188 [make_prefix_const]: whether
    there is such a constant.  Simplification: its path is left out. *)
Definition has_ns_const (m : module_meta) : bool :=
  match mm_namespace m with Some _ => true | None => false end.
Definition has_prefix_const (m : module_meta) : bool :=
  match mm_namespace m, mm_any_name m with Some _, Some _ => true | _, _ => false end.

(** serialize.rs 120-124 [NamespaceKey]. *)
Inductive ns_key := KNormal (id : nat) | KDefault (id : nat).
Definition key_eq_dec (a b : ns_key) : {a = b} + {a <> b}.
Proof. decide equality; apply Nat.eq_dec. Defined.

(** models/meta/dynamic.rs: a derived type of a dynamic type.  [de_key]: the kind of the
    identifier it is stored under. *)
Inductive ident_kind := IdType | IdElement | IdOther.
Record derived := Derived { de_key : ident_kind; de_type : nat; de_concrete : bool }.

(** models/meta/element.rs: an element.  [el_type]: [None] for [xs:any] and texts.
    [el_by_type]: serialize.rs 1461-1468 [use_dynamic_type_serializer].  The tag of an
    element is its namespace if it is qualified; the collector does not look at it. *)
Record element := Element { el_type : option nat; el_nillable : bool; el_by_type : bool; el_tag_ns : option nat }.

Inductive group_kind := GAll | GChoice | GSequence.
(** models/meta/custom.rs 178-184 [CustomMetaNamespace]. *)
Inductive custom_ns := CId (id : nat) | CNamespace (ns : bytes).
(** models/meta/attribute.rs: the form and the namespace of an attribute. *)
Record attribute := Attribute { at_qualified : bool; at_ns : nat }.

(** models/meta/type_.rs 48-94 [MetaTypeVariant]; 22-45 [MetaType]: [mt_qualified] is
    [form() == Qualified] (141-146), [mt_ns] the namespace of the identifier. *)
Inductive mvariant :=
| MUnion (types : list nat)
| MBuildIn
| MCustom (namespaces : list custom_ns)
| MReference (ty : nat) (nillable : bool)
| MEnumeration (variants : list (option nat))
| MDynamic (ds : list derived)
| MGroup (k : group_kind) (elements : list element)
| MComplex (content : option nat) (attributes : list attribute)
| MSimple.
Record mtype := MType { mt_ns : nat; mt_qualified : bool; mt_variant : mvariant }.

(** models/meta/types.rs 24-43 [MetaTypes].  Simplification: maps are lists of their
    entries. *)
Record mtypes := MTypes { ts_items : list (nat * mtype); ts_modules : list (nat * module_meta) }.
Fixpoint get {V} (k : nat) (l : list (nat * V)) : option V :=
  match l with
  | [] => None
  | (k', v) :: l' => if Nat.eqb k k' then Some v else get k l'
  end.

(** serialize.rs 1817-1857 [filter_dynamic_types]: whether anything is left. *)
Definition type_in (t : nat) (l : list nat) : bool := existsb (Nat.eqb t) l.
Definition derived_elements (ds : list derived) : list nat :=
  flat_map (fun d => match de_key d with IdElement => [de_type d] | _ => [] end) ds.
Definition is_dynamic (ds : list derived) (d : derived) : bool :=
  match de_key d with
  | IdType => negb (de_concrete d) && negb (type_in (de_type d) (derived_elements ds))
  | _ => false
  end.
Definition has_dynamic_types (ds : list derived) : bool := existsb (is_dynamic ds) ds.

(** A shared map of namespaces: the type that created it, which stands for the address
    of the [Rc], and its keys.  Simplification: a [BTreeMap] is the list of its keys. *)
Record shared := Shared { sh_owner : nat; sh_keys : list ns_key }.

(** serialize.rs 1553-1559 [GetNamespaceState]. *)
Inductive gstate := SEmpty | SWeak (l : list ns_key) | SStrong (l : list ns_key) | SShared (s : shared).

(** serialize.rs 113-118 [NamespaceCollector]; [None] in the cache: in progress. *)
Definition cache := list (nat * option shared).

(** What a call does: it ends; it panics; more steps are needed than were given. *)
Inductive cresult (A : Type) := CDone (a : A) | CPanic | CMore.
Arguments CDone {A} _.
Arguments CPanic {A}.
Arguments CMore {A}.

Section Collect.
  Variable xsi : option nat.
  Variable nillable_support : bool.
  Variable ts : mtypes.
  Variable default_ns : option bytes.

  (** serialize.rs 1796-1814 [make_value]: whether there is a value for a key. *)
  Definition has_value (key : ns_key) : bool :=
    match key with
    | KNormal id => match get id (ts_modules ts) with Some m => has_prefix_const m && has_ns_const m | None => false end
    | KDefault id => match get id (ts_modules ts) with Some m => has_ns_const m | None => false end
    end.

  Definition contains (key : ns_key) (l : list ns_key) : bool := if in_dec key_eq_dec key l then true else false.

  (** serialize.rs 1767-1794 [add_ns]. *)
  Definition insert_ns (key : ns_key) (l : list ns_key) : list ns_key :=
    if contains key l then l else if has_value key then l ++ [key] else l.
  Definition add_ns (st : gstate) (key : ns_key) : gstate :=
    match st with
    | SEmpty => if has_value key then SWeak [key] else SEmpty
    | SWeak l => SWeak (insert_ns key l)
    | SStrong l => SStrong (insert_ns key l)
    | SShared s => if contains key (sh_keys s) then st else if has_value key then SStrong (sh_keys s ++ [key]) else st
    end.

  (** serialize.rs 1739-1764: the second half of [merge]. *)
  Definition merge_state (st : gstate) (src : shared) : gstate :=
    match st with
    | SEmpty => SShared src
    | SWeak dst => fold_left add_ns dst (SShared src)
    | SShared dst => if Nat.eqb (sh_owner dst) (sh_owner src) then st else fold_left add_ns (sh_keys src) st
    | SStrong _ => fold_left add_ns (sh_keys src) st
    end.

  (** What [get_namespaces_impl] does for a type, in order. *)
  Inductive action := AMerge (ty : nat) | AAdd (key : ns_key).

  Definition add_xsi (b : bool) : list action :=
    if b then match xsi with Some id => [AAdd (KNormal id)] | None => [] end else [].
  Definition element_actions (k : group_kind) (e : element) : list action :=
    match el_type e with Some t => [AMerge t] | None => [] end
    ++ add_xsi (nillable_support && el_nillable e)
    ++ add_xsi (match k with GChoice => el_by_type e | _ => false end).
  Definition is_namespace (ns : bytes) (m : module_meta) : bool := opt_eqb (mm_namespace m) (Some ns).
  Definition custom_actions (c : custom_ns) : list action :=
    match c with
    | CId id => [AAdd (KDefault id)]
    | CNamespace ns =>
        match find (fun x => is_namespace ns (snd x)) (ts_modules ts) with
        | Some (id, _) => [AAdd (KNormal id)]
        | None => []
        end
    end.

  (** serialize.rs 1605-1689: the match on the variant. *)
  Definition variant_actions (v : mvariant) : list action :=
    match v with
    | MUnion types => map AMerge types
    | MReference ty nillable => AMerge ty :: add_xsi (nillable_support && nillable)
    | MEnumeration vs => flat_map (fun x => match x with Some t => [AMerge t] | None => [] end) vs
    | MDynamic ds => map (fun d => AMerge (de_type d)) ds ++ add_xsi (has_dynamic_types ds)
    | MGroup k es => flat_map (element_actions k) es
    | MComplex content attrs =>
        match content with Some t => [AMerge t] | None => [] end
        ++ flat_map (fun a => if at_qualified a then [AAdd (KNormal (at_ns a))] else []) attrs
    | MCustom l => flat_map custom_actions l
    | MBuildIn | MSimple => []
    end.

  (** serialize.rs 1691-1704: the namespace of the type itself. *)
  Definition own_key (t : mtype) : ns_key :=
    match get (mt_ns t) (ts_modules ts), default_ns with
    | Some m, Some b => if is_namespace b m then KDefault (mt_ns t) else KNormal (mt_ns t)
    | _, _ => KNormal (mt_ns t)
    end.
  Definition type_actions (t : mtype) : list action :=
    variant_actions (mt_variant t) ++ (if mt_qualified t then [AAdd (own_key t)] else []).

  (** serialize.rs 1706-1710: the value of a finished state. *)
  Definition finish (ty : nat) (st : gstate) : shared :=
    match st with
    | SEmpty => Shared ty []
    | SShared s => s
    | SWeak l | SStrong l => Shared ty l
    end.

  (** [HashMap::insert]: the newest entry counts. *)
  Definition put (ty : nat) (v : option shared) (c : cache) : cache := (ty, v) :: c.

  (** serialize.rs 1588-1730 [get_namespaces_impl]: the cache and the entry for the type
      afterwards. *)
  Fixpoint get_impl (fuel : nat) (c : cache) (ty : nat) : cresult (cache * option shared) :=
    match fuel with
    | 0 => CMore
    | S fuel =>
        match get ty c with
        | Some v => CDone (c, v)
        | None =>
            match get ty (ts_items ts) with
            | None => CPanic
            | Some t =>
                match
                  (fix run (l : list action) (c : cache) (st : gstate) : cresult (cache * gstate) :=
                     match l with
                     | [] => CDone (c, st)
                     | AAdd key :: l' => run l' c (add_ns st key)
                     | AMerge ty' :: l' =>
                         match get_impl fuel c ty' with
                         | CDone (c, Some src) => run l' c (merge_state st src)
                         | CDone (c, None) => run l' c st
                         | CPanic => CPanic
                         | CMore => CMore
                         end
                     end) (type_actions t) (put ty None c) SEmpty
                with
                | CDone (c, st) => let v := finish ty st in CDone (put ty (Some v) c, Some v)
                | CPanic => CPanic
                | CMore => CMore
                end
            end
        end
    end.

  (** serialize.rs 1579-1586 [get_namespaces].  A recursion is never deeper than the
      number of types. *)
  Definition get_namespaces (c : cache) (ty : nat) : cresult (cache * list ns_key) :=
    match get_impl (2 + length (ts_items ts)) c ty with
    | CDone (c, Some v) => CDone (c, sh_keys v)
    | CDone (_, None) => CPanic
    | CPanic => CPanic
    | CMore => CMore
    end.

  (** serialize.rs 812-860: the collector is created once; the serializer of every
      complex type asks it, in the order in which the types are rendered. *)
  Fixpoint get_all (c : cache) (tys : list nat) : cresult (list (list ns_key)) :=
    match tys with
    | [] => CDone []
    | ty :: tys' =>
        match get_namespaces c ty with
        | CDone (c, l) => match get_all c tys' with CDone r => CDone (l :: r) | CPanic => CPanic | CMore => CMore end
        | CPanic => CPanic
        | CMore => CMore
        end
    end.
End Collect.

(** serialize.rs 1562-1577 [new]. *)
Definition xsi_ns : bytes := "http://www.w3.org/2001/XMLSchema-instance".
Definition find_xsi (ts : mtypes) : option nat :=
  option_map fst (find (fun x => is_namespace xsi_ns (snd x)) (ts_modules ts)).

Definition collect (nillable_support : bool) (ts : mtypes) (default_ns : option bytes) (tys : list nat) : cresult (list (list ns_key)) :=
  get_all (find_xsi ts) nillable_support ts default_ns [] tys.
