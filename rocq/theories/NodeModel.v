(** The interpreter's dependency graph and the order in which it generates types
    (xsd-parser/src/pipeline/interpreter/state.rs, state/crate_node_cache.rs,
    state/create_node_list.rs). *)
From Verif Require Export IdentModel.

(** state.rs 47-54 [Node], without the schema object it refers to. *)
Inductive node_kind := NGroup | NElement | NAttribute | NSimpleType | NComplexType | NAttributeGroup.

(** state.rs 71-83 [NodeDependency]. *)
Inductive dependency := Strong (i : tident) | Lazy (i : tident) | Weak (i : tident).

(** state.rs 64-68 [NodeDependencyKey]; the pointers of inline elements and types are
    numbers. *)
Inductive dep_key := KNamed (ns : nat) (t : ident_type) (n : string) | KInlineElement (p : nat) | KInlineSimpleType (p : nat).
Definition dep_key_eq_dec (a b : dep_key) : {a = b} + {a <> b}.
Proof. decide equality; try apply Nat.eq_dec; [apply string_dec|apply ident_type_eq_dec]. Defined.

(** state.rs 57-61 [NodeCacheEntry], without [redefine_base].  [BTreeMap] is modelled as the
    list of its entries, here in the order of their first insertion. *)
Record entry := Entry { e_kind : node_kind; e_deps : list (dep_key * dependency) }.
Definition node_cache := list (tident * entry).

(** [BTreeMap::insert] and [IndexMap::insert]: replaces the value of a key that is there. *)
Fixpoint dep_insert (k : dep_key) (d : dependency) (l : list (dep_key * dependency)) : list (dep_key * dependency) :=
  match l with
  | [] => [(k, d)]
  | (k', d') :: l' => if dep_key_eq_dec k k' then (k, d) :: l' else (k', d') :: dep_insert k d l'
  end.
Fixpoint node_insert (i : tident) (e : entry) (c : node_cache) : node_cache :=
  match c with
  | [] => [(i, e)]
  | (i', e') :: c' => if tident_eq_dec i i' then (i, e) :: c' else (i', e') :: node_insert i e c'
  end.
Fixpoint node_get (i : tident) (c : node_cache) : option entry :=
  match c with
  | [] => None
  | (i', e) :: c' => if tident_eq_dec i i' then Some e else node_get i c'
  end.

(** * The graph *)

(** How a component of a schema refers to another one: the base of an extension or a
    restriction, the head of a substitution group, the type of an element or an attribute,
    the item type of a list, a member type of a union, a reference to an element, an
    attribute, a group or an attribute group. *)
Inductive ref_kind := RBase | RHead | RType | RItem | RMember | RElement | RAttribute | RGroup | RAttributeGroup.

(** The name in the reference: the number of its namespace and its local name. *)
Definition qref := (nat * string)%type.

(** A component of a schema, reduced to the references in it, in the order of the
    document.  [PInside]: a part that has no node of its own (a group of elements, the
    complex type of an element, the content of an extension, ...).  [PInline]: an anonymous
    part that gets a node of its own, a local element or the simple type of an attribute, a
    list or a union; [p] is its address and [i] the identifier made for it. *)
Inductive part :=
| PRef (k : ref_kind) (q : qref)
| PInside (ps : list part)
| PInline (kd : node_kind) (p : nat) (i : tident) (ps : list part).

(** crate_node_cache.rs 396-699: the kind of identifier looked up for a reference. *)
Definition ref_type (k : ref_kind) : ident_type :=
  match k with
  | RBase | RType | RItem | RMember => ITType
  | RHead | RElement => ITElement
  | RAttribute => ITAttribute
  | RGroup => ITGroup
  | RAttributeGroup => ITAttributeGroup
  end.
(** The same lines: the strength of the dependency. *)
Definition ref_dep (k : ref_kind) (i : tident) : dependency :=
  match k with
  | RBase | RHead => Strong i
  | RGroup | RAttributeGroup => Lazy i
  | RType | RItem | RMember | RElement | RAttribute => Weak i
  end.

Section Collect.
  (** crate_node_cache.rs 917-936 [resolve_type_ident]: what a name refers to in the node
      that is being processed.  Simplification: depends on nothing else. *)
  Variable resolve : tident -> qref -> ident_type -> option tident.

  (** A node being processed and the nodes finished before. *)
  Definition collecting := (list (dep_key * dependency) * node_cache)%type.

  (** crate_node_cache.rs 396-699, 838-855 [process_*], [add_dependency],
      [new_inline_entry]; [None]: a name could not be resolved. *)
  Fixpoint process (me : tident) (x : part) (s : collecting) {struct x} : option collecting :=
    match x with
    | PRef k q =>
        match resolve me q (ref_type k) with
        | Some i => Some (dep_insert (KNamed (fst q) (ref_type k) (snd q)) (ref_dep k i) (fst s), snd s)
        | None => None
        end
    | PInside ps =>
        (fix all ps s := match ps with
                         | [] => Some s
                         | p :: ps' => match process me p s with Some s' => all ps' s' | None => None end
                         end) ps s
    | PInline kd a i ps =>
        match (fix all ps s := match ps with
                               | [] => Some s
                               | p :: ps' => match process i p s with Some s' => all ps' s' | None => None end
                               end) ps ([], snd s) with
        | Some (ds, c) =>
            let key := match kd with NElement => KInlineElement a | _ => KInlineSimpleType a end in
            Some (dep_insert key (Weak i) (fst s), node_insert i (Entry kd ds) c)
        | None => None
        end
    end.

  (** crate_node_cache.rs 152-217, 750-778 [process_schema_content], [new_entry]: the named
      components in order.  Redefinitions are not modelled. *)
  Fixpoint collect (l : list (node_kind * tident * part)) (c : node_cache) : option node_cache :=
    match l with
    | [] => Some c
    | (kd, i, x) :: l' =>
        match process i x ([], c) with
        | Some (ds, c') => collect l' (node_insert i (Entry kd ds) c')
        | None => None
        end
    end.
End Collect.

(** * The order *)

(** create_node_list.rs 26-36. *)
Inductive mark := Visited | Done.
Record listing := Listing { l_nodes : list tident; l_marks : list (tident * mark) }.

Fixpoint mark_get (i : tident) (l : list (tident * mark)) : option mark :=
  match l with
  | [] => None
  | (i', m) :: l' => if tident_eq_dec i i' then Some m else mark_get i l'
  end.
(** [HashMap::insert]: the newest entry of a key is the one that counts. *)
Definition mark_set (i : tident) (m : mark) (s : listing) : listing := Listing (l_nodes s) ((i, m) :: l_marks s).

(** interpreter/error.rs [CircularDependency]; [OutOfFuel] is no error of the program: the
    recursion was cut off. *)
Inductive list_error := CircularDependency (i : tident) | OutOfFuel.

(** create_node_list.rs 89-96: the nodes types are generated for. *)
Definition generates (k : node_kind) : bool :=
  match k with NElement | NAttribute | NSimpleType | NComplexType => true | NGroup | NAttributeGroup => false end.

Section Visit.
  Variable c : node_cache.

  (** create_node_list.rs 72-87: the loop over the dependencies. *)
  Fixpoint visit_deps (visit : bool -> tident -> listing -> outcome list_error listing) (me : tident)
      (ds : list (dep_key * dependency)) (s : listing) : outcome list_error listing :=
    match ds with
    | [] => Ok s
    | (_, d) :: ds' =>
        match d with
        | Weak _ => visit_deps visit me ds' s
        | Strong i | Lazy i =>
            match visit (match d with Lazy _ => true | _ => false end) i s with
            | Ok s' => visit_deps visit me ds' s'
            | Err (CircularDependency _) => Err (CircularDependency me)
            | Err e => Err e
            | Panic => Panic
            end
        end
    end.

  (** create_node_list.rs 56-105 [visit_node]. *)
  Fixpoint visit_node (fuel : nat) (lazy : bool) (i : tident) (s : listing) : outcome list_error listing :=
    match fuel with
    | 0 => Err OutOfFuel
    | S fuel =>
        match mark_get i (l_marks s) with
        | Some Visited => Err (CircularDependency i)
        | Some Done => Ok s
        | None =>
            let s1 := if lazy then s else mark_set i Visited s in
            let r := match node_get i c with
                     | None => Ok s1
                     | Some e =>
                         match visit_deps (visit_node fuel) i (e_deps e) s1 with
                         | Ok s2 =>
                             Ok (if negb lazy && generates (e_kind e)
                                 then Listing (l_nodes s2 ++ [i]) (l_marks s2) else s2)
                         | other => other
                         end
                     end in
            match r with
            | Ok s3 => Ok (if lazy then s3 else mark_set i Done s3)
            | other => other
            end
        end
    end.

  (** create_node_list.rs 46-54 [exec]. *)
  Fixpoint visit_all (fuel : nat) (is : list tident) (s : listing) : outcome list_error listing :=
    match is with
    | [] => Ok s
    | i :: is' =>
        match mark_get i (l_marks s) with
        | Some Done => visit_all fuel is' s
        | _ =>
            match visit_node fuel false i s with
            | Ok s' => visit_all fuel is' s'
            | other => other
            end
        end
    end.
  Definition create_node_list (fuel : nat) : outcome list_error (list tident) :=
    match visit_all fuel (map fst c) (Listing [] []) with
    | Ok s => Ok (l_nodes s)
    | Err e => Err e
    | Panic => Panic
    end.
End Visit.
