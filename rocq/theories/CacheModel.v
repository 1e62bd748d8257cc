(** The identifier cache (xsd-parser/src/models/ident_cache.rs).

    [HashMap]s and [HashSet]s are lists of entries without a defined order: every loop over one
    of them goes through an [order] argument that may return its elements in any order. *)
From Verif Require Export IdentModel.

(** models/schema/mod.rs 86-99 [Dependency<SchemaId>]. *)
Inductive dependency := DInclude (s : nat) | DImport (s : nat) | DOverride (s : nat) | DRedefine (s : nat).

(** models/schema/mod.rs [Deref for Dependency]. *)
Definition dep_id (d : dependency) : nat :=
  match d with DInclude s | DImport s | DOverride s | DRedefine s => s end.

Definition dep_eq_dec (a b : dependency) : {a = b} + {a <> b}.
Proof. decide equality; apply Nat.eq_dec. Defined.

(** The kind and the name of a type (the elements of [SchemaEntry::types]). *)
Definition tkey := (ident_type * string)%type.
Definition tkey_eq_dec (a b : tkey) : {a = b} + {a <> b}.
Proof. decide equality; [apply string_dec|apply ident_type_eq_dec]. Defined.

(** ident_cache.rs 47-53 [SchemaEntry]. *)
Record entry := Entry { en_ns : nat; en_schema : nat; en_types : list tkey; en_deps : list dependency }.

(** ident_cache.rs 24-31 [IdentCache]. *)
Record cache := Cache {
  ca_schemas : list (nat * entry);
  ca_unknown : list (nat * entry);
  ca_namespaces : list (nat * list nat);
  ca_global : list nat }.

(** [IdentCache::default]. *)
Definition cache_new : cache := Cache [] [] [] [].

(** [HashMap::get]. *)
Fixpoint get {V} (k : nat) (m : list (nat * V)) : option V :=
  match m with
  | [] => None
  | (k', v) :: r => if Nat.eqb k k' then Some v else get k r
  end.

(** [HashMap::entry(k).or_insert_with(d)] followed by an update of the value. *)
Fixpoint upd {V} (k : nat) (d : V) (f : V -> V) (m : list (nat * V)) : list (nat * V) :=
  match m with
  | [] => [(k, f d)]
  | (k', v) :: r => if Nat.eqb k k' then (k', f v) :: r else (k', v) :: upd k d f r
  end.

(** [HashSet::insert], without the returned flag. *)
Definition set_add {A} (dec : forall a b : A, {a = b} + {a <> b}) (x : A) (l : list A) : list A :=
  if in_dec dec x l then l else l ++ [x].

Definition add_type (k : tkey) (e : entry) : entry :=
  Entry (en_ns e) (en_schema e) (set_add tkey_eq_dec k (en_types e)) (en_deps e).

(** ident_cache.rs 64-86 [insert]. *)
Definition cache_insert (i : tident) (c : cache) : cache :=
  let k := (ti_type i, name_str (ti_name i)) in
  if Nat.eqb (ti_schema i) id_unknown
  then Cache (ca_schemas c) (upd (ti_ns i) (Entry (ti_ns i) id_unknown [] []) (add_type k) (ca_unknown c))
             (ca_namespaces c) (ca_global c)
  else Cache (upd (ti_schema i) (Entry (ti_ns i) (ti_schema i) [] []) (add_type k) (ca_schemas c))
             (ca_unknown c) (ca_namespaces c) (ca_global c).

(** ident_cache.rs 92-101 [add_schema]. *)
Definition cache_add_schema (ns schema : nat) (c : cache) : cache :=
  Cache (upd schema (Entry ns schema [] []) (fun e => e) (ca_schemas c)) (ca_unknown c)
        (upd ns [] (set_add Nat.eq_dec schema) (ca_namespaces c)) (ca_global c).

Definition add_dep (d : dependency) (e : entry) : entry :=
  if in_dec dep_eq_dec d (en_deps e) then e
  else Entry (en_ns e) (en_schema e) (en_types e) (en_deps e ++ [d]).

(** [HashMap::get_mut] followed by an update of the value. *)
Fixpoint alter {V} (k : nat) (f : V -> V) (m : list (nat * V)) : list (nat * V) :=
  match m with
  | [] => []
  | (k', v) :: r => if Nat.eqb k k' then (k', f v) :: r else (k', v) :: alter k f r
  end.

(** ident_cache.rs 111-120 [add_dependency]. *)
Definition cache_add_dependency (schema : nat) (d : dependency) (c : cache) : cache :=
  Cache (alter schema (add_dep d) (ca_schemas c)) (ca_unknown c) (ca_namespaces c) (ca_global c).

(** The flag [add_dependency] returns. *)
Definition cache_dependency_added (schema : nat) (d : dependency) (c : cache) : bool :=
  match get schema (ca_schemas c) with
  | Some e => negb (is_left (in_dec dep_eq_dec d (en_deps e)))
  | None => false
  end.

(** ident_cache.rs 123-126 [add_global_namespace]. *)
Definition cache_add_global (ns : nat) (c : cache) : cache :=
  Cache (ca_schemas c) (ca_unknown c) (upd ns [] (fun s => s) (ca_namespaces c)) (ca_global c ++ [ns]).

(** ident_cache.rs 276-284 [SchemaEntry::matches]. *)
Definition entry_matches (e : entry) (i : tident) : bool :=
  (Nat.eqb (ti_ns i) id_unknown || Nat.eqb (ti_ns i) (en_ns e)) &&
  (Nat.eqb (ti_schema i) id_unknown || Nat.eqb (ti_schema i) (en_schema e)) &&
  is_left (in_dec tkey_eq_dec (ti_type i, name_str (ti_name i)) (en_types e)).

(** models/schema/mod.rs [NamespaceId::or], [SchemaId::or]. *)
Definition id_or (a b : nat) : nat := if Nat.eqb a id_unknown then b else a.

(** ident_cache.rs 286-293 [SchemaEntry::make_ident]. *)
Definition make_ident (e : entry) (i : tident) : tident :=
  TIdent (id_or (ti_ns i) (en_ns e)) (id_or (ti_schema i) (en_schema e)) (ti_name i) (ti_type i).

(** [InterpreterError::{UnknownType, AmbiguousType}]. *)
Inductive cache_error := UnknownType (i : tident) | AmbiguousType (i : tident).

(** The order in which the hash tables are iterated. *)
Record order := Order {
  or_ids : list nat -> list nat;
  or_types : list tkey -> list tkey;
  or_entries : list (nat * entry) -> list (nat * entry) }.

(** One step of the loops of [resolve] (155-165 and 168-176). *)
Definition resolve_step (i : tident) (e : entry) (r : option tident) : cache_error + option tident :=
  if entry_matches e i
  then match r with Some _ => inl (AmbiguousType i) | None => inr (Some (make_ident e i)) end
  else inr r.

Fixpoint resolve_entries (i : tident) (l : list entry) (r : option tident) : cache_error + option tident :=
  match l with
  | [] => inr r
  | e :: l' => match resolve_step i e r with inl x => inl x | inr r' => resolve_entries i l' r' end
  end.

(** [self.schemas.get(&schema)] for each schema, skipping the missing ones (155-156). *)
Definition entries_of (c : cache) (ids : list nat) : list entry :=
  flat_map (fun s => match get s (ca_schemas c) with Some e => [e] | None => [] end) ids.

(** ident_cache.rs 141-151: the schemas to search. *)
Definition resolve_schemas (o : order) (c : cache) (i : tident) : list nat :=
  if Nat.eqb (ti_schema i) id_unknown
  then if Nat.eqb (ti_ns i) id_unknown then or_ids o (map fst (ca_schemas c))
       else match get (ti_ns i) (ca_namespaces c) with Some l => or_ids o l | None => [] end
  else [ti_schema i].

(** ident_cache.rs 140-183 [resolve]. *)
Definition cache_resolve (o : order) (c : cache) (i : tident) : outcome cache_error tident :=
  match resolve_entries i (entries_of c (resolve_schemas o c i)) None with
  | inl e => Err e
  | inr r =>
    match (if Nat.eqb (ti_schema i) id_unknown
           then resolve_entries i (map snd (or_entries o (ca_unknown c))) r else inr r) with
    | inl e => Err e
    | inr (Some t) => Ok t
    | inr None => Err (UnknownType i)
    end
  end.

(** ident_cache.rs 193-199 [resolve_allow_unknown]. *)
Definition cache_resolve_allow_unknown (o : order) (c : cache) (i : tident) : outcome cache_error tident :=
  match cache_resolve o c i with
  | Err (UnknownType t) => Ok t
  | r => r
  end.

(** ident_cache.rs 250-272 [search_in_schema]: the visited schemas and the entry found.  The
    recursion is bounded by [fuel]; [None] is an exhausted bound (a stack overflow). *)
Fixpoint search (fuel : nat) (c : cache) (i : tident) (visited : list nat) (schema : nat)
  : option (list nat * option entry) :=
  match fuel with
  | 0 => None
  | S n =>
    if in_dec Nat.eq_dec schema visited then Some (visited, None)
    else
      let visited := schema :: visited in
      match get schema (ca_schemas c) with
      | None => Some (visited, None)
      | Some e =>
        if entry_matches e i then Some (visited, Some e)
        else
          (fix deps (ds : list dependency) (visited : list nat) : option (list nat * option entry) :=
             match ds with
             | [] => Some (visited, None)
             | d :: ds' =>
               match search n c i visited (dep_id d) with
               | None => None
               | Some (v, Some e) => Some (v, Some e)
               | Some (v, None) => deps ds' v
               end
             end) (en_deps e) visited
      end
  end.

(** A loop over schemas that share the visited set (235-237, and 265-269 above). *)
Fixpoint search_all (fuel : nat) (c : cache) (i : tident) (visited : list nat) (ids : list nat)
  : option (list nat * option entry) :=
  match ids with
  | [] => Some (visited, None)
  | s :: ids' =>
    match search fuel c i visited s with
    | None => None
    | Some (v, Some e) => Some (v, Some e)
    | Some (v, None) => search_all fuel c i v ids'
    end
  end.

(** The schemas of the global namespaces, in the order they are searched (233-234). *)
Definition global_ids (o : order) (c : cache) : list nat :=
  flat_map (fun ns => match get ns (ca_namespaces c) with Some l => or_ids o l | None => [] end) (ca_global c).

(** ident_cache.rs 222-248 [resolve_for_schema]. *)
Definition cache_resolve_for (fuel : nat) (o : order) (c : cache) (schema : nat) (i : tident)
  : outcome cache_error tident :=
  match search fuel c i [] schema with
  | None => Panic
  | Some (_, Some e) => Ok (make_ident e i)
  | Some (v, None) =>
    match search_all fuel c i v (global_ids o c) with
    | None => Panic
    | Some (_, Some e) => Ok (make_ident e i)
    | Some (_, None) =>
      match find (fun e => entry_matches e i) (map snd (or_entries o (ca_unknown c))) with
      | Some e => Ok (make_ident e i)
      | None => Err (UnknownType i)
      end
    end
  end.

(** ident_cache.rs 37-45 [SchemaSetIter]: the running type iterator is the namespace, the schema
    and the types still to come; each dependency iterator is the dependencies still to come. *)
Record set_iter := SetIter {
  si_visited : list nat;
  si_emitted : list tkey;
  si_types : option (nat * nat * list tkey);
  si_deps : list (list dependency) }.

(** ident_cache.rs 297-309 [SchemaSetIter::new].  The last element of the Rust vector of
    dependency iterators is the head of the list. *)
Definition set_iter_new (o : order) (c : cache) (schema : nat) : set_iter :=
  match get schema (ca_schemas c) with
  | Some e => SetIter [] [] (Some (en_ns e, en_schema e, or_types o (en_types e))) [en_deps e]
  | None => SetIter [] [] None []
  end.

(** One turn of the loop of [next] (316-347): either the iterator goes on, possibly yielding an
    identifier, or it has ended. *)
Definition set_iter_turn (o : order) (c : cache) (s : set_iter) : option (set_iter * option tident) :=
  match si_types s with
  | Some (ns, schema, k :: ks) =>
    let s' := SetIter (si_visited s) (si_emitted s) (Some (ns, schema, ks)) (si_deps s) in
    if in_dec tkey_eq_dec k (si_emitted s) then Some (s', None)
    else Some (SetIter (si_visited s) (k :: si_emitted s) (Some (ns, schema, ks)) (si_deps s),
               Some (TIdent ns schema (Named (snd k)) (fst k)))
  | Some (_, _, []) => Some (SetIter (si_visited s) (si_emitted s) None (si_deps s), None)
  | None =>
    match si_deps s with
    | (d :: ds) :: st =>
      if in_dec Nat.eq_dec (dep_id d) (si_visited s)
      then Some (SetIter (si_visited s) (si_emitted s) None (ds :: st), None)
      else
        match get (dep_id d) (ca_schemas c) with
        | None => Some (SetIter (dep_id d :: si_visited s) (si_emitted s) None (ds :: st), None)
        | Some e => Some (SetIter (dep_id d :: si_visited s) (si_emitted s)
                                  (Some (en_ns e, en_schema e, or_types o (en_types e)))
                                  (en_deps e :: ds :: st), None)
        end
    | [] :: st => Some (SetIter (si_visited s) (si_emitted s) None st, None)
    | [] => None
    end
  end.

(** Collecting the whole iterator; [None] if it has not ended after [fuel] turns. *)
Fixpoint set_iter_run (fuel : nat) (o : order) (c : cache) (s : set_iter) : option (list tident) :=
  match fuel with
  | 0 => None
  | S n =>
    match set_iter_turn o c s with
    | None => Some []
    | Some (s', out) =>
      match set_iter_run n o c s' with
      | Some l => Some (match out with Some t => t :: l | None => l end)
      | None => None
      end
    end
  end.

(** ident_cache.rs 206-208 [schema_set]. *)
Definition schema_set (fuel : nat) (o : order) (c : cache) (schema : nat) : option (list tident) :=
  set_iter_run fuel o c (set_iter_new o c schema).

(** The calls that change the cache. *)
Inductive cache_op :=
| OpInsert (i : tident)
| OpSchema (ns schema : nat)
| OpDependency (schema : nat) (d : dependency)
| OpGlobal (ns : nat).

Definition cache_do (c : cache) (op : cache_op) : cache :=
  match op with
  | OpInsert i => cache_insert i c
  | OpSchema ns s => cache_add_schema ns s c
  | OpDependency s d => cache_add_dependency s d c
  | OpGlobal ns => cache_add_global ns c
  end.

Definition cache_run (h : list cache_op) : cache := fold_left cache_do h cache_new.
