(** Redefinitions and overrides (xsd-parser/src/pipeline/interpreter/state/crate_ident_cache.rs,
    state/crate_node_cache.rs).

    The identifier cache is kept as the list of the calls made on it ([CacheModel.cache_run]);
    [HashSet]s are lists, and every loop over one goes through an argument that chooses the order. *)
From Verif Require Import Base IdentModel.
From Verif Require CacheModel NodeModel.
Import NodeModel (node_kind, NGroup, NElement, NAttribute, NSimpleType, NComplexType, NAttributeGroup,
  Strong, Lazy, Weak, dep_key, KNamed, KInlineElement, KInlineSimpleType, dep_insert,
  ref_type, ref_dep, qref, part, PRef, PInside, PInline).
Notation node_dep := NodeModel.dependency.
Notation history := (list CacheModel.cache_op).

(** state.rs 57-61 [NodeCacheEntry]. *)
Record rentry := REntry { r_kind : node_kind; r_deps : list (dep_key * node_dep); r_base : option tident }.

(** state.rs 85 [NodeCache]: [IndexMap::get] and [IndexMap::insert]. *)
Definition rnodes := list (tident * rentry).
Fixpoint rget (i : tident) (c : rnodes) : option rentry :=
  match c with
  | [] => None
  | (i', e) :: c' => if tident_eq_dec i i' then Some e else rget i c'
  end.
Fixpoint rset (i : tident) (e : rentry) (c : rnodes) : rnodes :=
  match c with
  | [] => [(i, e)]
  | (i', e') :: c' => if tident_eq_dec i i' then (i, e) :: c' else (i', e') :: rset i e c'
  end.

(** crate_node_cache.rs 986-1008 [Deref] and [DerefMut] of [NodeDependency]. *)
Definition dep_target (d : node_dep) : tident := match d with Strong i | Lazy i | Weak i => i end.
Definition dep_with (d : node_dep) (i : tident) : node_dep :=
  match d with Strong _ => Strong i | Lazy _ => Lazy i | Weak _ => Weak i end.

(** * Redirecting what refers to a redefined component *)

(** The node cache, the identifier cache and the set [idents]. *)
Record rstate := RState { s_nodes : rnodes; s_hist : history; s_todo : list tident }.

(** crate_node_cache.rs 361-364: the dependency is one on the old identifier. *)
Definition points_to (old : tident) (e : rentry) (x : dep_key * node_dep) : bool :=
  is_left (tident_eq_dec (dep_target (snd x)) old) &&
  negb (match r_base e with Some b => is_left (tident_eq_dec b old) | None => false end).

(** crate_node_cache.rs 355-391: the body of the inner loop. *)
Definition redirect_one (schema : nat) (old : tident) (s : rstate) (i : tident) : rstate :=
  match rget i (s_nodes s) with
  | None => s
  | Some e =>
      match find (points_to old e) (r_deps e) with
      | None => s
      | Some (k, d) =>
          let deps := dep_insert k (dep_with d (ti_with_schema old schema)) (r_deps e) in
          if Nat.eqb (ti_schema i) schema then
            RState (rset i (REntry (r_kind e) deps (r_base e)) (s_nodes s)) (s_hist s) (s_todo s)
          else
            let i' := ti_with_schema i schema in
            RState (rset i' (REntry (r_kind e) deps (Some i)) (s_nodes s))
                   (s_hist s ++ [CacheModel.OpInsert i']) (CacheModel.set_add tident_eq_dec i (s_todo s))
      end
  end.

(** crate_node_cache.rs 346-394 [resolve_dependencies]: [pick] is the first element of the hash
    set; [None]: the bounds were not enough. *)
Fixpoint resolve_dependencies (fuel set_fuel : nat) (o : CacheModel.order) (pick : list tident -> option tident)
  (schema : nat) (s : rstate) : option rstate :=
  match fuel with
  | 0 => None
  | S n =>
      match pick (s_todo s) with
      | None => Some s
      | Some old =>
          let s' := RState (s_nodes s) (s_hist s) (remove tident_eq_dec old (s_todo s)) in
          match CacheModel.schema_set set_fuel o (CacheModel.cache_run (s_hist s)) schema with
          | None => None
          | Some l => resolve_dependencies n set_fuel o pick schema (fold_left (redirect_one schema old) l s')
          end
      end
  end.

(** * The whole node cache *)

(** A named component of a schema: its node, its name and its parts. *)
Definition named_comp := (node_kind * string * part)%type.

(** The content of a schema document; schema locations are the numbers of the schemas. *)
Inductive content :=
| CImport (s : nat)
| CInclude (s : nat)
| COverride (s : nat) (l : list named_comp)
| CRedefine (s : nat) (l : list named_comp)
| CComponent (c : named_comp).
(** models/schema/mod.rs [SchemaInfo]. *)
Record doc := Doc { d_id : nat; d_ns : nat; d_deps : list CacheModel.dependency; d_content : list content }.

(** crate_node_cache.rs 974-983 [ident_type]. *)
Definition kind_type (k : node_kind) : ident_type :=
  match k with
  | NGroup => ITGroup | NElement => ITElement | NAttribute => ITAttribute
  | NSimpleType | NComplexType => ITType | NAttributeGroup => ITAttributeGroup
  end.
Definition comp_ident (ns schema : nat) (c : named_comp) : tident :=
  TIdent ns schema (Named (snd (fst c))) (kind_type (fst (fst c))).

(** crate_ident_cache.rs 35-133 [create_ident_cache], without the global namespaces. *)
Definition content_idents (ns schema : nat) (c : content) : list tident :=
  match c with
  | CImport _ | CInclude _ => []
  | COverride _ l | CRedefine _ l => map (comp_ident ns schema) l
  | CComponent x => [comp_ident ns schema x]
  end.
Definition doc_ops (d : doc) : history :=
  CacheModel.OpSchema (d_ns d) (d_id d) :: map (CacheModel.OpDependency (d_id d)) (d_deps d) ++
  map CacheModel.OpInsert (flat_map (content_idents (d_ns d) (d_id d)) (d_content d)).
Definition create_ident_cache (docs : list doc) : history := flat_map doc_ops docs.

Section Process.
  Variables (fuel : nat) (o : CacheModel.order) (pick : list tident -> option tident).
  Variable docs : list doc.

  (** crate_node_cache.rs 917-936 [resolve_type_ident]: [base] is the redefined component of the
      active node.  Not modelled: unknown namespaces. *)
  Definition resolve_name (h : history) (schema : nat) (base : option tident) (q : qref) (t : ident_type)
    : option tident :=
    let wanted := TIdent (fst q) id_unknown (Named (snd q)) t in
    let search :=
      match CacheModel.cache_resolve_for fuel o (CacheModel.cache_run h) schema wanted with
      | Ok i => Some i
      | _ => match CacheModel.cache_resolve o (CacheModel.cache_run h) wanted with Ok i => Some i | _ => None end
      end in
    match base with
    | Some b =>
        if Nat.eqb (ti_ns b) (fst q) && String.eqb (name_str (ti_name b)) (snd q) &&
           is_left (ident_type_eq_dec (ti_type b) t)
        then Some b else search
    | None => search
    end.

  (** crate_node_cache.rs 396-699, 780-808, 838-855: the parts of a node, the dependencies of the
      active node and the nodes and identifiers made so far. *)
  Definition rcollecting := (list (dep_key * node_dep) * rnodes * history)%type.
  Fixpoint rprocess (schema : nat) (base : option tident) (x : part) (s : rcollecting) {struct x} : option rcollecting :=
    match x with
    | PRef k q =>
        match resolve_name (snd s) schema base q (ref_type k) with
        | Some i => Some (dep_insert (KNamed (fst q) (ref_type k) (snd q)) (ref_dep k i) (fst (fst s)), snd (fst s), snd s)
        | None => None
        end
    | PInside ps =>
        (fix all ps s := match ps with
                         | [] => Some s
                         | p :: ps' => match rprocess schema base p s with Some s' => all ps' s' | None => None end
                         end) ps s
    | PInline kd a i ps =>
        match (fix all ps s := match ps with
                               | [] => Some s
                               | p :: ps' => match rprocess schema None p s with Some s' => all ps' s' | None => None end
                               end) ps ([], snd (fst s), snd s) with
        | Some (ds, c, h) =>
            let key := match kd with NElement => KInlineElement a | _ => KInlineSimpleType a end in
            Some (dep_insert key (Weak i) (fst (fst s)), rset i (REntry kd ds None) c, h ++ [CacheModel.OpInsert i])
        | None => None
        end
    end.

  (** crate_node_cache.rs 750-778 [new_entry] and 810-836 [new_redefined_entry]: [redefines] is the
      schema of the redefined component. *)
  Definition new_entry (ns schema : nat) (redefines : option nat) (c : named_comp) (s : rnodes * history)
    : option (rnodes * history) :=
    let i := comp_ident ns schema c in
    let base := option_map (fun b => ti_with_schema i b) redefines in
    match rprocess schema base (snd c) ([], fst s, snd s) with
    | Some (ds, n, h) => Some (rset i (REntry (fst (fst c)) ds base) n, h ++ [CacheModel.OpInsert i])
    | None => None
    end.
  Fixpoint new_entries (ns schema : nat) (redefines : option nat) (l : list named_comp) (s : rnodes * history)
    : option (rnodes * history) :=
    match l with
    | [] => Some s
    | c :: l' => match new_entry ns schema redefines c s with Some s' => new_entries ns schema redefines l' s' | None => None end
    end.

  (** crate_node_cache.rs 219-342 [process_override], [process_redefine]. *)
  Definition process_redefine (ns schema base : nat) (l : list named_comp) (s : rnodes * history)
    : option (rnodes * history) :=
    match new_entries ns schema (Some base) l s with
    | Some (n, h) =>
        match resolve_dependencies fuel fuel o pick schema (RState n h (map (comp_ident ns base) l)) with
        | Some s' => Some (s_nodes s', s_hist s')
        | None => None
        end
    | None => None
    end.

  (** The nodes, the calls on the identifier cache and the processed schemas. *)
  Definition rall := (rnodes * history * list nat)%type.

  (** crate_node_cache.rs 90-150 [process_schema], [process_schema_imports] and 152-217
      [process_schema_content]. *)
  Fixpoint process_schema (depth : nat) (id : nat) (s : rall) {struct depth} : option rall :=
    match depth with
    | 0 => None
    | S n =>
        if in_dec Nat.eq_dec id (snd s) then Some s
        else
          match find (fun d => Nat.eqb (d_id d) id) docs with
          | None => None
          | Some d =>
              let h := snd (fst s) ++ CacheModel.OpSchema (d_ns d) id :: map (CacheModel.OpDependency id) (d_deps d) in
              let imports :=
                (fix go (l : list content) (s : rall) : option rall :=
                   match l with
                   | [] => Some s
                   | CImport b :: l' | CInclude b :: l' =>
                       match process_schema n b s with Some s' => go l' s' | None => None end
                   | COverride b cs :: l' | CRedefine b cs :: l' =>
                       match process_schema n b s with
                       | Some (ns, h, v) =>
                           match process_redefine (d_ns d) id b cs (ns, h) with
                           | Some s' => go l' (s', v)
                           | None => None
                           end
                       | None => None
                       end
                   | CComponent _ :: l' => go l' s
                   end) (d_content d) (fst (fst s), h, id :: snd s) in
              match imports with
              | Some s' =>
                  match new_entries (d_ns d) id None
                          (flat_map (fun c => match c with CComponent x => [x] | _ => [] end) (d_content d)) (fst s') with
                  | Some r => Some (r, snd s')
                  | None => None
                  end
              | None => None
              end
          end
    end.

  (** crate_node_cache.rs 76-88 [process]. *)
  Fixpoint process_all (ids : list nat) (s : rall) : option rall :=
    match ids with
    | [] => Some s
    | i :: ids' => match process_schema (S (length docs)) i s with Some s' => process_all ids' s' | None => None end
    end.
  Definition create_node_cache : option (rnodes * history) :=
    option_map fst (process_all (map d_id docs) ([], create_ident_cache docs, [])).
End Process.
