(** What the properties of the order of generation say. *)
From Verif Require Export NodeModel.

Definition strong_edge (c : node_cache) (i j : tident) : Prop :=
  exists e k, node_get i c = Some e /\ In (k, Strong j) (e_deps e).
Definition lazy_edge (c : node_cache) (i j : tident) : Prop :=
  exists e k, node_get i c = Some e /\ In (k, Lazy j) (e_deps e).
Definition edge (c : node_cache) (i j : tident) : Prop := strong_edge c i j \/ lazy_edge c i j.

(** One or more steps. *)
Inductive steps {A} (R : A -> A -> Prop) : A -> A -> Prop :=
| steps_one a b : R a b -> steps R a b
| steps_more a b d : R a b -> steps R b d -> steps R a d.

(** [i] needs [j]: it depends on it, or refers to groups and groups in these that do. *)
Inductive needs (c : node_cache) : tident -> tident -> Prop :=
| needs_strong i j : strong_edge c i j -> needs c i j
| needs_lazy i g j : lazy_edge c i g -> needs c g j -> needs c i j.

(** A node types are generated for. *)
Definition generated (c : node_cache) (i : tident) : Prop :=
  exists e, node_get i c = Some e /\ generates (e_kind e) = true.

(** No group refers to itself, directly or through other groups. *)
Definition no_lazy_cycle (c : node_cache) : Prop := forall i, ~ steps (lazy_edge c) i i.

(** * Derivation, in terms of the schema *)

(** The references of a component itself, in the order of the document: not those of the
    anonymous parts that have nodes of their own. *)
Fixpoint references (x : part) : list (ref_kind * qref) :=
  match x with
  | PRef k q => [(k, q)]
  | PInside ps => flat_map references ps
  | PInline _ _ _ _ => []
  end.

(** [x] says base type or head of a substitution group about [q], and no reference of another
    strength to the same name follows. *)
Definition last_says (x : part) (k : ref_kind) (q : qref) : Prop :=
  exists before after, references x = before ++ (k, q) :: after /\
    forall k', In (k', q) after -> ref_type k' = ref_type k -> ref_dep k' = ref_dep k.

(** The anonymous parts with nodes of their own, at any depth. *)
Inductive inside : part -> node_kind -> tident -> part -> Prop :=
| inside_this kd a i ps : inside (PInline kd a i ps) kd i (PInside ps)
| inside_deeper kd a i ps p kd' i' y : In p ps -> inside p kd' i' y -> inside (PInline kd a i ps) kd' i' y
| inside_in ps p kd' i' y : In p ps -> inside p kd' i' y -> inside (PInside ps) kd' i' y.

(** All components of a schema: the named ones and the anonymous ones in them. *)
Inductive component (l : list (node_kind * tident * part)) : node_kind -> tident -> part -> Prop :=
| comp_top kd i x : In (kd, i, x) l -> component l kd i x
| comp_in kd i x kd' i' y : In (kd, i, x) l -> inside x kd' i' y -> component l kd' i' y.

(** The identifiers of all components. *)
Fixpoint all_idents (x : part) : list tident :=
  match x with
  | PRef _ _ => []
  | PInside ps => flat_map all_idents ps
  | PInline _ _ i ps => flat_map all_idents ps ++ [i]
  end.
Definition schema_idents (l : list (node_kind * tident * part)) : list tident :=
  flat_map (fun x => snd (fst x) :: all_idents (snd x)) l.
